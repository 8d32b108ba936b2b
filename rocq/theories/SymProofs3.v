(** Group laws on the finite domain, the index table of the assembler, and the
    dof permutation matrix. *)
From Verif Require Import Prelude DofModel DofSpec DofProofs DofProofs2 SymModel SymSpec SymProofs SymProofs2.
From Coq Require Import FinFun Permutation.

Lemma eqb_onat : forall (a b : option nat), match a, b with Some x, Some y => x =? y | _, _ => false end = true ->
  a = b /\ exists x, a = Some x.
Proof. intros [x|] [y|] H; try discriminate. apply Nat.eqb_eq in H. subst. eauto. Qed.

(** Classes for which the numbering of places does not depend on how the corners
    of the entity are listed: everything except s3 and s6 on faces 2 and 3. *)
Definition sorted_entity (t e c : nat) : bool := negb ((t =? 3) || (t =? 4)) || (e <? 2) || (c =? 0).

Lemma identity_check : all_points (fun t e c l => negb (sorted_entity t e c) ||
  match index_on t e c l id4 with Some r => r =? l | None => false end) = true.
Proof. vm_compute. reflexivity. Qed.
Lemma elem_check : forallb (fun t => forallb (fun e => forallb (fun p =>
   match remap_elem t e p with
   | Some e' => (e' <? tet_elems t) &&
       forallb (fun v => Bool.eqb (existsb (Nat.eqb v) (corners t e')) (existsb (Nat.eqb v) (map (app4 p) (corners t e)))) (seq 0 4)
   | None => false end) perms4) (seq 0 (tet_elems t))) (seq 0 6) = true.
Proof. vm_compute. reflexivity. Qed.
Lemma existsb_in : forall v l, existsb (Nat.eqb v) l = true <-> In v l.
Proof.
  intros v l. rewrite existsb_exists. split.
  - intros (x & H & E). apply Nat.eqb_eq in E. now subst.
  - intros H. exists v. split; [exact H|apply Nat.eqb_refl].
Qed.
Lemma app4_lt : forall p v, is_perm4 p -> v < 4 -> app4 p v < 4.
Proof.
  intros p v (Hl & _ & Hf) Hv. rewrite Forall_forall in Hf. apply Hf, nth_In. lia.
Qed.
Lemma remap_elem_ok : forall t e p, t < 6 -> e < tet_elems t -> is_perm4 p ->
  exists e', remap_elem t e p = Some e' /\ e' < tet_elems t /\
    forall v, In v (corners t e') <-> In v (map (app4 p) (corners t e)).
Proof.
  intros t e p Ht He Hp. pose proof elem_check as H.
  apply forall_seq with (x := t) in H; [|exact Ht]. apply forall_seq with (x := e) in H; [|exact He].
  eapply forall_perms in H; [|exact Hp]. cbv beta in H. destruct (remap_elem t e p) as [e'|] eqn:E; [|discriminate].
  exists e'. apply andb_true_iff in H as [H1 H2]. apply Nat.ltb_lt in H1. split; [reflexivity|]. split; [exact H1|]. intros v. split; intros Hv.
  - assert (v < 4) by (eapply (corners_lt t e'); eassumption). apply forall_seq with (x := v) in H2; [|assumption].
    apply eqb_prop in H2. apply existsb_in. rewrite <- H2. now apply existsb_in.
  - assert (v < 4).
    { apply in_map_iff in Hv as (w & <- & Hw). apply app4_lt; [exact Hp|]. apply (corners_lt t e); assumption. }
    apply forall_seq with (x := v) in H2; [|assumption].
    apply eqb_prop in H2. apply existsb_in. rewrite H2. now apply existsb_in.
Qed.

Lemma compose_check : all_points (fun t e c l => forallb (fun p => forallb (fun q =>
   match index_on t e c l p, remap_elem t e p with
   | Some r, Some e' => negb (sorted_entity t e' c) ||
       match index_on t e' c r q, index_on t e c l (compose4 q p) with Some x, Some y => x =? y | _, _ => false end
   | _, _ => false end) perms4) perms4) = true.
Proof. vm_compute. reflexivity. Qed.
Lemma remap_compose_check : forallb (fun t => forallb (fun e => forallb (fun p => forallb (fun q =>
   match remap_elem t e p with Some e' =>
     match remap_elem t e' q, remap_elem t e (compose4 q p) with Some x, Some y => x =? y | _, _ => false end &&
     match perm_sign t e p, perm_sign t e' q, perm_sign t e (compose4 q p) with
     | Some a, Some b, Some c => (c =? b * a)%Z && ((a =? 1)%Z || (a =? -1)%Z)
     | _, _, _ => false end
   | None => false end) perms4) perms4) (seq 0 (tet_elems t))) (seq 0 6) = true.
Proof. vm_compute. reflexivity. Qed.
Lemma id_check : forallb (fun t => forallb (fun e =>
   match remap_elem t e id4, perm_sign t e id4 with Some x, Some s => (x =? e) && (s =? 1)%Z | _, _ => false end)
   (seq 0 (tet_elems t))) (seq 0 6) = true.
Proof. vm_compute. reflexivity. Qed.
Lemma index_identity : forall t e c l, t < 6 -> e < tet_elems t -> l < npoints t c -> sorted_entity t e c = true ->
  index_on t e c l id4 = Some l.
Proof.
  intros t e c l Ht He Hl Hs. pose proof (all_points_iff _ identity_check t e c l Ht He Hl) as H. cbv beta in H.
  rewrite Hs in H. cbn [negb orb] in H. destruct (index_on t e c l id4) as [r|]; [|discriminate].
  apply Nat.eqb_eq in H. now subst.
Qed.
Lemma index_compose : forall t e c l p q, t < 6 -> e < tet_elems t -> l < npoints t c -> is_perm4 p -> is_perm4 q ->
  forall e' r, remap_elem t e p = Some e' -> index_on t e c l p = Some r -> sorted_entity t e' c = true ->
  index_on t e' c r q = index_on t e c l (compose4 q p).
Proof.
  intros t e c l p q Ht He Hl Hp Hq e' r Ee Er Hs. pose proof (all_points_iff _ compose_check t e c l Ht He Hl) as H. cbv beta in H.
  eapply forall_perms in H; [|exact Hp]. cbv beta in H. eapply forall_perms in H; [|exact Hq]. cbv beta in H.
  rewrite Ee, Er, Hs in H. cbn [negb orb] in H. now apply eqb_onat in H.
Qed.
Lemma elem_compose : forall t e p q, t < 6 -> e < tet_elems t -> is_perm4 p -> is_perm4 q -> forall e', remap_elem t e p = Some e' ->
  remap_elem t e' q = remap_elem t e (compose4 q p).
Proof.
  intros t e p q Ht He Hp Hq e' E. pose proof remap_compose_check as H.
  apply forall_seq with (x := t) in H; [|exact Ht]. apply forall_seq with (x := e) in H; [|exact He].
  eapply forall_perms in H; [|exact Hp]. cbv beta in H. eapply forall_perms in H; [|exact Hq]. cbv beta in H.
  rewrite E in H. apply andb_true_iff in H as [H _]. now apply eqb_onat in H.
Qed.
Lemma sign_compose : forall t e p q, t < 6 -> e < tet_elems t -> is_perm4 p -> is_perm4 q -> forall e', remap_elem t e p = Some e' ->
  exists a b, perm_sign t e p = Some a /\ perm_sign t e' q = Some b /\ perm_sign t e (compose4 q p) = Some (b * a)%Z /\ (a = 1 \/ a = -1)%Z.
Proof.
  intros t e p q Ht He Hp Hq e' E. pose proof remap_compose_check as H.
  apply forall_seq with (x := t) in H; [|exact Ht]. apply forall_seq with (x := e) in H; [|exact He].
  eapply forall_perms in H; [|exact Hp]. cbv beta in H. eapply forall_perms in H; [|exact Hq]. cbv beta in H.
  rewrite E in H. apply andb_true_iff in H as [_ H].
  destruct (perm_sign t e p) as [a|], (perm_sign t e' q) as [b|], (perm_sign t e (compose4 q p)) as [c|]; try discriminate.
  apply andb_true_iff in H as [H1 H2]. apply Z.eqb_eq in H1. subst c. exists a, b. repeat split.
  apply orb_true_iff in H2 as [H2|H2]; apply Z.eqb_eq in H2; auto.
Qed.
Lemma compose_perm : forall p q, is_perm4 p -> is_perm4 q -> is_perm4 (compose4 q p).
Proof.
  intros p q Hp Hq.
  assert (H : forallb (fun p => forallb (fun q => existsb (fun x => if list_eq_dec Nat.eq_dec x (compose4 q p) then true else false) perms4) perms4) perms4 = true)
    by (vm_compute; reflexivity).
  eapply forall_perms in H; [|exact Hp]. cbv beta in H. eapply forall_perms in H; [|exact Hq]. cbv beta in H.
  apply existsb_exists in H as (x & Hx & E). destruct (list_eq_dec Nat.eq_dec x (compose4 q p)); [|discriminate].
  subst. now apply in_perms4.
Qed.
Lemma id_perm : is_perm4 id4.
Proof. apply in_perms4. vm_compute. auto. Qed.

Lemma placed_inj : forall t e c l l' p r, t < 6 -> e < tet_elems t -> l < npoints t c -> l' < npoints t c ->
  placed t e c l p r -> placed t e c l' p r -> l = l'.
Proof.
  intros t e c l l' p r Ht He Hl Hl' [_ H] [_ H']. apply (marks_inj t c); [assumption..|]. intros k Hk.
  rewrite <- (length_corners t e) in Hk by assumption. destruct (nth_error (corners t e) k) as [v|] eqn:E;
    [|apply nth_error_None in E; lia].
  rewrite <- (H k v E). apply H', E.
Qed.
Lemma onto_check : all_points (fun t e c r => forallb (fun p => existsb (fun l =>
   match index_on t e c l p with Some x => x =? r | None => false end) (seq 0 (npoints t c))) perms4) = true.
Proof. vm_compute. reflexivity. Qed.
Lemma index_onto : forall t e c r p, t < 6 -> e < tet_elems t -> r < npoints t c -> is_perm4 p ->
  exists l, l < npoints t c /\ index_on t e c l p = Some r.
Proof.
  intros t e c r p Ht He Hr Hp. pose proof (all_points_iff _ onto_check t e c r Ht He Hr) as H. cbv beta in H.
  eapply forall_perms in H; [|exact Hp]. cbv beta in H. apply existsb_exists in H as (l & Hl & E).
  apply in_seq in Hl. exists l. split; [lia|]. destruct (index_on t e c l p) as [x|]; [|discriminate].
  apply Nat.eqb_eq in E. now subst.
Qed.

(** *** The index table *)
Lemma local_order_inv : forall d i lo, wf d -> local_order d i = Some lo ->
  i < length (layout d) /\ nth_error (layout d) i = Some (dof_of_lo lo) /\ lo_gid lo = i.
Proof.
  intros d i lo Hwf E. rewrite local_order_layout in E by assumption.
  destruct (nth_error (layout d) i) as [[t e p s]|] eqn:Ei; [|discriminate]. injection E as <-.
  split; [apply nth_error_Some; congruence|]. split; reflexivity.
Qed.
Lemma dof_facts : forall d i t e p c k, wf d -> nth_error (layout d) i = Some (Dof t e p (Some (c, k))) ->
  t < 6 /\ e < tet_elems t /\ p < cnt d t /\ k < npoints t c /\ k <= i /\ k <= p.
Proof.
  intros d i t e p c k Hwf E. destruct (oclosed_layout d Hwf _ _ _ _ _ _ E) as (H1 & H2 & H3 & _).
  assert (Hin : In (t, e, p) (loci d)) by (apply (in_map locus) with (x := Dof t e p (Some (c, k))); eapply nth_error_In; eauto).
  apply in_loci in Hin. intuition.
Qed.
Lemma same_locus : forall d i j t e p s s', nth_error (layout d) i = Some (Dof t e p s) ->
  nth_error (layout d) j = Some (Dof t e p s') -> i = j.
Proof.
  intros d i j t e p s s' Ei Ej. pose proof (NoDup_loci d) as H. rewrite NoDup_nth_error in H. apply H.
  - unfold loci. rewrite map_length. apply nth_error_Some. congruence.
  - unfold loci. rewrite !nth_error_map, Ei, Ej. reflexivity.
Qed.

Lemma asm_table_ok : forall {A} d p (numb : LocalOrder -> A), wf d -> labelled d -> is_perm4 p ->
  exists tab, asm_table d p numb = Some tab /\ length tab = num_dof_tet d /\
    forall i lo c l r, local_order d i = Some lo -> lo_sym lo = Some (c, l) ->
      index_on (lo_type lo) (lo_elem lo) c l p = Some r -> nth_error tab (i - l + r) = Some (Some (numb lo)).
Proof.
  intros A d p numb Hwf Hlab Hp.
  set (slot := fun i => do lo <- local_order d i; asm_slot p i lo).
  set (val := fun i => match local_order d i with Some lo => Some (numb lo) | None => None end).
  assert (Hslot : forall i, i < num_dof_tet d -> exists lo c l r, local_order d i = Some lo /\ lo_sym lo = Some (c, l) /\
     l <= i /\ l < npoints (lo_type lo) c /\ r < npoints (lo_type lo) c /\
     index_on (lo_type lo) (lo_elem lo) c l p = Some r /\ slot i = Some (i - l + r) /\
     nth_error (layout d) i = Some (Dof (lo_type lo) (lo_elem lo) (lo_leid lo) (Some (c, l))) /\ lo_type lo < 6 /\ lo_elem lo < tet_elems (lo_type lo)).
  { intros i Hi. rewrite length_layout_num in Hi by assumption.
    destruct (nth_error (layout d) i) as [[t e q s]|] eqn:E; [|apply nth_error_None in E; lia].
    destruct s as [[c l]|]; [|exfalso; eapply Hlab; [eapply nth_error_In, E|reflexivity]].
    destruct (dof_facts d i t e q c l Hwf E) as (H1 & H2 & H3 & H4 & H5 & H6).
    destruct (index_placed t e c l p H1 H2 H4 Hp) as (r & Er & [Hr _]).
    exists (LO i t e q (Some (c, l))), c, l, r. cbn [lo_type lo_elem lo_leid lo_sym].
    assert (El : local_order d i = Some (LO i t e q (Some (c, l)))) by (rewrite local_order_layout, E by assumption; reflexivity).
    repeat split; try assumption. unfold slot. rewrite El. cbn [obind]. unfold asm_slot.
    cbn [lo_type lo_elem lo_leid lo_sym obind fst snd]. rewrite Er. cbn [obind]. unfold sub_chk.
    rewrite (proj2 (Nat.leb_le l i) H5). reflexivity. }
  destruct (scatter (num_dof_tet d) slot val (fun i tab =>
    do lo <- local_order d i; do s <- asm_slot p i lo; wr tab s (Some (numb lo))) (repeat None (num_dof_tet d)))
    as (tab & E & Hl & H1 & _).
  - intros i Hi. destruct (Hslot i Hi) as (lo & c & l & r & Elo & Es & Hli & Hl & Hr & Er & Esl & En & _).
    exists (i - l + r). split; [exact Esl|]. rewrite repeat_length, length_layout_num by assumption.
    destruct (oclosed_layout d Hwf _ _ _ _ _ _ En) as (_ & _ & _ & H). apply nth_error_Some. rewrite (H r Hr). discriminate.
  - intros i j s Hi Hj Si Sj. destruct (Hslot i Hi) as (lo & c & l & r & Elo & Es & Hli & Hl & Hr & Er & Esl & En & Ht & He).
    destruct (Hslot j Hj) as (lo' & c' & l' & r' & Elo' & Es' & Hli' & Hl' & Hr' & Er' & Esl' & En' & Ht' & He').
    destruct (oclosed_layout d Hwf _ _ _ _ _ _ En) as (_ & Hlp & _ & H).
    destruct (oclosed_layout d Hwf _ _ _ _ _ _ En') as (_ & Hlp' & _ & H').
    pose proof (H r Hr) as Hx. pose proof (H' r' Hr') as Hx'.
    assert (Es1 : i - l + r = j - l' + r') by congruence. rewrite Es1, Hx' in Hx. injection Hx as E1 E2 E3 E4 E5.
    rewrite E1, E2, E4 in *. subst r'.
    assert (l = l').
    { destruct (index_placed (lo_type lo) (lo_elem lo) c l p) as (x & Ex & Px); [assumption..|].
      destruct (index_placed (lo_type lo) (lo_elem lo) c l' p) as (y & Ey & Py); [assumption..|].
      assert (x = r) by congruence. assert (y = r) by congruence. subst x y. eapply placed_inj; eassumption. }
    subst l'. apply (same_locus d i j (lo_type lo) (lo_elem lo) (lo_leid lo) (Some (c, l)) (Some (c, l)) En).
    rewrite En'. f_equal. f_equal. lia.
  - intros i t Hi. destruct (Hslot i Hi) as (lo & c & l & r & Elo & Es & _ & _ & _ & _ & _ & _).
    unfold slot, val. rewrite Elo. reflexivity.
  - exists tab. split; [exact E|]. split; [rewrite Hl; apply repeat_length|].
    intros i lo c l r Elo Es Er. assert (Hi : i < num_dof_tet d).
    { rewrite length_layout_num by assumption. now apply local_order_inv in Elo. }
    destruct (Hslot i Hi) as (lo' & c' & l' & r' & Elo' & Es' & Hli & Hl' & Hr' & Er' & Esl & _ & _).
    assert (lo' = lo) by congruence. subst lo'. assert ((c', l') = (c, l)) by congruence.
    assert (c' = c) by congruence. assert (l' = l) by congruence. subst c' l'. assert (r' = r) by congruence. subst r'.
    rewrite (H1 i (i - l + r) Hi Esl). unfold val. now rewrite Elo.
Qed.

(** Classes on which the placement is its own inverse. *)
Definition involutive (t c : nat) : bool := (t <? 3) || (c =? 0).
Lemma involutive_check : all_points (fun t e c l => negb (involutive t c) || forallb (fun p =>
   match index_on t e c l p with
   | Some r => match index_on t e c r p with Some x => x =? l | None => false end
   | None => false end) perms4) = true.
Proof. vm_compute. reflexivity. Qed.
Lemma index_involutive : forall t e c l p r, t < 6 -> e < tet_elems t -> l < npoints t c -> is_perm4 p ->
  involutive t c = true -> index_on t e c l p = Some r -> index_on t e c r p = Some l.
Proof.
  intros t e c l p r Ht He Hl Hp Hi E. pose proof (all_points_iff _ involutive_check t e c l Ht He Hl) as H. cbv beta in H.
  rewrite Hi in H. cbn [negb orb] in H. eapply forall_perms in H; [|exact Hp]. cbv beta in H. rewrite E in H.
  destruct (index_on t e c r p) as [x|]; [|discriminate]. apply Nat.eqb_eq in H. now subst.
Qed.

(** *** The dof permutation of a map with at most one orbit per class *)
Definition valid_label (s : list nat) (x : label) : Prop :=
  let '(t, e, y) := x in t < 6 /\ e < tet_elems t /\
  match y with Some (c, l) => c < nclass t /\ l < vol t c /\ 1 <= nth (nth t sym_offs 0 + c) s 0 | None => False end.
Definition lab (x : dof) : label := (d_type x, d_elem x, d_sym x).

Lemma in_sym_list : forall s t c l, In (c, l) (sym_list s t) <->
  c < nclass t /\ l < vol t c /\ 1 <= nth (nth t sym_offs 0 + c) s 0.
Proof.
  intros s t c l. unfold sym_list. rewrite in_flat_map. split.
  - intros (c' & Hc & H). apply in_seq in Hc. cbv zeta in H.
    apply in_concat in H as (o & Ho & H). pose proof Ho as Ho'. apply repeat_spec in Ho. subst o.
    apply in_map_iff in H as (j & E & Hj). apply in_seq in Hj. injection E as -> ->.
    repeat split; [unfold nclass; lia|unfold vol; lia|]. destruct (nth (nth t sym_offs 0 + c) s 0); [contradiction|lia].
  - intros (Hc & Hl & Hm). exists c. split; [apply in_seq; unfold nclass in Hc; lia|]. cbv zeta.
    apply in_concat. exists (map (fun j => (c, j)) (seq 0 (nth (nth t sym_offs 0 + c) sym_vols 0))). split.
    + destruct (nth (nth t sym_offs 0 + c) s 0) as [|m]; [lia|]. now left.
    + apply in_map_iff. exists l. split; [reflexivity|]. apply in_seq. unfold vol in Hl. lia.
Qed.
Lemma NoDup_app' : forall {A} (a b : list A), NoDup a -> NoDup b -> (forall x, In x a -> In x b -> False) -> NoDup (a ++ b).
Proof.
  intros A a b Ha Hb H. induction a as [|x a IH]; [exact Hb|]. inversion Ha as [|? ? H1 H2]; subst. cbn. constructor.
  - intros Hin. apply in_app_iff in Hin as [Hin|Hin]; [contradiction|]. apply (H x); [now left|exact Hin].
  - apply IH; [exact H2|]. intros y Hy. apply H. now right.
Qed.
Lemma nodup_sym_list : forall s t, Forall (fun m => m <= 1) s -> NoDup (sym_list s t).
Proof.
  intros s t Hs. unfold sym_list.
  assert (H : forall cs, NoDup cs -> NoDup (flat_map (fun c => let i := nth t sym_offs 0 + c in
     concat (repeat (map (fun j => (c, j)) (seq 0 (nth i sym_vols 0))) (nth i s 0))) cs)); [|apply H, seq_NoDup].
  assert (Hin : forall c a l, In (a, l) (let i := nth t sym_offs 0 + c in
     concat (repeat (map (fun j => (c, j)) (seq 0 (nth i sym_vols 0))) (nth i s 0))) -> a = c).
  { intros c a l Ha. cbv zeta in Ha. apply in_concat in Ha as (o & Ho & Ha). apply repeat_spec in Ho. subst o.
    apply in_map_iff in Ha as (j & E & _). now injection E. }
  induction cs as [|c cs IH]; intros Hn; [constructor|]. cbn [flat_map]. inversion Hn as [|? ? Hc Hn']; subst.
  apply NoDup_app'.
  - cbv zeta. assert (Hm : nth (nth t sym_offs 0 + c) s 0 <= 1).
    { destruct (Nat.lt_ge_cases (nth t sym_offs 0 + c) (length s)) as [Hl|Hl].
      - rewrite Forall_forall in Hs. now apply Hs, nth_In.
      - rewrite nth_overflow by lia. lia. }
    destruct (nth (nth t sym_offs 0 + c) s 0) as [|[|m]]; [constructor| |lia].
    cbn [repeat concat]. rewrite app_nil_r. apply Injective_map_NoDup; [|apply seq_NoDup].
    intros x y E. now injection E.
  - apply IH, Hn'.
  - intros [a l] H1 H2. apply Hin in H1. subst a. apply in_flat_map in H2 as (c' & Hc' & H2). apply Hin in H2. now subst.
Qed.

Lemma unite_dof : forall nd sy x, In x (layout (Unite nd sy)) -> d_sym x = sym_at sy (d_type x) (d_pos x).
Proof.
  intros nd sy x H. cbn [layout] in H. apply in_flat_map in H as (t & _ & H). apply in_flat_map in H as (e & _ & H).
  apply in_map_iff in H as (p & <- & _). reflexivity.
Qed.
Lemma wf_unite_of_sym : forall s, length s = 16 -> wf (unite_of_sym s).
Proof. intros s H. cbn. auto. Qed.
Lemma in_labels : forall s x, length s = 16 -> In x (map lab (layout (unite_of_sym s))) <-> valid_label s x.
Proof.
  intros s [[t e] y] Hs. unfold unite_of_sym. cbn [layout]. rewrite in_map_iff. split.
  - intros ([t' e' p s'] & E & H). unfold lab in E. cbn [d_type d_elem d_sym] in E. injection E as -> -> ->.
    apply in_flat_map in H as (t' & Ht & H). apply in_flat_map in H as (e' & He & H). apply in_map_iff in H as (p' & E & Hp).
    injection E as -> -> -> E. apply in_seq in Ht, He, Hp. unfold ngeom in Ht. cbn [sym_at] in E.
    rewrite <- length_sym_counts in Hp by (assumption || lia). cbn [valid_label]. split; [lia|]. split; [lia|].
    destruct y as [[c l]|]; [|apply nth_error_None in E; lia]. apply in_sym_list. eapply nth_error_In, E.
  - intros (Ht & He & H). destruct y as [[c l]|]; [|contradiction]. apply in_sym_list in H.
    destruct (In_nth_error _ _ H) as (p & Ep). exists (Dof t e p (Some (c, l))). split; [reflexivity|].
    apply in_flat_map. exists t. split; [apply in_seq; unfold ngeom; lia|].
    apply in_flat_map. exists e. split; [apply in_seq; lia|]. apply in_map_iff. exists p. cbn [sym_at]. rewrite Ep.
    split; [reflexivity|]. apply in_seq. rewrite <- length_sym_counts by assumption. split; [lia|]. apply nth_error_Some. congruence.
Qed.
Lemma labels_inj : forall s i j x y, length s = 16 -> Forall (fun m => m <= 1) s ->
  nth_error (layout (unite_of_sym s)) i = Some x -> nth_error (layout (unite_of_sym s)) j = Some y -> lab x = lab y -> i = j.
Proof.
  intros s i j [t e p a] [t' e' p' a'] Hs Hm Ei Ej E. unfold lab in E. cbn [d_type d_elem d_sym] in E. injection E as <- <- <-.
  assert (Ha := unite_dof _ _ _ (nth_error_In _ _ Ei)). assert (Ha' := unite_dof _ _ _ (nth_error_In _ _ Ej)).
  cbn [d_type d_sym d_pos sym_at] in Ha, Ha'.
  assert (Hin : In (t, e, p) (loci (unite_of_sym s))) by (apply (in_map locus) with (x := Dof t e p a); eapply nth_error_In; eauto).
  apply in_loci in Hin as (Ht & _ & Hp). unfold unite_of_sym in Hp. cbn [cnt] in Hp. rewrite <- length_sym_counts in Hp by assumption.
  assert (p = p').
  { pose proof (nodup_sym_list s t Hm) as Hn. rewrite NoDup_nth_error in Hn. apply Hn; [exact Hp|congruence]. }
  subst p'. eapply same_locus; eassumption.
Qed.

Lemma osym_eqb_eq : forall a b, osym_eqb a b = true <-> a = b.
Proof.
  intros [[c l]|] [[c' l']|]; cbn; split; intros H; try discriminate; try reflexivity.
  - apply andb_true_iff in H as [H1 H2]. apply Nat.eqb_eq in H1, H2. now subst.
  - injection H as -> ->. now rewrite !Nat.eqb_refl.
Qed.
Lemma label_eqb_eq : forall a b, label_eqb a b = true <-> a = b.
Proof.
  intros [[t e] s] [[t' e'] s']. cbn. rewrite !andb_true_iff, !Nat.eqb_eq, osym_eqb_eq. split.
  - intros [[-> ->] ->]. reflexivity.
  - intros H. injection H as -> -> ->. auto.
Qed.
Lemma find_first : forall (f : nat -> bool) n j, j < n -> f j = true -> (forall i, i < j -> f i = false) -> find f (seq 0 n) = Some j.
Proof.
  intros f n j Hj Hf Hno. replace n with (j + S (n - j - 1)) by lia. rewrite seq_app. cbn [seq].
  assert (H : forall l r, (forall i, In i l -> f i = false) -> find f (l ++ r) = find f r).
  { induction l as [|x l IH]; intros r H; [reflexivity|]. cbn. rewrite (H x) by now left. apply IH. intros; apply H; now right. }
  rewrite H; [cbn; now rewrite Hf|]. intros i Hi. apply in_seq in Hi. apply Hno. lia.
Qed.
Lemma find_tet_dof_ok : forall s x, length s = 16 -> Forall (fun m => m <= 1) s -> valid_label s x ->
  exists j y, find_tet_dof (unite_of_sym s) x = Some j /\ nth_error (layout (unite_of_sym s)) j = Some y /\ lab y = x.
Proof.
  intros s x Hs Hm Hx. set (d := unite_of_sym s). assert (Hwf : wf d) by now apply wf_unite_of_sym.
  apply (proj2 (in_labels s x Hs)) in Hx. apply in_map_iff in Hx as (y & Ey & Hy).
  destruct (In_nth_error _ _ Hy) as (j & Ej). exists j, y. split; [|split; assumption].
  assert (Hf : forall i, match local_order d i with Some lo => label_eqb (label_of lo) x | None => false end =
                         match nth_error (layout d) i with Some z => label_eqb (lab z) x | None => false end).
  { intros i. rewrite local_order_layout by assumption. now destruct (nth_error (layout d) i). }
  unfold find_tet_dof. fold d. apply find_first.
  - rewrite length_layout_num by assumption. apply nth_error_Some. unfold d. congruence.
  - rewrite Hf. unfold d. rewrite Ej. now apply label_eqb_eq.
  - intros i Hi. rewrite Hf. destruct (nth_error (layout d) i) as [z|] eqn:Ez; [|reflexivity].
    destruct (label_eqb (lab z) x) eqn:E; [|reflexivity]. exfalso. apply label_eqb_eq in E.
    assert (i = j) by (eapply labels_inj; [exact Hs|exact Hm|exact Ez|exact Ej|congruence]). lia.
Qed.

Lemma remap_label_valid : forall s x p, valid_label s x -> is_perm4 p ->
  exists t e c l e' r, x = (t, e, Some (c, l)) /\ t < 6 /\ e < tet_elems t /\ l < npoints t c /\ remap_elem t e p = Some e' /\ e' < tet_elems t /\ index_on t e c l p = Some r /\ placed t e c l p r /\ remap_label x p = Some (t, e', Some (c, r)) /\ valid_label s (t, e', Some (c, r)).
Proof.
  intros s [[t e] [[c l]|]] p (Ht & He & H) Hp; [|contradiction]. destruct H as (Hc & Hl & Hm).
  rewrite vol_npoints in Hl by assumption.
  destruct (remap_elem_ok t e p Ht He Hp) as (e' & Ee & He' & _).
  destruct (index_placed t e c l p Ht He Hl Hp) as (r & Er & Pr).
  exists t, e, c, l, e', r. repeat (split; [assumption || reflexivity|]). cbn [remap_label]. rewrite Ee. cbn [obind]. rewrite Er.
  split; [reflexivity|]. cbn [valid_label]. repeat split; [assumption..| |assumption].
  rewrite vol_npoints by assumption. apply Pr.
Qed.
Lemma perm_sign_some : forall t e p, t < 6 -> e < tet_elems t -> is_perm4 p -> exists a, perm_sign t e p = Some a /\ (a = 1 \/ a = -1)%Z.
Proof.
  intros t e p Ht He Hp. destruct (remap_elem_ok t e p Ht He Hp) as (e' & Ee & _).
  destruct (sign_compose t e p id4 Ht He Hp id_perm e' Ee) as (a & b & H & _ & _ & Ha). eauto.
Qed.

(** One column: dof j goes to the dof with the image label. *)
Lemma perm_column_ok : forall s p j y, length s = 16 -> Forall (fun m => m <= 1) s -> is_perm4 p ->
  nth_error (layout (unite_of_sym s)) j = Some y ->
  exists x nj z a, remap_label (lab y) p = Some x /\ nth_error (layout (unite_of_sym s)) nj = Some z /\ lab z = x /\ perm_sign (d_type y) (d_elem y) p = Some a /\ (a = 1 \/ a = -1)%Z /\ perm_column (unite_of_sym s) p j = Some (Some (nj, a)).
Proof.
  intros s p j y Hs Hm Hp Ej.
  assert (Hv : valid_label s (lab y)) by (apply (in_labels s _ Hs), in_map; eapply nth_error_In, Ej).
  destruct (remap_label_valid s (lab y) p Hv Hp) as (t & e & c & l & e' & r & Ex & Ht & He & Hl & Ee & He' & Er & Pr & Ey & Hv').
  destruct (find_tet_dof_ok s _ Hs Hm Hv') as (nj & z & Ef & Ez & El).
  assert (Et : d_type y = t /\ d_elem y = e) by (unfold lab in Ex; split; congruence). destruct Et as [Et Ee0].
  destruct (perm_sign_some t e p Ht He Hp) as (a & Ea & Ha).
  exists (t, e', Some (c, r)), nj, z, a. repeat (split; [assumption|]). rewrite Et, Ee0.
  split; [exact Ea|]. split; [exact Ha|]. unfold perm_column.
  rewrite local_order_layout by (now apply wf_unite_of_sym). rewrite Ej. cbn [option_map obind].
  match goal with |- context [label_of ?z] => change (label_of z) with (lab y) end. rewrite Ey. cbn [obind]. rewrite Ef.
  match goal with |- context [perm_sign ?u ?v p] => change u with (d_type y); change v with (d_elem y) end. rewrite Et, Ee0, Ea. reflexivity.
Qed.

(** Remapping is an action on the labels of maps without s3/s6 face classes. *)
Definition no_face_orbits (s : list nat) : Prop := nth 6 s 0 = 0 /\ nth 7 s 0 = 0 /\ nth 9 s 0 = 0 /\ nth 10 s 0 = 0.
Lemma no_face_sorted : forall s t e c l, no_face_orbits s -> valid_label s (t, e, Some (c, l)) -> sorted_entity t e c = true.
Proof.
  intros s t e c l (H6 & H7 & H9 & H10) (Ht & He & Hc & Hl & Hm). unfold sorted_entity.
  do 6 (destruct t as [|t]; [try reflexivity; unfold nclass in Hc; cbn [nth sym_offs Nat.add Nat.sub] in Hc;
    destruct c as [|[|[|c]]]; try (cbn [nth sym_offs Nat.add] in Hm; lia); try lia; try (rewrite !orb_true_r; reflexivity); reflexivity|]). lia.
Qed.
Lemma remap_compose : forall s x y p q, no_face_orbits s -> valid_label s x -> is_perm4 p -> is_perm4 q ->
  remap_label x p = Some y -> remap_label y q = remap_label x (compose4 q p).
Proof.
  intros s x y p q Hs Hv Hp Hq E.
  destruct (remap_label_valid s x p Hv Hp) as (t & e & c & l & e' & r & -> & Ht & He & Hl & Ee & He' & Er & Pr & Ey & Hv').
  rewrite Ey in E. injection E as <-. cbn [remap_label]. rewrite (elem_compose t e p q) with (e' := e') by assumption.
  assert (Hso := no_face_sorted s t e' c r Hs Hv').
  rewrite (index_compose t e c l p q Ht He Hl Hp Hq e' r Ee Er Hso). reflexivity.
Qed.
Lemma remap_id : forall s x, no_face_orbits s -> valid_label s x -> remap_label x id4 = Some x.
Proof.
  intros s [[t e] [[c l]|]] Hs Hv; [|destruct Hv as (_ & _ & []) ]. pose proof Hv as (Ht & He & Hc & Hl & Hm).
  rewrite vol_npoints in Hl by assumption. cbn [remap_label].
  pose proof id_check as H. apply forall_seq with (x := t) in H; [|exact Ht]. apply forall_seq with (x := e) in H; [|exact He].
  destruct (remap_elem t e id4) as [x|]; [|discriminate]. destruct (perm_sign t e id4); [|discriminate].
  apply andb_true_iff in H as [H _]. apply Nat.eqb_eq in H. subst x. cbn [obind].
  now rewrite index_identity by (assumption || eapply no_face_sorted; eassumption).
Qed.
Lemma sign_id : forall t e, t < 6 -> e < tet_elems t -> perm_sign t e id4 = Some 1%Z.
Proof.
  intros t e Ht He. pose proof id_check as H. apply forall_seq with (x := t) in H; [|exact Ht].
  apply forall_seq with (x := e) in H; [|exact He].
  destruct (remap_elem t e id4) as [x|]; [|discriminate]. destruct (perm_sign t e id4) as [a|]; [|discriminate].
  apply andb_true_iff in H as [_ H]. apply Z.eqb_eq in H. now subst.
Qed.

(** The matrix. *)
Lemma build_perm_ok : forall s p, length s = 16 -> Forall (fun m => m <= 1) s -> is_perm4 p ->
  let d := unite_of_sym s in let n := num_dof_tet d in
  exists P, build_perm d p = Some P /\ length P = n * n /\ forall j, j < n -> exists nj a, perm_column d p j = Some (Some (nj, a)) /\ nj < n /\ (a = 1 \/ a = -1)%Z /\ forall i, i < n -> nth_error P (i + j * n) = Some (if i =? nj then a else 0%Z).
Proof.
  intros s p Hs Hm Hp d n. assert (Hwf : wf d) by now apply wf_unite_of_sym.
  assert (Hcol : forall j, j < n -> exists nj a, perm_column d p j = Some (Some (nj, a)) /\ nj < n /\ (a = 1 \/ a = -1)%Z).
  { intros j Hj. unfold n in *. rewrite length_layout_num in Hj |- * by assumption.
    destruct (nth_error (layout d) j) as [y|] eqn:Ej; [|apply nth_error_None in Ej; lia].
    destruct (perm_column_ok s p j y Hs Hm Hp Ej) as (x & nj & z & a & _ & Ez & _ & _ & Ha & Ec).
    exists nj, a. repeat split; [exact Ec| |exact Ha]. apply nth_error_Some. unfold d. congruence. }
  set (slot := fun j => match perm_column d p j with Some (Some (nj, _)) => Some (nj + j * n) | _ => None end).
  set (val := fun j => match perm_column d p j with Some (Some (_, a)) => a | _ => 0%Z end).
  destruct (scatter n slot val (fun j P => do c <- perm_column d p j;
                     match c with None => Some P | Some (nj, s) => wr P (nj + j * n) s end) (repeat 0%Z (n * n)))
    as (P & E & Hl & H1 & H2).
  - intros j Hj. destruct (Hcol j Hj) as (nj & a & Ec & Hn & _). unfold slot. rewrite Ec. eexists. split; [reflexivity|].
    rewrite repeat_length. nia.
  - intros i j sl Hi Hj Ei Ej. unfold slot in *. destruct (Hcol i Hi) as (ni & a & Eci & Hni & _).
    destruct (Hcol j Hj) as (nj & b & Ecj & Hnj & _). rewrite Eci in Ei. rewrite Ecj in Ej.
    assert (ni + i * n = nj + j * n) by congruence. nia.
  - intros j tab Hj. destruct (Hcol j Hj) as (nj & a & Ec & Hn & _). unfold slot, val. rewrite Ec. reflexivity.
  - exists P. split; [exact E|]. split; [now rewrite Hl, repeat_length|]. intros j Hj.
    destruct (Hcol j Hj) as (nj & a & Ec & Hn & Ha). exists nj, a. repeat split; [assumption..|].
    intros i Hi. destruct (Nat.eqb_spec i nj) as [->|Hne].
    + rewrite (H1 j (nj + j * n)); [unfold val; now rewrite Ec|exact Hj|unfold slot; now rewrite Ec].
    + rewrite H2; [rewrite nth_error_repeat; [reflexivity|nia]|]. intros k Hk. unfold slot.
      destruct (Hcol k Hk) as (nk & b & Eck & Hnk & _). rewrite Eck. intros H. injection H as H.
      assert (k = j) by nia. subst k. rewrite Ec in Eck. injection Eck as <- <-. lia.
Qed.
