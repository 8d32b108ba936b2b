(** Conformity between cells, orbits of dofs inside a dof map, and the scatter
    loops (index table of the assembler, dof permutation matrix). *)
From Verif Require Import Prelude DofModel DofSpec DofProofs DofProofs2 SymModel SymSpec SymProofs.
From Coq Require Import FinFun Permutation.

(** *** Ranks under order preserving maps *)
Lemma filter_le : forall {A} (f g : A -> bool) l, (forall x, In x l -> f x = true -> g x = true) ->
  length (filter f l) <= length (filter g l).
Proof.
  intros A f g l. induction l as [|x l IH]; intros H; [auto|]. cbn [filter].
  assert (IH' := IH (fun y Hy => H y (or_intror Hy))). pose proof (H x (or_introl eq_refl)) as Hx.
  destruct (f x), (g x); cbn [length]; try lia; try discriminate (Hx eq_refl).
Qed.
Lemma filter_lt : forall {A} (f g : A -> bool) l a, (forall x, In x l -> f x = true -> g x = true) ->
  In a l -> f a = false -> g a = true -> length (filter f l) < length (filter g l).
Proof.
  intros A f g l a. induction l as [|x l IH]; intros H Ha Fa Ga; [contradiction|]. cbn [filter].
  destruct Ha as [->|Ha].
  - rewrite Fa, Ga. cbn [length]. apply Nat.lt_succ_r, filter_le. intros y Hy. apply H. now right.
  - assert (IH' := IH (fun y Hy => H y (or_intror Hy)) Ha Fa Ga). pose proof (H x (or_introl eq_refl)) as Hx.
    destruct (f x), (g x); cbn [length]; try lia; try discriminate (Hx eq_refl).
Qed.
Lemma rankZ_mono : forall g x y, In x g -> (x < y)%Z -> rankZ g x < rankZ g y.
Proof.
  intros g x y Hx Hxy. unfold rankZ. apply filter_lt with (a := x); [| exact Hx | apply Z.ltb_irrefl | now apply Z.ltb_lt].
  intros z _ Hz. apply Z.ltb_lt in Hz. apply Z.ltb_lt. lia.
Qed.
Lemma rankZ_iff : forall g x y, In x g -> In y g -> (rankZ g x <? rankZ g y) = (x <? y)%Z.
Proof.
  intros g x y Hx Hy. destruct (Z.ltb_spec x y) as [H|H].
  - apply Nat.ltb_lt. now apply rankZ_mono.
  - apply Nat.ltb_ge. destruct (Z.eq_dec x y) as [->|Hn]; [auto|]. apply Nat.lt_le_incl, rankZ_mono; [exact Hy|lia].
Qed.
Lemma rank_rankZ : forall g vs x, incl vs g -> In x g -> rank (map (rankZ g) vs) (rankZ g x) = rankZ vs x.
Proof.
  intros g vs x Hv Hx. induction vs as [|v vs IH]; [reflexivity|].
  assert (Hi := IH (fun z Hz => Hv z (or_intror Hz))). unfold rank, rankZ in Hi |- *. cbn [map filter].
  change (length (filter (fun y : Z => (y <? v)%Z) g)) with (rankZ g v).
  change (length (filter (fun y : Z => (y <? x)%Z) g)) with (rankZ g x) in *.
  rewrite rankZ_iff; [|apply Hv; now left|exact Hx].
  destruct (v <? x)%Z; cbn [length]; [f_equal|]; exact Hi.
Qed.

Definition gperm (g : list Z) : list nat := map (rankZ g) g.
Lemma app4_gperm : forall g v, length g = 4 -> v < 4 -> app4 (gperm g) v = rankZ g (gid g v).
Proof.
  intros g v Hl Hv. unfold app4, gperm, gid.
  rewrite (nth_indep _ 0 (rankZ g 0%Z)) by (rewrite map_length; lia). apply map_nth.
Qed.
Lemma rankZ_inj : forall g x y, In x g -> In y g -> rankZ g x = rankZ g y -> x = y.
Proof.
  intros g x y Hx Hy E. destruct (Z.lt_trichotomy x y) as [H|[H|H]]; [|exact H|].
  - pose proof (rankZ_mono g x y Hx H). lia.
  - pose proof (rankZ_mono g y x Hy H). lia.
Qed.
Lemma filter_length_lt : forall {A} (f : A -> bool) l a, In a l -> f a = false -> length (filter f l) < length l.
Proof.
  intros A f l a Ha Fa. replace (length l) with (length (filter (fun _ => true) l)).
  - apply filter_lt with (a := a); auto.
  - clear. induction l; cbn; congruence.
Qed.
Lemma gperm_perm : forall g, length g = 4 -> NoDup g -> is_perm4 (gperm g).
Proof.
  intros g Hl Hn. split; [now unfold gperm; rewrite map_length|]. split.
  - unfold gperm. apply NoDup_nth_error. intros i j Hi E. rewrite map_length in Hi.
    rewrite nth_error_map in E.
    destruct (nth_error g i) as [x|] eqn:Ei; [|apply nth_error_None in Ei; lia].
    rewrite nth_error_map in E. destruct (nth_error g j) as [y|] eqn:Ej; cbn in E; [|discriminate].
    injection E as E. apply rankZ_inj in E; [|eapply nth_error_In; eauto..]. subst y.
    rewrite NoDup_nth_error in Hn. apply Hn; [lia|congruence].
  - apply Forall_forall. intros r Hr. apply in_map_iff in Hr as (x & <- & Hx).
    rewrite <- Hl. apply filter_length_lt with (a := x); [exact Hx|apply Z.ltb_irrefl].
Qed.

Lemma corners_lt : forall t e v, t < 6 -> e < tet_elems t -> In v (corners t e) -> v < 4.
Proof.
  intros t e v Ht He Hv.
  assert (H : forallb (fun t => forallb (fun e => forallb (fun v => v <? 4) (corners t e)) (seq 0 (tet_elems t))) (seq 0 6) = true)
    by (vm_compute; reflexivity).
  apply forall_seq with (x := t) in H; [|exact Ht]. apply forall_seq with (x := e) in H; [|exact He].
  rewrite forallb_forall in H. now apply Nat.ltb_lt, H.
Qed.
Lemma corners_nodup : forall t e, t < 6 -> e < tet_elems t -> NoDup (corners t e).
Proof.
  intros t e Ht He.
  assert (H : forallb (fun t => forallb (fun e => nodupb (corners t e)) (seq 0 (tet_elems t))) (seq 0 6) = true)
    by (vm_compute; reflexivity).
  apply forall_seq with (x := t) in H; [|exact Ht]. apply forall_seq with (x := e) in H; [|exact He]. now apply nodupb_iff.
Qed.
Lemma gid_in : forall g v, length g = 4 -> v < 4 -> In (gid g v) g.
Proof. intros g v Hl Hv. apply nth_In. lia. Qed.
Lemma gid_inj : forall g v w, length g = 4 -> NoDup g -> v < 4 -> w < 4 -> gid g v = gid g w -> v = w.
Proof. intros g v w Hl Hn Hv Hw E. apply (NoDup_nth g 0%Z) in E; [exact E|exact Hn|lia|lia]. Qed.
Lemma gids_nodup : forall g t e, length g = 4 -> NoDup g -> t < 6 -> e < tet_elems t -> NoDup (gids g t e).
Proof.
  intros g t e Hl Hn Ht He. unfold gids.
  assert (H := corners_nodup t e Ht He). assert (Hc := fun v => corners_lt t e v Ht He).
  induction (corners t e) as [|v vs IH]; [constructor|]. cbn [map].
  inversion H as [|? ? H1 H2]; subst. constructor; [|apply IH; [exact H2|intros w Hw; apply Hc; now right]].
  intros Hin. apply in_map_iff in Hin as (w & E & Hw). apply gid_inj in E; [subst; contradiction|assumption..| |].
  - apply Hc. now right.
  - apply Hc. now left.
Qed.

Lemma rank_global : forall g t e v, length g = 4 -> NoDup g -> t < 6 -> e < tet_elems t -> In v (corners t e) ->
  rank (map (app4 (gperm g)) (corners t e)) (app4 (gperm g) v) = rankZ (gids g t e) (gid g v).
Proof.
  intros g t e v Hl Hn Ht He Hv. assert (Hc := fun v => corners_lt t e v Ht He).
  rewrite (map_ext_in _ (fun v => rankZ g (gid g v))) by (intros w Hw; apply app4_gperm; auto).
  rewrite app4_gperm by auto.
  replace (map (fun v => rankZ g (gid g v)) (corners t e)) with (map (rankZ g) (gids g t e))
    by (unfold gids; apply map_map).
  apply rank_rankZ; [|apply gid_in; auto]. intros x Hx. apply in_map_iff in Hx as (w & <- & Hw). apply gid_in; auto.
Qed.

Lemma rankZ_perm : forall a b x, NoDup a -> NoDup b -> (forall y, In y a <-> In y b) -> rankZ a x = rankZ b x.
Proof.
  intros a b x Ha Hb H. pose proof (NoDup_Permutation Ha Hb H) as P. unfold rankZ. clear -P.
  induction P; cbn [filter]; [reflexivity| | |congruence].
  - destruct (x0 <? x)%Z; cbn [length]; congruence.
  - destruct (x0 <? x)%Z, (y <? x)%Z; reflexivity.
Qed.

Lemma rank_onto : forall vs j, NoDup vs -> j < length vs -> exists v, In v vs /\ rankZ vs v = j.
Proof.
  intros vs j Hn Hj.
  assert (Hm : NoDup (map (rankZ vs) vs)).
  { clear j Hj. apply NoDup_nth_error. intros i j Hi E. rewrite map_length in Hi. rewrite !nth_error_map in E.
    destruct (nth_error vs i) as [x|] eqn:Ei; [|apply nth_error_None in Ei; lia].
    destruct (nth_error vs j) as [y|] eqn:Ej; cbn in E; [|discriminate]. injection E as E.
    apply rankZ_inj in E; [|eapply nth_error_In; eauto..]. subst.
    rewrite NoDup_nth_error in Hn. apply Hn; [lia|congruence]. }
  assert (Hi : incl (map (rankZ vs) vs) (seq 0 (length vs))).
  { intros r Hr. apply in_map_iff in Hr as (v & <- & Hv). apply in_seq. split; [lia|]. cbn.
    apply filter_length_lt with (a := v); [exact Hv|apply Z.ltb_irrefl]. }
  assert (Hs : incl (seq 0 (length vs)) (map (rankZ vs) vs)).
  { apply NoDup_length_incl; [exact Hm|rewrite map_length, seq_length; auto|exact Hi]. }
  assert (In j (map (rankZ vs) vs)) by (apply Hs, in_seq; lia).
  apply in_map_iff in H as (v & E & Hv). eauto.
Qed.

(** The place a dof gets depends only on the global entity and the marks. *)
Lemma placed_conform : forall g g' t c e e' l l' r r',
  length g = 4 -> NoDup g -> length g' = 4 -> NoDup g' -> t < 6 -> e < tet_elems t -> e' < tet_elems t ->
  same_entity g e g' e' t -> same_point g e l g' e' l' t c ->
  placed t e c l (gperm g) r -> placed t e' c l' (gperm g') r' -> r = r'.
Proof.
  intros g g' t c e e' l l' r r' Hl Hn Hl' Hn' Ht He He' Hse Hsp [Hr Hp] [Hr' Hp'].
  apply (marks_inj t c); [assumption..|]. intros j Hj.
  assert (Hng := gids_nodup g t e Hl Hn Ht He). assert (Hng' := gids_nodup g' t e' Hl' Hn' Ht He').
  destruct (rank_onto (gids g t e) j Hng) as (x & Hx & Ex).
  { unfold gids. rewrite map_length, length_corners; assumption. }
  assert (Hx' : In x (gids g' t e')) by now apply Hse.
  unfold gids in Hx, Hx'. apply in_map_iff in Hx as (v & Ev & Hv). apply in_map_iff in Hx' as (v' & Ev' & Hv').
  destruct (In_nth_error _ _ Hv) as (k & Ek). destruct (In_nth_error _ _ Hv') as (k' & Ek').
  specialize (Hp k v Ek). specialize (Hp' k' v' Ek').
  rewrite rank_global in Hp, Hp' by assumption. rewrite Ev in Hp. rewrite Ev' in Hp'.
  rewrite <- (rankZ_perm (gids g t e) (gids g' t e')) in Hp' by assumption. rewrite Ex in Hp, Hp'.
  rewrite Hp, Hp'. apply (Hsp k k' v v'); [assumption..|congruence].
Qed.

(** *** Orbits *)
Definition vol (t c : nat) : nat := nth (nth t sym_offs 0 + c) sym_vols 0.
Definition nclass (t : nat) : nat := nth (t + 1) sym_offs 0 - nth t sym_offs 0.
Lemma vol_npoints : forall t c, t < 6 -> c < nclass t -> vol t c = npoints t c.
Proof.
  intros t c Ht Hc.
  assert (H : forallb (fun t => forallb (fun c => vol t c =? npoints t c) (seq 0 (nclass t))) (seq 0 6) = true) by (vm_compute; reflexivity).
  apply forall_seq with (x := t) in H; [|exact Ht]. apply forall_seq with (x := c) in H; [|exact Hc]. now apply Nat.eqb_eq.
Qed.

Definition sclosed (t : nat) (L : list (nat * nat)) : Prop := forall p c k, nth_error L p = Some (c, k) ->
  k <= p /\ k < npoints t c /\ forall r, r < npoints t c -> nth_error L (p - k + r) = Some (c, r).
Lemma sclosed_app : forall t a b, sclosed t a -> sclosed t b -> sclosed t (a ++ b).
Proof.
  intros t a b Ha Hb p c k E. destruct (Nat.lt_ge_cases p (length a)) as [Hp|Hp].
  - rewrite nth_error_app1 in E by assumption. destruct (Ha _ _ _ E) as (H1 & H2 & H3). repeat split; [assumption..|].
    intros r Hr. specialize (H3 r Hr). rewrite nth_error_app1; [exact H3|]. apply nth_error_Some. congruence.
  - rewrite nth_error_app2 in E by assumption. destruct (Hb _ _ _ E) as (H1 & H2 & H3). repeat split; [lia|assumption|].
    intros r Hr. specialize (H3 r Hr). rewrite nth_error_app2 by lia. rewrite <- H3. f_equal. lia.
Qed.
Lemma sclosed_nil : forall t, sclosed t [].
Proof. intros t p c k E. destruct p; discriminate E. Qed.
Lemma sclosed_base : forall t c, t < 6 -> c < nclass t -> sclosed t (map (fun j => (c, j)) (seq 0 (vol t c))).
Proof.
  intros t c Ht Hc p c' k E.
  assert (Hp : p < vol t c).
  { rewrite <- (seq_length (vol t c) 0), <- (map_length (fun j => (c, j))). apply nth_error_Some. congruence. }
  rewrite nth_error_map_seq in E by assumption. injection E as <- <-.
  rewrite <- vol_npoints by assumption. repeat split; [lia|assumption|]. intros r Hr.
  replace (p - p + r) with r by lia. now rewrite nth_error_map_seq.
Qed.
Lemma sclosed_sym_list : forall s t, t < 6 -> sclosed t (sym_list s t).
Proof.
  intros s t Ht. unfold sym_list. change (nth (t + 1) sym_offs 0 - nth t sym_offs 0) with (nclass t).
  assert (H : forall cs, (forall c, In c cs -> c < nclass t) -> sclosed t (flat_map (fun c => let i := nth t sym_offs 0 + c in
     concat (repeat (map (fun j => (c, j)) (seq 0 (nth i sym_vols 0))) (nth i s 0))) cs)).
  { induction cs as [|c cs IH]; intros Hc; [apply sclosed_nil|]. cbn [flat_map]. apply sclosed_app.
    - cbv zeta. induction (nth (nth t sym_offs 0 + c) s 0) as [|m IHm]; [apply sclosed_nil|]. cbn [repeat concat].
      apply sclosed_app; [|exact IHm]. apply sclosed_base; [exact Ht|apply Hc; now left].
    - apply IH. intros; apply Hc; now right. }
  apply H. intros c Hc. apply in_seq in Hc. lia.
Qed.

Definition oclosed (L : list dof) : Prop := forall i t e p c k, nth_error L i = Some (Dof t e p (Some (c, k))) ->
  k <= i /\ k <= p /\ k < npoints t c /\
  forall r, r < npoints t c -> nth_error L (i - k + r) = Some (Dof t e (p - k + r) (Some (c, r))).
Lemma oclosed_app : forall a b, oclosed a -> oclosed b -> oclosed (a ++ b).
Proof.
  intros a b Ha Hb i t e p c k E. destruct (Nat.lt_ge_cases i (length a)) as [Hp|Hp].
  - rewrite nth_error_app1 in E by assumption. destruct (Ha _ _ _ _ _ _ E) as (H1 & H2 & H3 & H4). repeat split; [assumption..|].
    intros r Hr. specialize (H4 r Hr). rewrite nth_error_app1; [exact H4|]. apply nth_error_Some. congruence.
  - rewrite nth_error_app2 in E by assumption. destruct (Hb _ _ _ _ _ _ E) as (H1 & H2 & H3 & H4). repeat split; [lia|assumption..|].
    intros r Hr. specialize (H4 r Hr). rewrite nth_error_app2 by lia. rewrite <- H4. f_equal. lia.
Qed.
Lemma oclosed_nil : oclosed [].
Proof. intros i t e p c k E. destruct i; discriminate E. Qed.
Lemma oclosed_flat_map : forall {A} (f : A -> list dof) l, (forall x, In x l -> oclosed (f x)) -> oclosed (flat_map f l).
Proof.
  intros A f l. induction l as [|x l IH]; intros H; [apply oclosed_nil|]. cbn [flat_map]. apply oclosed_app.
  - apply H. now left.
  - apply IH. intros; apply H; now right.
Qed.
Lemma oclosed_shift : forall f L, oclosed L -> oclosed (shift_pos f L).
Proof.
  intros f L H i t e p c k E. unfold shift_pos in *. rewrite nth_error_map in E.
  destruct (nth_error L i) as [[t' e' p' s']|] eqn:Ei; cbn in E; [|discriminate]. injection E as <- <- <- ->.
  destruct (H _ _ _ _ _ _ Ei) as (H1 & H2 & H3 & H4). repeat split; [assumption|lia|assumption|].
  intros r Hr. rewrite nth_error_map, (H4 r Hr). cbn. f_equal. f_equal. lia.
Qed.
Lemma oclosed_layout : forall d, wf d -> oclosed (layout d).
Proof.
  intros d. induction d as [nd sy|k b IH|l IH] using dmap_ind'; intros Hwf.
  - cbn [layout]. apply oclosed_flat_map. intros t Ht. apply in_seq in Ht. unfold ngeom in Ht. apply oclosed_flat_map. intros e He.
    intros i t' e' p c k E.
    assert (Hi : i < nth t nd 0).
    { rewrite <- (seq_length (nth t nd 0) 0), <- (map_length (fun p => Dof t e p (sym_at sy t p))). apply nth_error_Some. congruence. }
    rewrite nth_error_map_seq in E by assumption. injection E as <- <- <- E.
    destruct sy as [s|]; cbn [sym_at] in E; [|discriminate]. destruct Hwf as (Hl & Hs & ->).
    assert (Hc := sclosed_sym_list s t ltac:(lia) _ _ _ E). destruct Hc as (H1 & H2 & H3). repeat split; [assumption..|].
    intros r Hr. specialize (H3 r Hr). rewrite nth_error_map_seq.
    + cbn [sym_at]. now rewrite H3.
    + rewrite <- length_sym_counts by (assumption || lia). apply nth_error_Some. congruence.
  - cbn [layout]. apply oclosed_flat_map. intros c _. apply oclosed_shift, IH, Hwf.
  - rewrite layout_complex. apply oclosed_flat_map. intros v Hv. apply in_seq in Hv.
    apply wf_complex in Hwf. unfold comp_block. apply oclosed_shift.
    rewrite Forall_forall in IH, Hwf.
    apply IH, Hwf; apply nth_In; lia.
Qed.

(** *** Scatter loops *)
Lemma scatter : forall {A} n (slot : nat -> option nat) (val : nat -> A) (body : nat -> list A -> option (list A)) init,
  (forall i, i < n -> exists s, slot i = Some s /\ s < length init) ->
  (forall i j s, i < n -> j < n -> slot i = Some s -> slot j = Some s -> i = j) ->
  (forall i tab, i < n -> body i tab = (do s <- slot i; wr tab s (val i))) ->
  exists tab, for_ n body init = Some tab /\ length tab = length init /\
    (forall i s, i < n -> slot i = Some s -> nth_error tab s = Some (val i)) /\
    (forall s, (forall i, i < n -> slot i <> Some s) -> nth_error tab s = nth_error init s).
Proof.
  intros A n slot val body init Hs Hinj Hb.
  destruct (for_inv (fun m tab => m <= n /\ length tab = length init /\
    (forall i s, i < m -> slot i = Some s -> nth_error tab s = Some (val i)) /\
    (forall s, (forall i, i < m -> slot i <> Some s) -> nth_error tab s = nth_error init s)) n body init)
    as (tab & E & _ & H).
  - repeat split; [lia|intros; lia].
  - intros m tab Hm (_ & Hl & H1 & H2). rewrite Hb by assumption. destruct (Hs m Hm) as (s & Es & Hsl). rewrite Es. cbn [obind].
    destruct (wr_some tab s (val m)) as (tab' & E & El & En); [lia|]. exists tab'. split; [exact E|].
    split; [lia|]. split; [lia|]. split.
    + intros i s' Hi Ei. rewrite En. destruct (Nat.eqb_spec s' s) as [->|Hne].
      * assert (i = m) by (apply (Hinj i m s); [lia|lia|assumption..]). now subst.
      * apply H1; [|exact Ei]. assert (i <> m) by (intros ->; congruence). lia.
    + intros s' Hno. rewrite En. destruct (Nat.eqb_spec s' s) as [->|Hne].
      * exfalso. apply (Hno m); [lia|exact Es].
      * apply H2. intros i Hi. apply Hno. lia.
  - exists tab. split; [exact E|]. destruct H as (H0 & H1 & H2). repeat split; assumption.
Qed.
