From Verif Require Import Prelude DofModel DofSpec DofProofs DofProofs2 SymModel SymSpec SymProofs SymProofs2 SymProofs3 SymProps OrdModel OrdSpec OrdProofs.
From Coq Require Import Permutation.
Lemma Some_inj : forall {A} (x y : A), Some x = Some y -> x = y.
Proof. intros A x y H. now injection H. Qed.

(** *** Orientation *)
Lemma edge_sign_check : forallb (fun e => forallb (fun p => match positive_orient 1 e p with
   | Some b => Bool.eqb b (app4 p (fst (edge_ends e)) <? app4 p (snd (edge_ends e))) | None => false end) perms4) (seq 0 6) = true.
Proof. vm_compute. reflexivity. Qed.
Lemma edge_corners : forall e, e < 6 -> corners 1 e = [fst (edge_ends e); snd (edge_ends e)].
Proof. intros e He. destruct e as [|[|[|[|[|[|e]]]]]]; [reflexivity..|lia]. Qed.
(* rotation: parity of three distinct values by counting the cyclic descents *)
Definition face_true (p : list nat) (e : nat) : bool :=
  let a := app4 p e in let b := app4 p ((e + 1) mod 4) in let c := app4 p ((e + 2) mod 4) in
  Nat.even ((if b <? a then 1 else 0) + (if c <? a then 1 else 0) + (if c <? b then 1 else 0)).
Definition face_third_ok (p : list nat) (e : nat) : bool :=
  Bool.eqb (app4 p ((e + 3) mod 4) <? app4 p ((e + 2) mod 4)) (app4 p e <? app4 p ((e + 2) mod 4)).
Definition face_decreasing (p : list nat) (e : nat) : bool :=
  (app4 p ((e + 1) mod 4) <? app4 p e) && (app4 p ((e + 2) mod 4) <? app4 p ((e + 1) mod 4)) && (app4 p ((e + 3) mod 4) <? app4 p ((e + 2) mod 4)).
Lemma face_sign_check : forallb (fun e => forallb (fun p => match positive_orient 3 e p with
   | Some b => Bool.eqb (Bool.eqb b (face_true p e)) (face_third_ok p e || face_decreasing p e) | None => false end) perms4) (seq 0 4) = true.
Proof. vm_compute. reflexivity. Qed.
Lemma positive_orient_types : forall e p, positive_orient 2 e p = positive_orient 1 e p /\ positive_orient 4 e p = positive_orient 3 e p.
Proof. split; reflexivity. Qed.

(** *** The same dof lives on every entity of its type *)
Lemma sym_entity : forall d t e p s e', In (Dof t e p s) (layout d) -> e' < tet_elems t -> In (Dof t e' p s) (layout d).
Proof.
  intros d. induction d as [nd sy|k b IH|l IH] using dmap_ind'; intros t e p s e' H He'.
  - cbn [layout] in *. apply in_flat_map in H. destruct H as (t0 & Ht & H). apply in_flat_map in H. destruct H as (e0 & He & H). apply in_map_iff in H. destruct H as (p0 & E & Hp).
    injection E as -> -> -> <-. apply in_flat_map. exists t. split; [assumption|]. apply in_flat_map. exists e'. split; [apply in_seq; lia|]. apply in_map_iff. exists p. auto.
  - cbn [layout] in *. apply in_flat_map in H. destruct H as (c & Hc & H). apply in_flat_map. exists c. split; [assumption|]. unfold shift_pos in *. apply in_map_iff in H.
    destruct H as ([t0 e0 p0 s0] & E & H). cbn [d_type d_elem d_pos d_sym] in E. injection E as -> -> <- ->. apply in_map_iff. exists (Dof t e' p0 s). split; [reflexivity|]. eapply IH; eassumption.
  - rewrite layout_complex in *. apply in_flat_map in H. destruct H as (v & Hv & H). apply in_flat_map. exists v. split; [assumption|]. unfold comp_block, shift_pos in *. apply in_map_iff in H.
    destruct H as ([t0 e0 p0 s0] & E & H). cbn [d_type d_elem d_pos d_sym] in E. injection E as -> -> <- ->. apply in_map_iff. exists (Dof t e' p0 s). split; [reflexivity|].
    rewrite Forall_forall in IH. apply in_seq in Hv. eapply (IH (nth v l (Complex []))); [apply nth_In; lia|eassumption|assumption].
Qed.

Lemma nth_error_skipn' : forall {A} n (l : list A) k, nth_error (skipn n l) k = nth_error l (n + k).
Proof. induction n as [|n IH]; intros l k; [reflexivity|]. destruct l as [|a l]; [destruct k; reflexivity|]. cbn [skipn Nat.add nth_error]. apply IH. Qed.
Lemma nth_error_firstn' : forall {A} n (l : list A) k, k < n -> nth_error (firstn n l) k = nth_error l k.
Proof. induction n as [|n IH]; intros l k H; [lia|]. destruct l as [|a l]; [reflexivity|]. destruct k as [|k]; [reflexivity|]. cbn [firstn nth_error]. apply IH. lia. Qed.
(** *** Renumbering permutation *)
Lemma NoDup_map_gid : forall g vs, length g = 4 -> NoDup g -> NoDup vs -> (forall v, In v vs -> v < 4) -> NoDup (map (gid g) vs).
Proof.
  intros g vs Hl Hn Hv Hlt. induction vs as [|v vs IH]; [constructor|]. inversion Hv as [|? ? Hni Hv']; subst. cbn [map]. constructor.
  - intros Hin. apply in_map_iff in Hin. destruct Hin as (w & E & Hw). apply Hni. assert (w = v) by (apply (gid_inj g); auto using in_eq, in_cons). now subst.
  - apply IH; [assumption|]. intros w Hw. apply Hlt. now right.
Qed.
Lemma rankZ_lt : forall g x, In x g -> rankZ g x < length g.
Proof. intros g x H. unfold rankZ. eapply filter_length_lt; [exact H|]. apply Z.ltb_irrefl. Qed.

Lemma renum_perm_ok : forall big xs ys, 1 <= length xs <= 4 -> length ys = length xs -> NoDup xs -> NoDup ys ->
  (forall x, In x xs -> (x < big)%Z) -> (forall y, In y ys -> (y < big)%Z) ->
  exists q, renum_perm big xs ys = Some q /\ is_perm4 q /\
    forall i x y, nth_error xs i = Some x -> nth_error ys i = Some y -> nth_error q (rankZ ys y) = Some (rankZ xs x).
Proof.
  intros big xs ys Hl Hly Hnx Hny Hbx Hby. unfold renum_perm.
  destruct (C22_padded ys big ltac:(lia) Hny Hby) as (P & EP & HP & Hrank). rewrite EP. cbn [obind]. set (n := length xs) in *.
  set (slot := fun i => match nth_error ys i with Some y => Some (rankZ ys y) | None => None end).
  set (val := fun i => nth i xs 0%Z).
  destruct (scatter n slot val (fun i o => do j <- rd P i; do x <- rd xs i; wr o j x) (repeat big 4)) as (old & Eo & Lo & Hin & Hout).
  - intros i Hi. unfold slot. destruct (nth_error ys i) as [y|] eqn:E; [|apply nth_error_None in E; lia]. exists (rankZ ys y). split; [reflexivity|].
    rewrite repeat_length. pose proof (rankZ_lt ys y ltac:(eapply nth_error_In; eassumption)). lia.
  - intros i j s Hi Hj Es Ej. unfold slot in Es, Ej. destruct (nth_error ys i) as [y|] eqn:E; [|discriminate]. destruct (nth_error ys j) as [z|] eqn:E'; [|discriminate].
    assert (rankZ ys y = rankZ ys z) by congruence. assert (y = z) by (apply (rankZ_inj ys); try assumption; eapply nth_error_In; eassumption). subst z.
    eapply NoDup_nth_error; [exact Hny|lia|congruence].
  - intros i tab Hi. unfold slot, val. destruct (nth_error ys i) as [y|] eqn:E; [|apply nth_error_None in E; lia]. unfold rd at 1. rewrite (Hrank i y E). cbn [obind].
    unfold rd. rewrite (nth_error_nth' xs 0%Z) by (fold n; lia). reflexivity.
  - cbn beta in Eo. rewrite Eo. cbn [obind]. rewrite repeat_length in Lo.
    assert (Hold : exists X, old = X ++ repeat big (4 - length X) /\ length X = n /\ forall i y, nth_error ys i = Some y -> nth_error X (rankZ ys y) = Some (val i)).
    { exists (firstn n old). rewrite firstn_length, Lo, Nat.min_l by lia. split; [|split; [reflexivity|]].
      - rewrite <- (firstn_skipn n old) at 1. f_equal. apply nth_ext with (d := big) (d' := big); [rewrite skipn_length, repeat_length, Lo; reflexivity|].
        intros k Hk. rewrite skipn_length, Lo in Hk. rewrite nth_repeat. assert (En : nth_error old (n + k) = nth_error (repeat big 4) (n + k)).
        { apply Hout. intros i Hi Es. unfold slot in Es. destruct (nth_error ys i) as [y|] eqn:E; [|discriminate]. injection Es as Es.
          pose proof (rankZ_lt ys y ltac:(eapply nth_error_In; eassumption)). lia. }
        rewrite (nth_error_nth' (repeat big 4) big) in En by (rewrite repeat_length; lia). rewrite nth_repeat in En.
        apply nth_error_nth. rewrite nth_error_skipn'. exact En.
      - intros i y E. pose proof (rankZ_lt ys y ltac:(eapply nth_error_In; eassumption)). rewrite nth_error_firstn' by lia. apply Hin; [|unfold slot; now rewrite E].
        rewrite <- Hly. apply nth_error_Some. congruence. }
    destruct Hold as (X & -> & LX & HX).
    assert (Hperm : Permutation X xs).
    { apply Permutation_sym. apply NoDup_Permutation_bis; [exact Hnx|fold n; lia|].
      intros x Hx. apply In_nth_error in Hx. destruct Hx as [i Hi]. assert (Hil : i < n) by (apply nth_error_Some; congruence).
      destruct (nth_error ys i) as [y|] eqn:E; [|apply nth_error_None in E; lia]. specialize (HX i y E). eapply nth_error_In. rewrite HX. unfold val. f_equal. now apply nth_error_nth. }
    assert (HnX : NoDup X) by (eapply Permutation_NoDup; [apply Permutation_sym; exact Hperm|exact Hnx]).
    destruct (C22_padded X big ltac:(lia) HnX ltac:(intros x Hx; apply Hbx; eapply Permutation_in; eassumption)) as (Q & EQ & HQ & HrankX).
    exists Q. split; [exact EQ|]. split; [exact HQ|]. intros i x y Ex Ey. rewrite (HrankX _ _ (HX i y Ey)). f_equal.
    unfold val. rewrite (nth_error_nth xs i 0%Z Ex). fold (rankZ X x). apply rankZ_perm; [assumption..|]. intros z. split; intros Hz; (eapply Permutation_in; [|exact Hz]); [exact Hperm|apply Permutation_sym; exact Hperm].
Qed.

(** *** One element *)
Lemma pad_check : forallb (fun dim => forallb (fun q => negb (forallb (fun j => app4 q j <? S dim) (seq 0 (S dim))) ||
   (nodupb (pad_perm dim q) && (length (pad_perm dim q) =? 4) && forallb (fun x => x <? 4) (pad_perm dim q) &&
    forallb (fun j => (app4 (pad_perm dim q) j =? app4 q j) && (rank (map (app4 (pad_perm dim q)) (seq 0 (S dim))) (app4 (pad_perm dim q) j) =? app4 (pad_perm dim q) j)) (seq 0 (S dim)))) perms4) (seq 0 4) = true.
Proof. vm_compute. reflexivity. Qed.
Lemma pad_ok : forall dim q, dim < 4 -> is_perm4 q -> (forall j, j <= dim -> app4 q j <= dim) ->
  is_perm4 (pad_perm dim q) /\ forall j, j <= dim -> app4 (pad_perm dim q) j = app4 q j /\ rank (map (app4 (pad_perm dim q)) (seq 0 (S dim))) (app4 (pad_perm dim q) j) = app4 q j.
Proof.
  intros dim q Hd Hq Hlt. pose proof (forall_perms _ (forall_seq _ _ pad_check dim Hd) q Hq) as H. cbv beta in H.
  assert (Hb : forallb (fun j => app4 q j <? S dim) (seq 0 (S dim)) = true).
  { apply forallb_forall. intros j Hj. apply in_seq in Hj. apply Nat.ltb_lt. specialize (Hlt j ltac:(lia)). lia. }
  rewrite Hb in H. cbn [negb orb] in H. apply Bool.andb_true_iff in H. destruct H as [H H4]. apply Bool.andb_true_iff in H. destruct H as [H H3]. apply Bool.andb_true_iff in H. destruct H as [H1 H2].
  split.
  - split; [now apply Nat.eqb_eq|]. split; [now apply nodupb_iff|]. apply Forall_forall. intros x Hx. rewrite forallb_forall in H3. specialize (H3 x Hx). now apply Nat.ltb_lt.
  - intros j Hj. rewrite forallb_forall in H4. specialize (H4 j ltac:(apply in_seq; lia)). apply Bool.andb_true_iff in H4. destruct H4 as [A B]. apply Nat.eqb_eq in A, B. split; [exact A|congruence].
Qed.
Lemma corners_0 : forall t, t < 6 -> corners t 0 = seq 0 (S (geom_dim t)).
Proof. intros t H. destruct t as [|[|[|[|[|[|t]]]]]]; [reflexivity..|lia]. Qed.
Lemma elems_pos : forall t, t < 6 -> 0 < tet_elems t.
Proof. intros t H. destruct t as [|[|[|[|[|[|t]]]]]]; cbn; lia. Qed.
Lemma dim_lt : forall t, geom_dim t < 4.
Proof. intros t. unfold geom_dim. destruct t as [|[|[|[|[|[|t]]]]]]; cbn; try lia. destruct t; lia. Qed.

Section Renum.
  Variables (g h : list Z) (big : Z) (t e : nat) (vs : list nat).
  Hypothesis Hg : length g = 4. Hypothesis Hng : NoDup g.
  Hypothesis Hh : length h = 4. Hypothesis Hnh : NoDup h.
  Hypothesis Hbg : forall x, In x g -> (x < big)%Z. Hypothesis Hbh : forall x, In x h -> (x < big)%Z.
  Hypothesis Ht : t < 6. Hypothesis He : e < tet_elems t.
  Hypothesis Hvs : Permutation vs (corners t e).
  Let dim := geom_dim t.
  Lemma vs_lt : forall v, In v vs -> v < 4.
  Proof. intros v H. apply (corners_lt t e); try assumption. eapply Permutation_in; eassumption. Qed.
  Lemma vs_len : length vs = S dim.
  Proof. rewrite (Permutation_length Hvs). now apply length_corners. Qed.
  Lemma vs_nodup : NoDup vs.
  Proof. eapply Permutation_NoDup; [apply Permutation_sym; exact Hvs|]. now apply corners_nodup. Qed.
  Lemma rankZ_vs : forall a v, length a = 4 -> NoDup a -> rankZ (map (gid a) vs) (gid a v) = rankZ (gids a t e) (gid a v).
  Proof.
    intros a v Ha Hna. apply rankZ_perm.
    - apply NoDup_map_gid; try assumption; [apply vs_nodup|apply vs_lt].
    - now apply gids_nodup.
    - intros y. unfold gids. split; intros H; (eapply Permutation_in; [|exact H]); [apply Permutation_map; exact Hvs|apply Permutation_map, Permutation_sym; exact Hvs].
  Qed.
  Lemma renum_ok : exists q, renum_perm big (map (gid g) vs) (map (gid h) vs) = Some q /\ is_perm4 (pad_perm dim q) /\
    forall v, In v (corners t e) -> rankZ (gids h t e) (gid h v) <= dim /\
       rank (map (app4 (pad_perm dim q)) (corners t 0)) (app4 (pad_perm dim q) (rankZ (gids h t e) (gid h v))) = rankZ (gids g t e) (gid g v).
  Proof.
    destruct (renum_perm_ok big (map (gid g) vs) (map (gid h) vs)) as (q & Eq & Hq & Hval).
    - rewrite map_length, vs_len. pose proof (dim_lt t). unfold dim. lia.
    - now rewrite !map_length.
    - apply NoDup_map_gid; try assumption; [apply vs_nodup|apply vs_lt].
    - apply NoDup_map_gid; try assumption; [apply vs_nodup|apply vs_lt].
    - intros x Hx. apply in_map_iff in Hx. destruct Hx as (v & <- & Hv). apply Hbg. apply gid_in; [assumption|]. now apply vs_lt.
    - intros x Hx. apply in_map_iff in Hx. destruct Hx as (v & <- & Hv). apply Hbh. apply gid_in; [assumption|]. now apply vs_lt.
    - exists q. split; [exact Eq|].
      assert (Hmap : forall v, In v vs -> app4 q (rankZ (gids h t e) (gid h v)) = rankZ (gids g t e) (gid g v)).
      { intros v Hv. apply In_nth_error in Hv. destruct Hv as [i Hi]. specialize (Hval i (gid g v) (gid h v)).
        rewrite !nth_error_map, Hi in Hval. specialize (Hval eq_refl eq_refl). rewrite !rankZ_vs in Hval by assumption. unfold app4. now apply nth_error_nth. }
      assert (Hle : forall a v, length a = 4 -> NoDup a -> In v vs -> rankZ (gids a t e) (gid a v) <= dim).
      { intros a v Ha Hna Hv. assert (In (gid a v) (gids a t e)) by (unfold gids; apply in_map; eapply Permutation_in; eassumption).
        pose proof (rankZ_lt _ _ H). unfold gids in H0 at 2. rewrite map_length, length_corners in H0 by assumption. unfold ncorn in H0. fold dim in H0. lia. }
      destruct (pad_ok dim q) as [Hp Hpad].
      + apply dim_lt.
      + exact Hq.
      + intros j Hj. destruct (rank_onto (gids h t e) j) as (x & Hx & <-); [now apply gids_nodup|unfold gids; rewrite map_length, length_corners by assumption; unfold ncorn; fold dim; lia|].
        unfold gids in Hx. apply in_map_iff in Hx. destruct Hx as (v & <- & Hv). assert (Hv' : In v vs) by (eapply Permutation_in; [apply Permutation_sym; exact Hvs|exact Hv]).
        rewrite Hmap by assumption. now apply Hle.
      + split; [exact Hp|]. intros v Hv. assert (Hv' : In v vs) by (eapply Permutation_in; [apply Permutation_sym; exact Hvs|exact Hv]).
        split; [now apply Hle|]. rewrite corners_0 by assumption. destruct (Hpad (rankZ (gids h t e) (gid h v))) as [_ E]; [now apply Hle|]. fold dim. rewrite E. now apply Hmap.
  Qed.
  Lemma renum_index : exists q, renum_perm big (map (gid g) vs) (map (gid h) vs) = Some q /\ is_perm4 (pad_perm dim q) /\
    forall c l r r', l < npoints t c -> index_on t e c l (gperm h) = Some r -> index_on t e c l (gperm g) = Some r' ->
      r < npoints t c /\ index_on t 0 c r (pad_perm dim q) = Some r'.
  Proof.
    destruct renum_ok as (q & Eq & Hp & Hval). exists q. split; [exact Eq|]. split; [exact Hp|]. intros c l r r' Hl Er Er'.
    destruct (index_placed t e c l (gperm h) Ht He Hl (gperm_perm h Hh Hnh)) as (x & Ex & Hlt & Px). rewrite Er in Ex. injection Ex as <-.
    destruct (index_placed t e c l (gperm g) Ht He Hl (gperm_perm g Hg Hng)) as (x & Ex & Hlt' & Px'). rewrite Er' in Ex. injection Ex as <-.
    split; [exact Hlt|].
    destruct (index_placed t 0 c r (pad_perm dim q) Ht (elems_pos t Ht) Hlt Hp) as (x & Ex & Hlt0 & P0). rewrite Ex. f_equal.
    apply (marks_inj t c); try assumption. intros k Hk.
    destruct (rank_onto (gids g t e) k) as (y & Hy & <-); [now apply gids_nodup|unfold gids; rewrite map_length, length_corners by assumption; exact Hk|].
    unfold gids in Hy. apply in_map_iff in Hy. destruct Hy as (v & <- & Hv). destruct (Hval v Hv) as [Hle Hr].
    pose proof Hv as Hv2. apply In_nth_error in Hv2. destruct Hv2 as [j Hj].
    pose proof (Px j v Hj) as M1. pose proof (Px' j v Hj) as M2. rewrite rank_global in M1, M2 by assumption.
    rewrite M2, <- M1, <- Hr. apply P0. rewrite corners_0 by assumption. fold dim.
    rewrite nth_error_nth' with (d := 0) by (rewrite seq_length; lia). f_equal. apply seq_nth. lia.
  Qed.
End Renum.

(** *** Table of an element *)
Definition slot_of (d : dmap) (t p : nat) : nat := (if oriented t then num_dof d (t - 1) else 0) + p.
Definition ndata (d : dmap) (dim : nat) : nat :=
  match dim with 0 => num_dof d 0 | 1 => num_dof d 1 + num_dof d 2 | 2 => num_dof d 3 + num_dof d 4 | _ => num_dof d 5 end.
Lemma slot_lt : forall d t p, t < 6 -> p < num_dof d t -> slot_of d t p < ndata d (geom_dim t).
Proof. intros d t p Ht Hp. unfold slot_of, ndata, oriented. destruct t as [|[|[|[|[|[|t]]]]]]; cbn in *; lia. Qed.
Lemma slot_inj : forall d t t' p p', t < 6 -> t' < 6 -> geom_dim t = geom_dim t' -> p < num_dof d t -> p' < num_dof d t' -> slot_of d t p = slot_of d t' p' -> t = t' /\ p = p'.
Proof.
  intros d t t' p p' Ht Ht' Hd Hp Hp'. unfold slot_of, oriented.
  destruct t as [|[|[|[|[|[|t]]]]]]; try lia; (destruct t' as [|[|[|[|[|[|t']]]]]]; try lia; cbn in Hd |- *; try discriminate; intros; lia).
Qed.
Lemma slot_onto : forall d dim s, dim < 4 -> s < ndata d dim -> exists t p, t < 6 /\ geom_dim t = dim /\ p < num_dof d t /\ slot_of d t p = s.
Proof.
  intros d dim s Hd Hs. unfold ndata in Hs. destruct dim as [|[|[|[|dim]]]]; try lia.
  - exists 0, s. cbn. repeat split; lia.
  - destruct (Nat.lt_ge_cases s (num_dof d 1)).
    + exists 1, s. cbn. repeat split; lia.
    + exists 2, (s - num_dof d 1). unfold slot_of. cbn. repeat split; lia.
  - destruct (Nat.lt_ge_cases s (num_dof d 3)).
    + exists 3, s. cbn. repeat split; lia.
    + exists 4, (s - num_dof d 3). unfold slot_of. cbn. repeat split; lia.
  - exists 5, s. cbn. repeat split; lia.
Qed.
Lemma sign_check : forallb (fun t => forallb (fun p => match locus_sign t 0 p with Some z => negb (z =? 0)%Z | None => false end) perms4) (seq 0 6) = true.
Proof. vm_compute. reflexivity. Qed.
Lemma locus_sign_some : forall t p, t < 6 -> is_perm4 p -> exists z, locus_sign t 0 p = Some z /\ (z =? 0)%Z = false.
Proof.
  intros t p Ht Hp. pose proof (forall_perms _ (forall_seq _ _ sign_check t Ht) p Hp) as H. cbv beta in H. destruct (locus_sign t 0 p) as [z|]; [|discriminate].
  exists z. split; [reflexivity|]. now destruct (z =? 0)%Z.
Qed.
Lemma in_dofs_on0 : forall d dim i, In i (dofs_on0 d dim) <-> exists lo, local_order d i = Some lo /\ i < num_dof_tet d /\ geom_dim (lo_type lo) = dim /\ lo_elem lo = 0.
Proof.
  intros d dim i. unfold dofs_on0. rewrite filter_In, in_seq. destruct (local_order d i) as [lo|].
  - rewrite Bool.andb_true_iff, !Nat.eqb_eq. split; [intros (A & B & C); exists lo; repeat split; try assumption; lia|].
    intros (lo' & E & A & B & C). injection E as <-. repeat split; try assumption; lia.
  - split; [intros [_ H]; discriminate|intros (lo' & E & _); discriminate].
Qed.

Section Table.
  Variables (d : dmap) (dim : nat) (perm : list nat).
  Hypothesis Hwf : wf d. Hypothesis Hlab : labelled d. Hypothesis Hdim : dim < 4. Hypothesis Hp : is_perm4 (pad_perm dim perm).
  Let n := ndata d dim.
  Lemma lo_facts : forall i lo, local_order d i = Some lo -> exists c l, lo_sym lo = Some (c, l) /\
    nth_error (layout d) i = Some (Dof (lo_type lo) (lo_elem lo) (lo_leid lo) (Some (c, l))) /\
    lo_type lo < 6 /\ lo_elem lo < tet_elems (lo_type lo) /\ lo_leid lo < num_dof d (lo_type lo) /\ l < npoints (lo_type lo) c /\ l <= lo_leid lo /\ i < num_dof_tet d.
  Proof.
    intros i lo E. destruct (local_order_inv d i lo Hwf E) as (Hi & En & Hgid). unfold dof_of_lo in En.
    destruct (lo_sym lo) as [[c l]|] eqn:Es.
    - exists c, l. destruct (dof_facts d i _ _ _ c l Hwf En) as (A1 & A2 & A3 & A4 & A5 & A6).
      rewrite num_dof_cnt by assumption. rewrite length_layout_num by assumption. repeat split; assumption.
    - exfalso. apply nth_error_In in En. apply (Hlab _ En). reflexivity.
  Qed.
  Lemma elem_locus_ok : forall i lo, local_order d i = Some lo -> geom_dim (lo_type lo) = dim -> lo_elem lo = 0 ->
    exists c l r z, lo_sym lo = Some (c, l) /\ index_on (lo_type lo) 0 c l (pad_perm dim perm) = Some r /\ r < npoints (lo_type lo) c /\ (z =? 0)%Z = false /\
      elem_locus d lo perm = Some (slot_of d (lo_type lo) (lo_leid lo - l + r), z) /\ slot_of d (lo_type lo) (lo_leid lo - l + r) < n.
  Proof.
    intros i lo E Hd He. destruct (lo_facts i lo E) as (c & l & Es & En & A1 & A2 & A3 & A4 & A5 & A6).
    rewrite He in A2. destruct (index_placed (lo_type lo) 0 c l (pad_perm dim perm) A1 A2 A4 Hp) as (r & Er & Hr & _).
    destruct (locus_sign_some (lo_type lo) (pad_perm dim perm) A1 Hp) as (z & Ez & Hz).
    exists c, l, r, z. split; [exact Es|]. split; [exact Er|]. split; [exact Hr|]. split; [exact Hz|]. split.
    - unfold elem_locus. rewrite Hd, Ez, Es. cbn [obind fst snd]. rewrite Er. cbn [obind]. unfold slot_of. now rewrite Nat.add_assoc.
    - unfold n. rewrite <- Hd. apply slot_lt; [assumption|]. destruct (oclosed_layout d Hwf i _ _ _ _ _ En) as (_ & _ & _ & H). specialize (H r Hr).
      destruct (dof_facts d _ _ _ _ _ _ Hwf H) as (_ & _ & B & _). now rewrite num_dof_cnt by assumption.
  Qed.
  Lemma nodup_dofs_on0 : NoDup (dofs_on0 d dim).
  Proof. apply NoDup_filter, seq_NoDup. Qed.
  Lemma dof_at0 : forall t p, t < 6 -> p < num_dof d t -> exists i lo, local_order d i = Some lo /\ lo_type lo = t /\ lo_elem lo = 0 /\ lo_leid lo = p.
  Proof.
    intros t p Ht H. rewrite num_dof_cnt in H by assumption.
    assert (Hin : In (t, 0, p) (loci d)) by (apply in_loci; repeat split; try assumption; now apply elems_pos).
    unfold loci in Hin. apply in_map_iff in Hin. destruct Hin as ([t0 e0 p0 s0] & El & Hin). cbn in El. injection El as -> -> ->.
    apply In_nth_error in Hin. destruct Hin as [i Hi]. exists i. rewrite local_order_layout by assumption. rewrite Hi. cbn [option_map].
    eexists. split; [reflexivity|]. cbn. auto.
  Qed.
  Lemma table_ok : exists tab, reord_table d dim perm n = Some tab /\ length tab = n /\
    (forall i lo, local_order d i = Some lo -> geom_dim (lo_type lo) = dim -> lo_elem lo = 0 -> nth_error tab (slot_of d (lo_type lo) (lo_leid lo)) = elem_locus d lo perm) /\
    (forall s, s < n -> exists pos, nth_error tab s = Some pos /\ (snd pos =? 0)%Z = false /\ fst pos < n).
  Proof.
    set (is := dofs_on0 d dim).
    set (slot := fun k => match nth_error is k with Some i => match local_order d i with Some lo => Some (slot_of d (lo_type lo) (lo_leid lo)) | None => None end | None => None end).
    set (val := fun k => match nth_error is k with Some i => match local_order d i with Some lo => match elem_locus d lo perm with Some p => p | None => (0, 0%Z) end | None => (0, 0%Z) end | None => (0, 0%Z) end).
    assert (Hk : forall k, k < length is -> exists i lo, nth_error is k = Some i /\ local_order d i = Some lo /\ geom_dim (lo_type lo) = dim /\ lo_elem lo = 0).
    { intros k Hk. destruct (nth_error is k) as [i|] eqn:Ei; [|apply nth_error_None in Ei; lia]. pose proof (nth_error_In _ _ Ei) as Hin. unfold is in Hin. apply in_dofs_on0 in Hin.
      destruct Hin as (lo & A & _ & B & C). exists i, lo. auto. }
    destruct (scatter (length is) slot val (fun k tab =>
      do i <- rd is k; do lo <- local_order d i;
      let shift := if oriented (lo_type lo) then num_dof d (lo_type lo - 1) else 0 in
      do pos <- elem_locus d lo perm;
      wr tab (shift + lo_leid lo) pos) (repeat (0, 0%Z) n)) as (tab & Et & Hl & Hin & _).
    - intros k H. destruct (Hk k H) as (i & lo & Ei & El & Ed & Ee). exists (slot_of d (lo_type lo) (lo_leid lo)). unfold slot. rewrite Ei, El. split; [reflexivity|].
      rewrite repeat_length. unfold n. rewrite <- Ed. destruct (lo_facts i lo El) as (c & l & _ & _ & A1 & _ & A3 & _). now apply slot_lt.
    - intros k k' s H H' E E'. destruct (Hk k H) as (i & lo & Ei & El & Ed & Ee). destruct (Hk k' H') as (i' & lo' & Ei' & El' & Ed' & Ee').
      unfold slot in E, E'. rewrite Ei, El in E. rewrite Ei', El' in E'. apply Some_inj in E, E'. destruct (lo_facts i lo El) as (c & l & _ & En & A1 & _ & A3 & _).
      destruct (lo_facts i' lo' El') as (c' & l' & _ & En' & A1' & _ & A3' & _).
      destruct (slot_inj d (lo_type lo) (lo_type lo') (lo_leid lo) (lo_leid lo') A1 A1' ltac:(congruence) A3 A3' ltac:(congruence)) as [Q1 Q2].
      rewrite Ee in En. rewrite Ee', <- Q1, <- Q2 in En'. pose proof (same_locus _ _ _ _ _ _ _ _ En En') as Q. subst i'.
      apply (proj1 (NoDup_nth_error is) nodup_dofs_on0); [exact H|congruence].
    - intros k tab H. destruct (Hk k H) as (i & lo & Ei & El & Ed & Ee). unfold slot, val, rd. rewrite Ei. cbn [obind]. rewrite El. cbn [obind].
      destruct (elem_locus_ok i lo El Ed Ee) as (c & l & r & z & _ & _ & _ & _ & Q & _). rewrite Q. reflexivity.
    - exists tab. split; [exact Et|]. split; [now rewrite Hl, repeat_length|].
      assert (Hent : forall i lo, local_order d i = Some lo -> geom_dim (lo_type lo) = dim -> lo_elem lo = 0 -> nth_error tab (slot_of d (lo_type lo) (lo_leid lo)) = elem_locus d lo perm).
      { intros i lo El Ed Ee. destruct (lo_facts i lo El) as (c & l & _ & _ & _ & _ & _ & _ & _ & A6).
        assert (Hi : In i is) by (apply in_dofs_on0; exists lo; auto). apply In_nth_error in Hi. destruct Hi as [k Ek].
        assert (k < length is) by (apply nth_error_Some; congruence).
        rewrite (Hin k (slot_of d (lo_type lo) (lo_leid lo)) H) by (unfold slot; now rewrite Ek, El). unfold val. rewrite Ek, El.
        destruct (elem_locus_ok i lo El Ed Ee) as (c' & l' & r & z & _ & _ & _ & _ & Q & _). now rewrite Q. }
      split; [exact Hent|]. intros s Hs. destruct (slot_onto d dim s Hdim Hs) as (t & p & Ht & Hd & Hpp & <-). destruct (dof_at0 t p Ht Hpp) as (i & lo & El & <- & Ee & <-).
      rewrite (Hent i lo El Hd Ee). destruct (elem_locus_ok i lo El Hd Ee) as (c & l & r & z & _ & _ & _ & Hz & Q & Hlt). rewrite Q. eexists. split; [reflexivity|]. cbn [fst snd]. auto.
  Qed.
End Table.
Lemma gather_loop : forall {A} n (tab : list (nat * Z)) (tv : list A),
  (forall s, s < n -> exists pos v, nth_error tab s = Some pos /\ (snd pos =? 0)%Z = false /\ nth_error tv (fst pos) = Some v) ->
  exists r, for_ n (fun i r => do pos <- rd tab i; do _ <- guard (negb (snd pos =? 0)%Z); do v <- rd tv (fst pos); Some (r ++ [v])) [] = Some r /\
    length r = n /\ forall s pos, s < n -> nth_error tab s = Some pos -> nth_error r s = nth_error tv (fst pos).
Proof.
  intros A n tab tv H. destruct (for_inv (fun i (r : list A) => length r = i /\ forall s pos, s < i -> nth_error tab s = Some pos -> nth_error r s = nth_error tv (fst pos))
    n (fun i r => do pos <- rd tab i; do _ <- guard (negb (snd pos =? 0)%Z); do v <- rd tv (fst pos); Some (r ++ [v])) []) as (r & E & Hr).
  - split; [reflexivity|]. intros; lia.
  - intros i r Hi [Hl Hr]. destruct (H i ltac:(lia)) as (pos & v & E1 & E2 & E3). unfold rd. rewrite E1. cbn [obind]. rewrite E2. cbn [negb guard obind]. rewrite E3. cbn [obind].
    eexists. split; [reflexivity|]. split; [rewrite app_length; cbn; lia|]. intros s pos' Hs Es. destruct (Nat.eq_dec s i) as [->|].
    + rewrite nth_error_app2 by lia. rewrite Hl, Nat.sub_diag. cbn. congruence.
    + rewrite nth_error_app1 by lia. apply Hr; [lia|assumption].
  - exists r. destruct Hr as [Hl Hr]. split; [exact E|]. split; [exact Hl|]. intros. now apply Hr.
Qed.
Theorem renumber_ok : forall {A} d g h big t e vs (tv : list A), wf d -> labelled d ->
  length g = 4 -> NoDup g -> length h = 4 -> NoDup h -> (forall x, In x g -> (x < big)%Z) -> (forall x, In x h -> (x < big)%Z) ->
  t < 6 -> e < tet_elems t -> Permutation vs (corners t e) -> ndata d (geom_dim t) <= length tv ->
  exists tv', renumber d (geom_dim t) big (map (gid g) vs) (map (gid h) vs) tv = Some tv' /\ length tv' = length tv /\
    forall i lo a b, local_order d i = Some lo -> lo_type lo = t -> lo_elem lo = e ->
      locus_index d lo (gperm h) = Some a -> locus_index d lo (gperm g) = Some b -> nth_error tv' a = nth_error tv b.
Proof.
  intros A d g h big t e vs tv Hwf Hlab Hg Hng Hh Hnh Hbg Hbh Ht He Hvs Hlen.
  destruct (renum_index g h big t e vs Hg Hng Hh Hnh Hbg Hbh Ht He Hvs) as (q & Eq & Hp & Hidx).
  destruct (table_ok d (geom_dim t) q Hwf Hlab (dim_lt t) Hp) as (tab & Et & Hl & Hent & Hall).
  destruct (gather_loop (ndata d (geom_dim t)) tab tv) as (r & Er & Hlr & Hr).
  { intros s Hs. destruct (Hall s Hs) as (pos & E1 & E2 & E3). exists pos. destruct (nth_error tv (fst pos)) as [v|] eqn:Ev; [|apply nth_error_None in Ev; lia]. exists v. auto. }
  exists (r ++ skipn (ndata d (geom_dim t)) tv). split.
  { unfold renumber. fold (ndata d (geom_dim t)). rewrite Eq. cbn [obind]. rewrite Et. cbn [obind]. rewrite Er. reflexivity. }
  split; [rewrite app_length, skipn_length, Hlr; lia|].
  intros i lo a b Elo Hty Hel Ea Eb. destruct (lo_facts d Hwf Hlab i lo Elo) as (c & l & Es & En & A1 & A2 & A3 & A4 & A5 & A6).
  unfold locus_index in Ea, Eb. rewrite Es in Ea, Eb. cbn [obind fst snd] in Ea, Eb. rewrite Hty, Hel in *.
  destruct (index_on t e c l (gperm h)) as [rn|] eqn:E1; [|discriminate]. destruct (index_on t e c l (gperm g)) as [ro|] eqn:E2; [|discriminate]. cbn [obind] in Ea, Eb. apply Some_inj in Ea, Eb.
  destruct (Hidx c l rn ro A4 E1 E2) as [Hrn E0].
  destruct (oclosed_layout d Hwf i _ _ _ _ _ En) as (_ & _ & _ & H). specialize (H rn Hrn). apply nth_error_In in H.
  apply sym_entity with (e' := 0) in H; [|now apply elems_pos]. apply In_nth_error in H. destruct H as [i' Hi'].
  assert (Elo' : local_order d i' = Some (lo_of i' (Dof t 0 (lo_leid lo - l + rn) (Some (c, rn))))) by (rewrite local_order_layout by assumption; now rewrite Hi').
  pose proof (Hent i' _ Elo' eq_refl eq_refl) as Htab. cbn [lo_type lo_leid lo_of d_type d_pos] in Htab.
  destruct (elem_locus_ok d (geom_dim t) q Hwf Hlab Hp i' _ Elo' eq_refl eq_refl) as (c' & l' & r' & z & F1 & F2 & F3 & F4 & F5 & F6).
  cbn [lo_type lo_leid lo_of lo_sym d_type d_pos d_sym] in *. injection F1 as <- <-. rewrite E0 in F2. injection F2 as <-.
  assert (Ha : a = slot_of d t (lo_leid lo - l + rn)) by (unfold slot_of; lia).
  assert (Hb : b = slot_of d t (lo_leid lo - l + ro)) by (unfold slot_of; lia).
  assert (Hlt : a < ndata d (geom_dim t)).
  { rewrite Ha. apply slot_lt; [assumption|]. destruct (dof_facts d _ _ _ _ _ _ Hwf Hi') as (_ & _ & B & _). now rewrite num_dof_cnt by assumption. }
  rewrite nth_error_app1 by lia. rewrite F5 in Htab. rewrite <- Ha in Htab. rewrite (Hr a _ Hlt Htab). cbn [fst]. rewrite Hb. f_equal. f_equal. lia.
Qed.
