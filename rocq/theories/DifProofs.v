(** Proofs about the local assembly of the ready-made problems *)
From Coq Require Import Reals Permutation Lra.
From Verif Require SparsityModel SparsitySpec SparsityProofs IterProofs2.
From Verif Require Import Prelude DofModel DofSpec DofProofs RSum CoreModel CoreSpec CoreProps DirModel DirSpec DirProofs AsmModel AsmSpec UtModel UtProofs UtProofs2 DifModel DifSpec.
Import SparsityModel(set_ent, set_node, set_edge, set_face, set_cell, tst, bit, sp_empty_set, sp_iterate, is_empty).
Import SparsitySpec(entity, ent_count, sel, in_range, OSet).
Open Scope nat_scope.

Lemma some_inj : forall {A} (x y : A), Some x = Some y -> x = y. Proof. congruence. Qed.

(** *** Gathering *)
Lemma fold_set : forall dim (b : nat -> bool) (st : nat -> SparsityModel.sparsity -> SparsityModel.sparsity) l s,
  (forall i s, set_ent dim i false s = Some (st i s)) -> (forall i, In i l -> entity dim i) -> in_range s ->
  let s' := fold_left (fun s i => if b i then st i s else s) l s in
  in_range s' /\ forall d k, entity d k -> tst s' d k = tst s d k || (d =? dim) && (existsb (Nat.eqb k) l && b k).
Proof.
  intros dim b st l. induction l as [|i l IH]; intros s Hst Hl Hr; cbn [fold_left].
  - split; [exact Hr|]. intros d k _. cbn. now rewrite andb_false_r, orb_false_r.
  - assert (E : entity dim i) by (apply Hl; now left).
    assert (R1 : in_range (if b i then st i s else s)).
    { destruct (b i); [|exact Hr]. apply (SparsityProofs.run_op_range (OSet dim i false) s); [exact E|exact I|exact Hr|apply Hst]. }
    destruct (IH (if b i then st i s else s) Hst (fun j Hj => Hl j (or_intror Hj)) R1) as [A B]. split; [exact A|].
    intros d k Hk. cbn in B. rewrite B by exact Hk. cbn [existsb].
    destruct (b i) eqn:Eb.
    + destruct (SparsityProofs.tst_set dim i false s d k E Hk) as (s1 & E1 & E2). rewrite Hst in E1. injection E1 as <-. cbn beta. rewrite E2.
      rewrite <- orb_assoc. f_equal. rewrite <- andb_orb_distrib_r. destruct (d =? dim); [|reflexivity]. cbn [andb].
      destruct (Nat.eqb_spec k i) as [-> |]; [rewrite Eb; cbn; now rewrite ?andb_true_r|reflexivity].
    + destruct (Nat.eqb_spec k i) as [-> |]; [rewrite Eb; now rewrite !andb_false_r|reflexivity].
Qed.
Lemma fold_faces : forall (isd bnd : nat -> bool) l s m, fold_left (fun (sm : SparsityModel.sparsity * N) i => if isd i then (set_face i false (fst sm), snd sm)
      else if bnd i then (fst sm, N.lor (snd sm) (bit i)) else sm) l (s, m)
  = (fold_left (fun s i => if isd i then set_face i false s else s) l s,
     fold_left (fun m i => if negb (isd i) && bnd i then N.lor m (bit i) else m) l m).
Proof.
  intros isd bnd l. induction l as [|i l IH]; intros s m; cbn [fold_left]; [reflexivity|].
  destruct (isd i); cbn [negb andb fst snd]; [apply IH|]. destruct (bnd i); cbn [fst snd]; apply IH.
Qed.
Lemma fold_bits : forall (b : nat -> bool) l m k, N.testbit (fold_left (fun m i => if b i then N.lor m (bit i) else m) l m) (N.of_nat k) = N.testbit m (N.of_nat k) || (existsb (Nat.eqb k) l && b k).
Proof.
  intros b l. induction l as [|i l IH]; intros m k; cbn [fold_left existsb]; [now rewrite orb_false_r|]. rewrite IH.
  assert (B : N.testbit (bit i) (N.of_nat k) = (k =? i)).
  { unfold bit. rewrite N.shiftl_1_l. destruct (Nat.eqb_spec k i) as [-> |]; [apply N.pow2_bits_true|apply N.pow2_bits_false; lia]. }
  destruct (b i) eqn:Eb; [rewrite N.lor_spec, B, <- orb_assoc; apply (f_equal (orb _))|apply (f_equal (orb _))];
    clear B; (destruct (Nat.eqb_spec k i) as [E|]; [rewrite E, Eb; rewrite ?andb_false_r, ?andb_true_r; reflexivity|reflexivity]).
Qed.
Lemma seq_mem : forall n k, existsb (Nat.eqb k) (seq 0 n) = (k <? n).
Proof.
  intros n k. destruct (Nat.ltb_spec k n) as [H|H].
  - apply existsb_exists. exists k. split; [apply in_seq; lia|apply Nat.eqb_refl].
  - destruct (existsb (Nat.eqb k) (seq 0 n)) eqn:E; [|reflexivity]. apply existsb_exists in E. destruct E as (j & Hj & E). apply Nat.eqb_eq in E. apply in_seq in Hj. lia.
Qed.
Lemma gather_ok : forall d isd bnd, in_range (fst (gather d isd bnd)) /\
  (forall dim k, entity dim k -> tst (fst (gather d isd bnd)) dim k = elem_mask d dim && isd dim k) /\
  (forall k, k < 4 -> N.testbit (snd (gather d isd bnd)) (N.of_nat k) = elem_mask d 2 && (bnd k && negb (isd 2 k))).
Proof.
  intros d isd bnd. unfold gather. rewrite fold_faces.
  assert (R0 : in_range sp_empty_set) by (repeat split).
  assert (T0 : forall dim k, tst sp_empty_set dim k = false) by (intros [|[|[|[|]]]] k; apply N.bits_0).
  assert (S1 : exists s, (if elem_mask d 0 then fold_left (fun s i => if isd 0 i then set_node i s else s) (seq 0 4) sp_empty_set else sp_empty_set) = s /\ in_range s /\
    forall dim k, entity dim k -> tst s dim k = (dim =? 0) && (elem_mask d 0 && isd 0 k)).
  { eexists. split; [reflexivity|]. destruct (elem_mask d 0).
    - destruct (fold_set 0 (isd 0) set_node (seq 0 4) sp_empty_set) as [A B]; trivial; [intros i Hi; apply in_seq in Hi; split; cbn; lia|]. split; [exact A|].
      intros dim k Hk. rewrite B, T0 by exact Hk. cbn [orb andb]. destruct (Nat.eqb_spec dim 0) as [-> |]; [|reflexivity]. rewrite seq_mem. destruct Hk as [_ Hk]. cbn [ent_count nth] in Hk. now rewrite (proj2 (Nat.ltb_lt k 4) Hk).
    - split; [exact R0|]. intros. now rewrite T0, andb_false_r. }
  destruct S1 as (s1 & -> & R1 & T1).
  assert (S2 : exists s, (if elem_mask d 1 then fold_left (fun s i => if isd 1 i then set_edge i false s else s) (seq 0 6) s1 else s1) = s /\ in_range s /\
    forall dim k, entity dim k -> tst s dim k = tst s1 dim k || (dim =? 1) && (elem_mask d 1 && isd 1 k)).
  { eexists. split; [reflexivity|]. destruct (elem_mask d 1).
    - destruct (fold_set 1 (isd 1) (fun i s => set_edge i false s) (seq 0 6) s1) as [A B]; trivial; [intros i Hi; apply in_seq in Hi; split; cbn; lia|]. split; [exact A|].
      intros dim k Hk. rewrite B by exact Hk. cbn [andb]. f_equal. destruct (Nat.eqb_spec dim 1) as [-> |]; [|reflexivity]. rewrite seq_mem. destruct Hk as [_ Hk]. cbn [ent_count nth] in Hk. now rewrite (proj2 (Nat.ltb_lt k 6) Hk).
    - split; [exact R1|]. intros. now rewrite andb_false_l, andb_false_r, orb_false_r. }
  destruct S2 as (s2 & -> & R2 & T2).
  set (nb := fold_left (fun m i => if negb (isd 2 i) && bnd i then N.lor m (bit i) else m) (seq 0 4) 0%N).
  assert (S3 : exists s m, (if elem_mask d 2 then (fold_left (fun s i => if isd 2 i then set_face i false s else s) (seq 0 4) s2, nb) else (s2, 0%N)) = (s, m) /\ in_range s /\
    (forall dim k, entity dim k -> tst s dim k = tst s2 dim k || (dim =? 2) && (elem_mask d 2 && isd 2 k)) /\ forall k, k < 4 -> N.testbit m (N.of_nat k) = elem_mask d 2 && (bnd k && negb (isd 2 k))).
  { destruct (elem_mask d 2); do 2 eexists; (split; [reflexivity|]).
    - destruct (fold_set 2 (isd 2) (fun i s => set_face i false s) (seq 0 4) s2) as [A B]; trivial; [intros i Hi; apply in_seq in Hi; split; cbn; lia|]. split; [exact A|]. split.
      + intros dim k Hk. rewrite B by exact Hk. cbn [andb]. f_equal. destruct (Nat.eqb_spec dim 2) as [-> |]; [|reflexivity]. rewrite seq_mem. destruct Hk as [_ Hk]. cbn [ent_count nth] in Hk. now rewrite (proj2 (Nat.ltb_lt k 4) Hk).
      + intros k Hk. unfold nb. rewrite (fold_bits (fun i => negb (isd 2 i) && bnd i)), N.bits_0, seq_mem, (proj2 (Nat.ltb_lt k 4) Hk). cbn [orb andb]. apply andb_comm.
    - split; [exact R2|]. split; [intros; now rewrite andb_false_l, andb_false_r, orb_false_r|]. intros k _. apply N.bits_0. }
  destruct S3 as (s3 & m & -> & R3 & T3 & N3). cbn [fst snd]. split; [|split; [|exact N3]].
  - destruct (elem_mask d 3 && isd 3 0); [|exact R3]. apply (SparsityProofs.run_op_range (OSet 3 0 false) s3); [split; cbn; lia|exact I|exact R3|reflexivity].
  - intros dim k Hk. assert (E : tst (if elem_mask d 3 && isd 3 0 then set_cell false s3 else s3) dim k = tst s3 dim k || (dim =? 3) && (elem_mask d 3 && isd 3 0)).
    { destruct (elem_mask d 3 && isd 3 0); [|now rewrite andb_false_r, orb_false_r].
      destruct (SparsityProofs.tst_set 3 0 false s3 dim k) as (s4 & E4 & T4); [split; cbn; lia|exact Hk|]. assert (set_cell false s3 = s4) as -> by (now apply some_inj). rewrite T4.
      destruct (Nat.eqb_spec dim 3) as [-> |]; [|reflexivity]. destruct Hk as [_ Hk]. cbn in Hk. assert (k = 0) by lia. subst k. reflexivity. }
    rewrite E, T3, T2, T1 by exact Hk. destruct Hk as [Hd Hk]. destruct dim as [|[|[|[|dim]]]]; [..|lia]; cbn [Nat.eqb andb orb].
    + now rewrite !orb_false_r. + now rewrite !orb_false_r. + now rewrite !orb_false_r. + cbn in Hk. assert (k = 0) by lia. now subst k.
Qed.

(** A dof has its element in the geometric mask *)
Lemma local_mask : forall d i lo, wf d -> local_order d i = Some lo -> elem_mask d (geom_dim (lo_type lo)) = true /\ entity (geom_dim (lo_type lo)) (lo_elem lo) /\ lo_gid lo = i /\ i < num_dof_tet d.
Proof.
  intros d i lo Hw H. destruct (IterProofs2.local_order_valid d i lo Hw H) as (H0 & H1 & H2 & H3 & H4).
  assert (M : geom_mask d (lo_type lo) = true) by (rewrite geom_mask_ok by assumption; apply Nat.ltb_lt; lia).
  split; [|split; [|auto]].
  - destruct (lo_type lo) as [|[|[|[|[|[|t]]]]]]; [..|lia]; cbn [geom_dim nth elem_mask]; rewrite M, ?orb_true_r; reflexivity.
  - destruct (lo_type lo) as [|[|[|[|[|[|t]]]]]]; [..|lia]; split; cbn in *; lia.
Qed.
