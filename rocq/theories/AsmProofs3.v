(** Update of one row of the matrix, one atomic step, sequences of steps. *)
From Verif Require Import Prelude RSum AsmModel AsmSpec AsmProofs AsmProofs2.
From Coq Require Import Reals Sorted Permutation Lra.
Open Scope R_scope.

Lemma rd_nth_lt : forall {A} (l : list A) k d, (k < length l)%nat -> rd l k = Some (nth k l d).
Proof. intros. now apply nth_error_nth'. Qed.
Lemma idx_lt : forall n i j, (i < n)%nat -> (j < n)%nat -> (j * n + i < n * n)%nat.
Proof. intros. nia. Qed.

Definition sz (e : cell) (j : nat) : Z := if nth j (c_flip e) false then (-1)%Z else 1%Z.
Lemma sz_sgn : forall e j, signR (sz e j) = sgn e j.
Proof. intros. unfold sz, sgn, signR. destruct (nth j (c_flip e) false); reflexivity. Qed.
Lemma decode_encode : forall e j d, decode (encode (sz e j) (Z.of_nat d)) = (Z.of_nat d, sz e j).
Proof.
  intros. unfold decode, encode, sz. destruct (nth j (c_flip e) false); f_equal; try lia.
  - destruct (_ <? 0)%Z eqn:L; [reflexivity|]. apply Z.ltb_ge in L. lia.
  - destruct (_ <? 0)%Z eqn:L; [|reflexivity]. apply Z.ltb_lt in L. lia.
Qed.
Lemma encode_defined : forall e j d, (encode (sz e j) (Z.of_nat d) =? CODE_UNDEF)%Z = false.
Proof. intros. apply Z.eqb_neq. unfold encode, sz, CODE_UNDEF. destruct (nth j (c_flip e) false); lia. Qed.

Section Cell.
Variables (p : prob) (o : opts) (rows : nat) (e : cell).
Hypothesis He : cell_ok p rows e.
Local Notation n := (p_n p).

Lemma codes_C_rd : forall j, (j < n)%nat -> rd (codes_C e) j = Some (encode (sz e j) (Z.of_nat (dof e j))).
Proof using He.
  intros j Hj. destruct He as (L1 & L2 & _). unfold codes_C, rd.
  rewrite nth_error_map, (nth_error_nth' _ (0%nat, false)) by (rewrite combine_length; lia).
  cbn. rewrite combine_nth by lia. reflexivity.
Qed.
Lemma codes_C_length : length (codes_C e) = n.
Proof using He. destruct He as (L1 & L2 & _). unfold codes_C. rewrite map_length, combine_length. lia. Qed.

Lemma codes_R_rd : forall i, (i < n)%nat -> (p_same p = false -> owned e i = true) ->
  rd (codes_R p e) i = Some (if owned e i then encode (sz e i) (Z.of_nat (dof e i)) else CODE_UNDEF).
Proof using He.
  intros i Hi Ho. unfold codes_R. destruct (p_same p).
  - pose proof codes_C_length as L. pose proof (codes_C_rd i Hi) as Ci. destruct He as (_ & _ & L3 & _).
    unfold rd in *. rewrite nth_error_map, (nth_error_nth' _ (0%Z, true)) by (rewrite combine_length; lia).
    cbn. rewrite combine_nth by lia. cbn. unfold owned. rewrite (nth_error_nth' _ 0%Z) in Ci by lia.
    injection Ci as ->. now destruct (nth i (c_ghost e) true).
  - rewrite Ho by reflexivity. now apply codes_C_rd.
Qed.

Section Row.
Variable (i : nat).
Hypothesis Hi : (i < n)%nat.
Local Notation keep j := (kept (drop_val o) n e i j).
Local Notation rs := (sz e i).
Definition term (j : nat) : R := sgn e i * sgn e j * value (mat n e i j).

Lemma A_rd : forall j, (j < n)%nat -> rd (c_A e) (j * n + i) = Some (mat n e i j).
Proof using He Hi. intros j Hj. unfold mat. apply rd_nth_lt. destruct He as (_ & _ & _ & L & _). rewrite L. now apply idx_lt. Qed.
Lemma mask_rd : forall j, (j < n)%nat -> rd (c_mask e) (j * n + i) = Some (in_mask n e i j).
Proof using He Hi. intros j Hj. unfold in_mask. apply rd_nth_lt. destruct He as (_ & _ & _ & _ & L & _). rewrite L. now apply idx_lt. Qed.
Lemma kept_eq : forall j, in_mask n e i j && gt_drop o (mat n e i j) = keep j.
Proof using. reflexivity. Qed.

Lemma column_step_eq : forall j q, (j < n)%nat ->
  column_step p o e rs i j q =
  if in_mask n e i j && match mat n e i j with None => true | Some _ => false end then Fail
  else Ok (if negb (use_ordered_insert o) && keep j then row_add q (dof e j) (term j) else q).
Proof using He Hi.
  intros j q Hj. unfold column_step. rewrite codes_C_rd, A_rd, mask_rd by exact Hj. cbn [get rbind].
  rewrite decode_encode. destruct He as (_ & _ & _ & _ & _ & _ & D & _). specialize (D j Hj).
  rewrite (proj2 (Z.ltb_ge _ _)) by lia. rewrite (proj2 (Z.leb_gt _ _)) by lia. cbn [orb].
  rewrite Nat2Z.id, <- andb_assoc, kept_eq, !sz_sgn. fold (term j).
  destruct (mat n e i j) eqn:M; [now rewrite andb_false_r|]. rewrite andb_true_r. reflexivity.
Qed.

Lemma columns_fail : forall js q, (forall j, In j js -> (j < n)%nat) ->
  (exists j, In j js /\ in_mask n e i j = true /\ mat n e i j = None) ->
  each (column_step p o e rs i) js q = Fail.
Proof using He Hi.
  induction js as [|j js IH]; intros q H (j0 & I & M & N); [destruct I|]. cbn [each].
  rewrite column_step_eq by (apply H; now left).
  destruct (in_mask n e i j && _) eqn:E; [reflexivity|]. cbn [rbind].
  apply IH; [intros; apply H; now right|]. destruct I as [->|I]; [|now exists j0].
  rewrite M, N in E. discriminate.
Qed.

Lemma columns_ok : forall js q, (forall j, In j js -> (j < n)%nat) ->
  (forall j, In j js -> in_mask n e i j = true -> mat n e i j <> None) -> NoDup (cols q) ->
  exists q', each (column_step p o e rs i) js q = Ok q' /\
   if use_ordered_insert o then q' = q else
     NoDup (cols q') /\
     (forall c, entry q' c = entry q c + lsum (map (fun j => if (dof e j =? c)%nat && keep j then term j else 0) js)) /\
     (forall c, In c (cols q') <-> In c (cols q) \/ exists j, In j js /\ dof e j = c /\ keep j = true).
Proof using He Hi.
  induction js as [|j js IH]; intros q H F N.
  - exists q. split; [reflexivity|]. destruct (use_ordered_insert o); [reflexivity|]. split; [exact N|]. split.
    + intros c. cbn [map]. change (lsum []) with 0. lra.
    + intros c. split; [auto|]. intros [|(? & [] & _)]. assumption.
  - cbn [each]. rewrite column_step_eq by (apply H; now left).
    assert (in_mask n e i j && match mat n e i j with Some _ => false | None => true end = false) as ->.
    { destruct (in_mask n e i j) eqn:M; [|reflexivity]. destruct (mat n e i j) eqn:A; [reflexivity|].
      exfalso. apply (F j); auto. now left. }
    cbn [rbind].
    destruct (use_ordered_insert o) eqn:O; cbn [negb andb].
    + destruct (IH q) as (q' & E & ->); auto; [intros; apply H; now right|intros; apply F; auto; now right|].
      exists q. split; [exact E|reflexivity].
    + set (q1 := if keep j then _ else _).
      assert (N1 : NoDup (cols q1)) by (unfold q1; destruct (keep j); [now apply row_add_nodup|exact N]).
      destruct (IH q1) as (q' & E & N' & A & C); auto; [intros; apply H; now right|intros; apply F; auto; now right|].
      exists q'. split; [exact E|]. split; [exact N'|]. split.
      * intros c. rewrite A. cbn [map]. unfold q1. destruct (keep j).
        -- rewrite row_add_entry by exact N. rewrite andb_true_r. cbn. fold lsum. unfold lsum. lra.
        -- rewrite andb_false_r. cbn. unfold lsum. lra.
      * intros c. rewrite C. unfold q1. destruct (keep j) eqn:K.
        -- rewrite row_add_cols. split.
           ++ intros [[I| ->]|(j' & I & D & K')]; [now left|right; exists j; cbn; auto|right; exists j'; cbn; auto].
           ++ intros [I|(j' & [<-|I] & D & K')]; [auto|auto|right; eauto].
        -- split.
           ++ intros [I|(j' & I & D & K')]; [now left|right; exists j'; cbn; auto].
           ++ intros [I|(j' & [<-|I] & D & K')]; [auto|congruence|right; eauto].
Qed.

Definition lent (j : nat) : nat * R * bool := (dof e j, term j, keep j).
Lemma local_entries_ok : forall js, (forall j, In j js -> (j < n)%nat) -> local_entries p o e rs i js = Ok (map lent js).
Proof using He Hi.
  induction js as [|j js IH]; intros H; [reflexivity|]. cbn [local_entries]. unfold local_entry.
  rewrite codes_C_rd, A_rd, mask_rd by (apply H; now left). cbn [get rbind]. rewrite decode_encode. cbn [get rbind].
  rewrite IH by (intros; apply H; now right). cbn [rbind map]. rewrite Nat2Z.id, !sz_sgn. reflexivity.
Qed.

Lemma sorted_columns_perm : Permutation (seq 0 n) (sorted_columns p e).
Proof using. apply sort_perm. Qed.
Lemma sorted_columns_lt : forall j, In j (sorted_columns p e) -> (j < n)%nat.
Proof using. intros j I. eapply Permutation_in in I; [|symmetry; apply sorted_columns_perm]. apply in_seq in I. exact (proj2 I). Qed.

Lemma map_dof : map (dof e) (seq 0 n) = c_dof e.
Proof using He.
  destruct He as (L & _). apply (nth_ext _ _ 0%nat 0%nat); rewrite map_length, seq_length; [now rewrite L|].
  intros k Hk. rewrite (nth_indep _ 0%nat (dof e 0)) by now rewrite map_length, seq_length.
  rewrite map_nth, seq_nth by exact Hk. reflexivity.
Qed.
Lemma sorted_columns_keys : NoDup (c_dof e) -> StronglySorted lt (map (dof e) (sorted_columns p e)).
Proof using He Hi.
  intros N. unfold sorted_columns.
  set (kf := fun j => Z.to_nat (fst (decode (nth j (codes_C e) 0%Z)))).
  assert (K : forall j, (j < n)%nat -> kf j = dof e j).
  { intros j Hj. unfold kf. rewrite (nth_error_nth _ _ _ (codes_C_rd j Hj)), decode_encode. cbn. apply Nat2Z.id. }
  assert (E : map kf (seq 0 n) = map (dof e) (seq 0 n)).
  { apply map_ext_in. intros j I. apply K. apply in_seq in I. lia. }
  replace (map (dof e) (sort_by kf (seq 0 n))) with (map kf (sort_by kf (seq 0 n))).
  - apply sort_sorted. rewrite E, map_dof. exact N.
  - apply map_ext_in. intros j I. apply K. eapply Permutation_in in I; [|symmetry; apply sort_perm]. apply in_seq in I. lia.
Qed.

Lemma adds_lent : forall c, adds (map lent (sorted_columns p e)) c =
  lsum (map (fun j => if (dof e j =? c)%nat && keep j then term j else 0) (seq 0 n)).
Proof using.
  intros c. unfold adds. rewrite map_map.
  rewrite (lsum_perm _ _ (Permutation_map _ (Permutation_sym sorted_columns_perm))).
  apply lsum_ext. intros j _. unfold lent, key. cbn. rewrite andb_comm. reflexivity.
Qed.
Lemma active_lent : forall c, active (map lent (sorted_columns p e)) c <-> exists j, (j < n)%nat /\ dof e j = c /\ keep j = true.
Proof using.
  intros c. unfold active. split.
  - intros (x & I & S & K). apply in_map_iff in I as (j & <- & I). exists j. split; [now apply sorted_columns_lt|]. auto.
  - intros (j & L & D & K). exists (lent j). split; [|cbn; auto]. apply in_map.
    eapply Permutation_in; [apply sorted_columns_perm|]. apply in_seq. split; [apply Nat.le_0_l|exact L].
Qed.

Definition row_ok (q : row) : Prop := NoDup (cols q) /\ (use_ordered_insert o = true -> sorted q).

Lemma row_update_ok : forall q, row_ok q ->
  (use_ordered_insert o = true -> NoDup (c_dof e)) ->
  (forall j, (j < n)%nat -> in_mask n e i j = true -> mat n e i j <> None) ->
  (use_ordered_insert o = true -> is_mtx_include_template o = true ->
     forall j, (j < n)%nat -> keep j = true -> In (dof e j) (cols q)) ->
  exists q', row_update p o e rs i q = Ok q' /\ row_ok q' /\
   (forall c, entry q' c = entry q c + Rsum n (fun j => if (dof e j =? c)%nat && keep j then term j else 0)) /\
   (forall c, In c (cols q') <-> In c (cols q) \/ exists j, (j < n)%nat /\ dof e j = c /\ keep j = true).
Proof using He Hi.
  intros q (N & S) ND F T. unfold row_update.
  destruct (columns_ok (seq 0 n) q) as (q1 & -> & H1); auto.
  { intros j I. apply in_seq in I. lia. }
  { intros j I. apply F. apply in_seq in I. lia. }
  cbn [rbind]. destruct (use_ordered_insert o) eqn:O.
  - subst q1. rewrite local_entries_ok by apply sorted_columns_lt. cbn [rbind].
    assert (SL : StronglySorted lt (map key (map lent (sorted_columns p e)))).
    { rewrite map_map. apply sorted_columns_keys. auto. }
    destruct (is_mtx_include_template o) eqn:IT.
    + destruct (template_insert_ok (map lent (sorted_columns p e)) q) as (r & E & C & A); auto.
      { intros c Hc. apply active_lent in Hc as (j & L & <- & K). now apply T. }
      exists r. split; [exact E|]. split; [|split].
      * split; [now rewrite C|]. intros _. unfold sorted. rewrite C. now apply S.
      * intros c. rewrite A, adds_lent, lsum_Rsum. reflexivity.
      * intros c. rewrite C. split; [auto|]. intros [I|(j & L & <- & K)]; [exact I|]. now apply T.
    + destruct (merge_ok (length q + length (map lent (sorted_columns p e))) q (map lent (sorted_columns p e)))
        as (r & E & A & C & Sr); auto.
      exists r. split; [exact E|]. split; [|split].
      * split; [now apply sorted_nodup|]. auto.
      * intros c. rewrite A, adds_lent, lsum_Rsum. reflexivity.
      * intros c. rewrite C, active_lent. reflexivity.
  - destruct H1 as (N1 & A & C). exists q1. split; [reflexivity|]. split; [split; [exact N1|intros Hx; rewrite O in Hx; discriminate]|]. split.
    + intros c. rewrite A, lsum_Rsum. reflexivity.
    + intros c. rewrite C. split; (intros [I|(j & L & H)]; [now left|right; exists j]); split; auto.
      * apply in_seq in L. lia.
      * apply in_seq. lia.
Qed.
Lemma row_update_fail : forall q, (exists j, (j < n)%nat /\ in_mask n e i j = true /\ mat n e i j = None) ->
  row_update p o e rs i q = Fail.
Proof using He Hi.
  intros q (j & L & H). unfold row_update. rewrite columns_fail; [reflexivity| |].
  - intros k I. apply in_seq in I. lia.
  - exists j. split; [apply in_seq; lia|exact H].
Qed.
End Row.
End Cell.
