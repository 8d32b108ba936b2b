(** Uniqueness of sorted results; the matrix alone, the vector alone, the positions alone. *)
From Verif Require Import Prelude RSum AsmModel AsmSpec AsmProofs AsmProofs2 AsmProofs3 AsmProofs4 AsmProofs5.
From Coq Require Import Reals Sorted Permutation Lra.
Open Scope R_scope.

Lemma sorted_ext : forall a b, StronglySorted lt a -> StronglySorted lt b -> (forall x, In x a <-> In x b) -> a = b.
Proof.
  induction a as [|x a IH]; intros b Sa Sb H.
  - destruct b as [|y b]; [reflexivity|]. destruct (proj2 (H y)). now left.
  - inversion Sa as [|? ? Sa' Fa]; subst. destruct b as [|y b]; [destruct (proj1 (H x)); now left|].
    inversion Sb as [|? ? Sb' Fb]; subst. rewrite Forall_forall in Fa, Fb.
    assert (x = y).
    { destruct (proj1 (H x) (or_introl eq_refl)) as [->|Ix]; [reflexivity|].
      destruct (proj2 (H y) (or_introl eq_refl)) as [->|Iy]; [reflexivity|].
      specialize (Fa _ Iy). specialize (Fb _ Ix). lia. }
    subst y. f_equal. apply IH; auto. intros z. split; intros I.
    + destruct (proj1 (H z) (or_intror I)) as [->|]; [|assumption]. specialize (Fa _ I). lia.
    + destruct (proj2 (H z) (or_intror I)) as [->|]; [|assumption]. specialize (Fb _ I). lia.
Qed.
Lemma row_values : forall a b, NoDup (cols a) -> cols a = cols b -> (forall c, entry a c = entry b c) -> a = b.
Proof.
  induction a as [|[k x] a IH]; intros [|[k' y] b] N C E; try discriminate; [reflexivity|].
  cbn in N, C. injection C as <- C. apply NoDup_cons_iff in N as [N D].
  fold (cols a) in N, C. fold (cols b) in C.
  assert (x = y).
  { specialize (E k). rewrite !entry_cons, Nat.eqb_refl in E.
    rewrite (entry_notin a k N), (entry_notin b k) in E by now rewrite <- C. lra. }
  subst y. f_equal. apply IH; auto. intros c. specialize (E c). rewrite !entry_cons in E. lra.
Qed.
Lemma row_unique : forall a b, sorted a -> sorted b -> (forall c, In c (cols a) <-> In c (cols b)) ->
  (forall c, entry a c = entry b c) -> a = b.
Proof.
  intros a b Sa Sb C E. apply row_values; [now apply sorted_nodup| |exact E]. now apply sorted_ext.
Qed.

(** *** The matrix alone and the vector alone *)
Lemma step_parts : forall p o ei m rhs m' rhs', length rhs = length m -> row_step p o ei (m, rhs) = Ok (m', rhs') ->
  mat_step p o ei m = Ok m' /\ rhs_step p ei rhs = Ok rhs' /\ length rhs' = length m'.
Proof.
  intros p o (e, i) m rhs m' rhs' L H. unfold row_step in H. unfold mat_step, rhs_step.
  destruct (get (rd (codes_R p e) i)) as [| |code] eqn:E1; cbn [rbind] in *; try discriminate.
  destruct (code =? CODE_UNDEF)%Z. { injection H as <- <-. auto. }
  destruct (decode code) as (rid, rs). rewrite L.
  destruct (local_row p (length m) rid) as [| |k]; cbn [rbind] in *; try discriminate.
  destruct (rd (c_F e) i) as [f|]; cbn [get rbind] in *; try discriminate.
  destruct (rd rhs k) as [y|]; cbn [get rbind] in *; try discriminate.
  destruct (wr rhs k _) as [rhs1|] eqn:W1; cbn [get rbind] in *; try discriminate.
  destruct (rd m k) as [q|]; cbn [get rbind] in *; try discriminate.
  destruct (row_update p o e rs i q) as [| |q']; cbn [rbind] in *; try discriminate.
  destruct (wr m k q') as [m1|] eqn:W2; cbn [get rbind] in *; try discriminate.
  destruct f; try discriminate. injection H as <- <-. repeat split; auto.
  destruct (wr_nth _ _ _ _ 0 W1) as (L1 & _). destruct (wr_nth _ _ _ _ q W2) as (L2 & _). exact (eq_trans L1 (eq_trans L (eq_sym L2))).
Qed.
Lemma steps_parts : forall p o l m rhs m' rhs', length rhs = length m -> each (row_step p o) l (m, rhs) = Ok (m', rhs') ->
  each (mat_step p o) l m = Ok m' /\ each (rhs_step p) l rhs = Ok rhs'.
Proof.
  induction l as [|ei l IH]; intros m rhs m' rhs' L H; cbn [each] in *; [injection H as <- <-; auto|].
  destruct (row_step p o ei (m, rhs)) as [| |(m1, rhs1)] eqn:E; cbn [rbind] in H; try discriminate.
  destruct (step_parts _ _ _ _ _ _ _ L E) as (-> & -> & L1). cbn [rbind]. apply IH; auto.
Qed.
Lemma assemble_parts : forall p o cells m rhs m' rhs', length rhs = length m -> assemble p o cells (m, rhs) = Ok (m', rhs') ->
  assemble_matrix p o cells m = Ok m' /\ assemble_rhs p cells rhs = Ok rhs'.
Proof.
  intros p o cells m rhs m' rhs' L H. rewrite assemble_updates in H. unfold assemble_sched in H. cbn [fst snd] in H.
  unfold assemble_matrix, assemble_rhs. rewrite !cells_updates. apply (steps_parts p o); [|exact H].
  now rewrite prepare_length.
Qed.

(** A cell with another vector, and with a zero matrix. *)
Definition with_F (n : nat) (e : cell) : cell := mkCell (c_dof e) (c_flip e) (c_ghost e) (c_A e) (repeat (Some 0) n) (c_mask e).
Definition zero_AF (n : nat) (e : cell) : cell :=
  mkCell (c_dof e) (c_flip e) (c_ghost e) (repeat (Some 0) (n * n)) (repeat (Some 0) n) (c_mask e).

Lemma each_map : forall {X Y S} (f : Y -> S -> res S) (g : X -> Y) l s, each f (map g l) s = each (fun x => f (g x)) l s.
Proof. induction l as [|x l IH]; intros s; cbn; [reflexivity|]. destruct (f (g x) s); cbn; auto. Qed.

Lemma local_entries_F : forall p o e rs i js, local_entries p o (with_F (p_n p) e) rs i js = local_entries p o e rs i js.
Proof. induction js; cbn [local_entries]; [reflexivity|]. rewrite IHjs. reflexivity. Qed.
Lemma row_update_F : forall p o e rs i q, row_update p o (with_F (p_n p) e) rs i q = row_update p o e rs i q.
Proof.
  intros. unfold row_update. change (sorted_columns p (with_F (p_n p) e)) with (sorted_columns p e). rewrite local_entries_F.
  reflexivity.
Qed.
Lemma mat_step_F : forall p o e i m, mat_step p o (with_F (p_n p) e, i) m = mat_step p o (e, i) m.
Proof.
  intros. unfold mat_step. change (codes_R p (with_F (p_n p) e)) with (codes_R p e).
  destruct (get (rd (codes_R p e) i)) as [| |code]; cbn [rbind]; try reflexivity. destruct (code =? CODE_UNDEF)%Z; [reflexivity|].
  destruct (decode code) as (rid, rs). destruct (local_row p (length m) rid) as [| |k]; cbn [rbind]; try reflexivity.
  destruct (rd m k); cbn [get rbind]; try reflexivity. now rewrite row_update_F.
Qed.
Lemma matrix_with_F : forall p o cells m, assemble_matrix p o (map (with_F (p_n p)) cells) m = assemble_matrix p o cells m.
Proof.
  intros. unfold assemble_matrix. rewrite each_map. apply each_ext. intros e r _.
  change (has_active (with_F (p_n p) e)) with (has_active e). destruct (has_active e); [|reflexivity].
  rewrite !each_map. apply each_ext. intros i s _. apply mat_step_F.
Qed.

Lemma nth_repeat_lt : forall {A} (x d : A) n k, (k < n)%nat -> nth k (repeat x n) d = x.
Proof. induction n; intros k H; [lia|]. destruct k; [reflexivity|]. cbn. apply IHn. lia. Qed.

(** *** The positions alone *)
Definition opts_templ : opts := mkOpts (-1) false false true.
Section Templ.
Variables (p : prob) (rows : nat) (e : cell).
Hypothesis He : cell_ok p rows e.
Local Notation n := (p_n p).
Local Notation z := (zero_AF n e).

Lemma zero_ok : cell_ok p rows z.
Proof using He. destruct He as (A & B & C & D & E & F & G). repeat split; cbn; rewrite ?repeat_length; auto; apply G; auto. Qed.
Lemma zero_mat : forall i j, (i < n)%nat -> (j < n)%nat -> mat n z i j = Some 0.
Proof using. intros i j Hi Hj. unfold mat. cbn. apply nth_repeat_lt. now apply idx_lt. Qed.
Lemma zero_kept : forall i j, (i < n)%nat -> (j < n)%nat -> kept (-1) n z i j = in_mask n e i j.
Proof using.
  intros i j Hi Hj. unfold kept. rewrite zero_mat by assumption. rewrite Rabs_R0.
  destruct (Rlt_dec (-1) 0); [|lra]. now rewrite andb_true_r.
Qed.
Lemma template_entries_ok : forall i js, (i < n)%nat -> (forall j, In j js -> (j < n)%nat) ->
  template_entries p e i js = Ok (map (lent p opts_templ z i) js).
Proof using He.
  intros i js Hi. induction js as [|j js IH]; intros H; [reflexivity|]. cbn [template_entries]. unfold template_entry.
  assert (Hj : (j < n)%nat) by (apply H; now left).
  rewrite (codes_C_rd p rows e He), (mask_rd p rows e He i Hi) by exact Hj. cbn [get rbind]. rewrite decode_encode. cbn [get rbind].
  rewrite IH by (intros; apply H; now right). cbn [rbind map]. f_equal. f_equal.
  unfold lent, term. rewrite Nat2Z.id. cbn [drop_val opts_templ]. rewrite zero_kept, zero_mat by assumption. cbn [value].
  rewrite Rmult_0_r. reflexivity.
Qed.
Lemma templ_step_eq : forall i m, (i < n)%nat -> templ_step p (e, i) m = mat_step p opts_templ (z, i) m.
Proof using He.
  intros i m Hi. unfold templ_step, mat_step. change (codes_R p z) with (codes_R p e).
  assert (Hl : exists code, rd (codes_R p e) i = Some code /\ (code = CODE_UNDEF \/ code = encode (sz e i) (Z.of_nat (dof e i)))).
  { pose proof (codes_C_rd p rows e He i Hi) as Ci. unfold codes_R. destruct (p_same p); [|eauto].
    destruct He as (L1 & L2 & L3 & _). pose proof (codes_C_length p rows e He) as L.
    unfold rd. rewrite nth_error_map, (nth_error_nth' _ (0%Z, true)) by (rewrite combine_length; lia).
    cbn. rewrite combine_nth by lia. cbn. unfold rd in Ci. rewrite (nth_error_nth' _ 0%Z) in Ci by lia. injection Ci as ->.
    destruct (nth i (c_ghost e) true); eauto. }
  destruct Hl as (code & Ec & Hc). rewrite Ec. cbn [get rbind]. destruct (code =? CODE_UNDEF)%Z eqn:U; [reflexivity|].
  destruct Hc as [-> | ->]; [discriminate|]. rewrite decode_encode.
  destruct (local_row p (length m) (Z.of_nat (dof e i))) as [| |k]; cbn [rbind]; try reflexivity.
  destruct (rd m k) as [q|]; cbn [get rbind]; [|reflexivity].
  rewrite template_entries_ok by (auto; apply sorted_columns_lt). cbn [rbind].
  unfold row_update.
  assert (E : each (column_step p opts_templ z (sz e i) i) (seq 0 n) q = Ok q).
  { assert (G : forall js, (forall j, In j js -> (j < n)%nat) -> each (column_step p opts_templ z (sz e i) i) js q = Ok q).
    { induction js as [|j js IH]; intros G; [reflexivity|]. cbn [each].
      change (sz e i) with (sz z i) at 1. rewrite (column_step_eq p opts_templ rows z zero_ok i Hi) by (apply G; now left).
      rewrite zero_mat by (auto; apply G; now left). rewrite andb_false_r. cbn [rbind use_ordered_insert opts_templ negb andb].
      apply IH. intros; apply G; now right. }
    apply G. intros j I. apply in_seq in I. lia. }
  rewrite E. cbn [rbind use_ordered_insert is_mtx_include_template opts_templ].
  change (sz e i) with (sz z i). change (sorted_columns p z) with (sorted_columns p e).
  rewrite (local_entries_ok p opts_templ rows z zero_ok i Hi) by apply sorted_columns_lt. cbn [rbind].
  rewrite merge_zero_merge; [reflexivity|].
  intros x I. apply in_map_iff in I as (j & <- & I). apply sorted_columns_lt in I. cbn. unfold term.
  rewrite zero_mat by assumption. cbn. lra.
Qed.
End Templ.

Lemma template_matrix : forall p cells m, (forall e, In e cells -> cell_ok p (length m) e) ->
  assemble_template p cells m = assemble_matrix p opts_templ (map (zero_AF (p_n p)) cells) m.
Proof.
  intros p cells m H. unfold assemble_template, assemble_matrix. rewrite each_map.
  change (prepare p opts_templ m) with (map (sort_by fst) (map_from templ_diag (p_beg p) m)).
  apply each_ext. intros e r I. change (has_active (zero_AF (p_n p) e)) with (has_active e). destruct (has_active e); [|reflexivity].
  rewrite !each_map. apply each_ext. intros i s J. apply in_seq in J. apply (templ_step_eq p (length m)); [now apply H|lia].
Qed.
