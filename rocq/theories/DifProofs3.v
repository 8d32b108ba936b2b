(** The assembled systems *)
From Coq Require Import Reals Permutation Lra.
From Verif Require SparsityModel SparsitySpec.
From Verif Require Import Prelude DofModel DofSpec DofProofs RSum CoreModel CoreSpec AsmModel AsmSpec AsmProofs AsmProps DifModel DifSpec DifProofs DifProofs2.
Open Scope R_scope.
Notation lsum := AsmSpec.lsum.

Lemma nth_map_some : forall (l : list R) k, (k < length l)%nat -> nth k (map Some l) None = Some (nth k l 0).
Proof. intros l k H. rewrite (nth_indep _ None (Some 0)) by now rewrite map_length. now rewrite (map_nth Some). Qed.

(** *** One cell in the global system *)
Section Cell.
Variables (n size : nat) (drop : R) (c : pcell) (a : nat -> nat -> R) (f : nat -> R).
Hypothesis Hab : forall i j, (i < n)%nat -> (j < n)%nat -> above drop (a i j).
Let e := elem_cell n c (store n n a, arr n f).

Lemma elem_mat : forall i j, (i < n)%nat -> (j < n)%nat -> mat n e i j = Some (a i j).
Proof.
  intros i j Hi Hj. unfold mat, e, elem_cell. cbn [c_A fst]. rewrite nth_map_some by (rewrite store_length; rewrite Nat.add_comm, (Nat.mul_comm j); now apply RSum.cell_lt).
  f_equal. apply nth_error_nth. rewrite Nat.add_comm, (Nat.mul_comm j). exact (mrd_store n n a i j Hi Hj).
Qed.
Lemma elem_vec : forall i, (i < n)%nat -> vec e i = Some (f i).
Proof.
  intros i Hi. unfold vec, e, elem_cell. cbn [c_F snd]. rewrite nth_map_some by now rewrite arr_length. f_equal. apply nth_error_nth. exact (rd_arr n f i Hi).
Qed.
Lemma elem_mask_full : forall i j, (i < n)%nat -> (j < n)%nat -> in_mask n e i j = true.
Proof.
  intros i j Hi Hj. unfold in_mask, e, elem_cell. cbn [c_mask]. apply nth_error_nth. rewrite nth_error_repeat; [reflexivity|]. rewrite Nat.add_comm, (Nat.mul_comm j). now apply RSum.cell_lt.
Qed.
Lemma elem_kept : forall i j, (i < n)%nat -> (j < n)%nat -> (if kept drop n e i j then a i j else 0) = a i j.
Proof.
  intros i j Hi Hj. unfold kept. rewrite elem_mask_full, elem_mat by assumption. cbn [andb]. destruct (Rlt_dec drop (Rabs (a i j))) as [|N]; [reflexivity|].
  destruct (Hab i j Hi Hj) as [E|E]; [now rewrite E|contradiction].
Qed.
Lemma cell_row : forall x r, (forall j, (j < n)%nat -> (dof e j < size)%nat) ->
  Rsum size (fun k => global_contribution drop n e r k * x k)
  = Rsum n (fun i => if (dof e i =? r)%nat then sgn e i * Rsum n (fun j => a i j * (sgn e j * x (dof e j))) else 0).
Proof.
  intros x r Hd. unfold global_contribution.
  rewrite (Rsum_ext size _ (fun k => Rsum n (fun i => Rsum n (fun j => (if (dof e i =? r)%nat && (dof e j =? k)%nat && kept drop n e i j then sgn e i * sgn e j * value (mat n e i j) else 0) * x k)))).
  2:{ intros k _. rewrite <- Rsum_scal_r. apply Rsum_ext. intros i _. now rewrite <- Rsum_scal_r. }
  rewrite Rsum_swap. apply Rsum_ext. intros i Hi. rewrite Rsum_swap. destruct (dof e i =? r)%nat.
  - rewrite <- Rsum_scal. apply Rsum_ext. intros j Hj. rewrite (Rsum_single size (dof e j)).
    + rewrite Nat.eqb_refl. cbn [andb]. rewrite elem_mat by assumption. cbn [value]. pose proof (elem_kept i j Hi Hj) as K. destruct (kept drop n e i j); [ring|]. rewrite <- K. ring.
    + now apply Hd.
    + intros k _ Hne. destruct (Nat.eqb_spec (dof e j) k); [congruence|]. cbn [andb]. ring.
  - apply Rsum_zero. intros j _. apply Rsum_zero. intros k _. cbn [andb]. ring.
Qed.
Lemma cell_load_row : forall r, global_load n e r = Rsum n (fun i => if (dof e i =? r)%nat then sgn e i * f i else 0).
Proof. intros r. unfold global_load. apply Rsum_ext. intros i Hi. now rewrite elem_vec. Qed.
End Cell.

Lemma all_cells_ok : forall assm (g : mcell -> cell) l, (forall m, In m l -> assm (m_c m) = Some (g m)) -> all_cells assm (map m_c l) = Some (map g l).
Proof.
  intros assm g l. induction l as [|m l IH]; intros H; cbn [map all_cells]; [reflexivity|]. rewrite H by now left. cbn [obind]. rewrite IH by (intros; apply H; now right). reflexivity.
Qed.
Lemma lsum_scal_r : forall {A} (g : A -> R) x l, lsum (map (fun e => g e * x) l) = lsum (map g l) * x.
Proof. intros A g x l. induction l as [|e l IH]; cbn; [ring|]. unfold lsum in IH. rewrite IH. ring. Qed.
Lemma lsum_minus : forall {A} (g h : A -> R) l, lsum (map (fun e => g e - h e) l) = lsum (map g l) - lsum (map h l).
Proof. intros A g h l. induction l as [|e l IH]; cbn; [ring|]. unfold lsum in IH. rewrite IH. ring. Qed.
Lemma lsum_swap : forall {A} (g : A -> nat -> R) n l, Rsum n (fun k => lsum (map (fun e => g e k) l)) = lsum (map (fun e => Rsum n (g e)) l).
Proof.
  intros A g n l. induction l as [|e l IH]; cbn.
  - apply Rsum_zero. reflexivity.
  - unfold lsum in IH. rewrite <- IH. apply Rsum_plus.
Qed.

Theorem system_ok : forall assm n p o rows mesh here (a : mcell -> nat -> nat -> R) (f : mcell -> nat -> R),
  p_n p = n -> p_same p = true -> is_mtx_include_template o = false ->
  stored_cells n (p_beg p) rows mesh here ->
  (forall m, In m mesh -> numbering_ok n (p_size p) (m_c m)) ->
  (forall m, In m mesh -> assm (m_c m) = Some (elem_cell n (m_c m) (store n n (a m), arr n (f m)))) ->
  (forall m i j, In m mesh -> (i < n)%nat -> (j < n)%nat -> above (drop_val o) (a m i j)) ->
  exists M b, system p o rows (all_cells assm (map m_c here)) = Ok (M, b) /\
    forall x r, (p_beg p <= r < p_beg p + rows)%nat -> (equation (p_size p) (p_beg p) M b x r <-> galerkin_residual n a f mesh x r = 0).
Proof.
  intros assm n p o rows mesh here a f Hn Hs Ht (others & Pm & Ho) Hnum Has Hab.
  assert (Hsub : forall m, In m here -> In m mesh) by (intros m Hm; apply (Permutation_in _ (Permutation_sym Pm)); apply in_or_app; now left).
  set (g := fun m => elem_cell n (m_c m) (store n n (a m), arr n (f m))).
  rewrite (all_cells_ok assm g) by (intros m Hm; now apply Has, Hsub). cbn [system].
  assert (Dl : forall m i, In m mesh -> (i < n)%nat -> (dof (g m) i < p_size p)%nat).
  { intros m i Hm Hi. destruct (Hnum m Hm) as (L1 & _ & _ & B & _). apply B. unfold dof, g, elem_cell. cbn [c_dof]. apply nth_In. lia. }
  pose proof (C53_distributed p o (map g mesh) (map g here) (repeat [] rows) (repeat 0 rows)) as Q. cbn zeta in Q. rewrite !repeat_length in Q.
  destruct Q as (M & b & E & HA & HB).
  - intros x Hx. apply in_map_iff in Hx. destruct Hx as (m & <- & Hm). rewrite Hn. apply (Hnum m (Hsub m Hm)).
  - exists (map g others). split.
    + apply Forall_forall. intros x Hx. apply in_map_iff in Hx. destruct Hx as (m & <- & Hm). intros i Hi. rewrite Hn in Hi. exact (Ho m i Hm Hi).
    + rewrite <- map_app. now apply Permutation_map.
  - split; [now rewrite !repeat_length|]. split; [|split; [|split]].
    + intros x Hx. apply in_map_iff in Hx. destruct Hx as (y & <- & Hy). apply in_map_iff in Hy. destruct Hy as (m & <- & Hm). rewrite repeat_length.
      destruct (Hnum m (Hsub m Hm)) as (L1 & L2 & _ & B & _). unfold cell_ok. rewrite Hn. cbn [view g elem_cell c_dof c_flip c_ghost c_A c_mask c_F fst snd].
      rewrite !map_length, store_length, arr_length, repeat_length. do 6 (split; [trivial|]). split.
      * intros i Hi. exact (Dl m i (Hsub m Hm) Hi).
      * intros i Hi. rewrite view_owned by (cbn; lia). intros O. apply andb_prop in O. destruct O as [O1 O2]. apply Nat.leb_le in O1. apply Nat.ltb_lt in O2. split; assumption.
    + intros _ x Hx. apply in_map_iff in Hx. destruct Hx as (y & <- & Hy). apply in_map_iff in Hy. destruct Hy as (m & <- & Hm). apply (Hnum m (Hsub m Hm)).
    + rewrite Hs. discriminate.
    + split; [|split].
      * intros q Hq. apply repeat_spec in Hq. subst q. constructor.
      * intros _ q Hq. apply repeat_spec in Hq. subst q. constructor.
      * rewrite Ht. discriminate.
  - intros x Hx. apply in_map_iff in Hx. destruct Hx as (y & <- & Hy). apply in_map_iff in Hy. destruct Hy as (m & <- & Hm). rewrite Hn. intros i Hi _. split.
    + change (vec (g m) i <> None). unfold g. rewrite elem_vec by exact Hi. discriminate.
    + intros j Hj _. change (mat n (g m) i j <> None). unfold g. rewrite elem_mat by assumption. discriminate.
  - exists M, b. split.
    + change (map (with_ghosts (p_beg p) rows) (map g here)) with (map (view (p_beg p) rows) (map g here)). exact E.
    + intros x r Hr. unfold equation.
      rewrite (Rsum_ext _ _ (fun k => lsum (map (fun m => global_contribution (drop_val o) n (g m) r k * x k) mesh))).
      2:{ intros k _. rewrite HA by exact Hr. unfold mat_at at 1, row_of. rewrite nth_repeat. cbn [entry filter map lsum fold_right]. rewrite Hn, map_map, lsum_scal_r. unfold entry. cbn. ring. }
      rewrite lsum_swap. rewrite HB by exact Hr. unfold vec_at at 1. rewrite nth_repeat, Rplus_0_l, Hn, map_map.
      unfold galerkin_residual.
      rewrite (lsum_ext _ (fun m => Rsum n (fun i => if (number m i =? r)%nat then sign m i * Rsum n (fun j => a m i j * local_coef m x j) else 0)) mesh).
      2:{ intros m Hm. unfold g. rewrite cell_row; [reflexivity| |].
          - intros i j Hi Hj. now apply Hab.
          - intros j Hj. exact (Dl m j Hm Hj). }
      rewrite (lsum_ext (fun m => global_load n (g m) r) (fun m => Rsum n (fun i => if (number m i =? r)%nat then sign m i * f m i else 0)) mesh) by (intros m Hm; unfold g; now rewrite cell_load_row).
      rewrite (lsum_ext (fun m => Rsum n (fun i => if (number m i =? r)%nat then sign m i * (_ - _) else 0))
        (fun m => Rsum n (fun i => if (number m i =? r)%nat then sign m i * Rsum n (fun j => a m i j * local_coef m x j) else 0) - Rsum n (fun i => if (number m i =? r)%nat then sign m i * f m i else 0)) mesh).
      * rewrite lsum_minus. lra.
      * intros m Hm. rewrite <- Rsum_minus. apply Rsum_ext. intros i _. destruct (number m i =? r)%nat; ring.
Qed.
