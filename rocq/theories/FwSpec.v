(** What a sparsity view means, independently of the conversion loops. *)
From Verif Require Import Prelude FwModel.
Open Scope nat_scope.

(** Number [j] of the compressed data is the element in row [r], column [c]. *)
Definition stored (v : view) (r c j : nat) : Prop :=
  match v_tp v with
  | DENSE => r < v_sz1 v /\ c < v_sz2 v /\ j = c * v_sz1 v + r
  | SPARSE_CSC => c < v_sz2 v /\ nth c (v_colind v) 0 <= j < nth (S c) (v_colind v) 0 /\ nth j (v_row v) 0 = r
  end.

(** A dense matrix, or a matrix in compressed columns with increasing rows. *)
Definition valid (v : view) : Prop :=
  match v_tp v with
  | DENSE => v_nnz v = v_sz1 v * v_sz2 v
  | SPARSE_CSC =>
      length (v_colind v) = S (v_sz2 v) /\ length (v_row v) = v_nnz v /\
      nth 0 (v_colind v) 0 = 0 /\ nth (v_sz2 v) (v_colind v) 0 = v_nnz v /\
      (forall c, c < v_sz2 v -> nth c (v_colind v) 0 <= nth (S c) (v_colind v) 0) /\
      (forall c j, c < v_sz2 v -> nth c (v_colind v) 0 <= j -> S j < nth (S c) (v_colind v) 0 ->
         nth j (v_row v) 0 < nth (S j) (v_row v) 0) /\
      (forall j, j < v_nnz v -> nth j (v_row v) 0 < v_sz1 v)
  end.

(** [out] is the column-major dense matrix of the compressed data [dat]. *)
Definition dense_of {V} (v : view) (fill : V) (dat out : list V) : Prop :=
  forall r c, r < v_sz1 v -> c < v_sz2 v ->
    (forall j, stored v r c j -> rd out (c * v_sz1 v + r) = rd dat j) /\
    ((forall j, ~ stored v r c j) -> rd out (c * v_sz1 v + r) = Some fill).

(** The mask tells the stored elements. *)
Definition mask_of (v : view) (mask : list bool) : Prop :=
  forall r c, r < v_sz1 v -> c < v_sz2 v ->
    (rd mask (c * v_sz1 v + r) = Some true <-> exists j, stored v r c j) /\
    (rd mask (c * v_sz1 v + r) = Some false <-> forall j, ~ stored v r c j).

(** Elements from number [n] on are those of before. *)
Definition kept_from {V} (n : nat) (before after : list V) : Prop :=
  length after = length before /\ forall p, n <= p -> rd after p = rd before p.

(** Two views describe the same matrix. *)
Definition same_view (v w : view) : Prop :=
  v_nnz w = v_nnz v /\ v_sz1 w = v_sz1 v /\ v_sz2 w = v_sz2 v /\ forall r c j, stored w r c j <-> stored v r c j.
