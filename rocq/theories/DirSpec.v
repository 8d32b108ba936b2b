(** Vocabulary for C09-C11. *)
From Coq Require Import Permutation.
From Verif Require Import RSum.
Local Open Scope R_scope.

(** Row i of the matrix [a] (c columns) applied to x. *)
Definition row_times (c : nat) (a : nat -> nat -> R) (i : nat) (x : nat -> R) : R := Rsum c (fun j => a i j * x j).
Definition solves (n c : nat) (a : nat -> nat -> R) (f x : nat -> R) : Prop :=
  forall i, (i < n)%nat -> row_times c a i x = f i.
(** What one prescribed value should do to a system. *)
Definition constrained (n c : nat) (a : nat -> nat -> R) (f x : nat -> R) (k : nat) (bc : R) : Prop :=
  x k = bc /\ forall i, (i < n)%nat -> i <> k -> row_times c a i x = f i.
(** Many prescribed values. *)
Definition constrained_all (n c : nat) (a : nat -> nat -> R) (f x : nat -> R) (l : list (nat * R)) : Prop :=
  (forall k b, In (k, b) l -> x k = b) /\
  forall i, (i < n)%nat -> ~ In i (map fst l) -> row_times c a i x = f i.

(** A group of dofs d 0, .., d (dim-1); the projection of x on direction m. *)
Definition proj (dim : nat) (v : nat -> nat -> R) (d : nat -> nat) (m : nat) (x : nat -> R) : R :=
  Rsum dim (fun p => v m p * x (d p)).
Definition orthogonal (dim : nat) (v : nat -> nat -> R) (m m' : nat) : Prop := Rsum dim (fun p => v m p * v m' p) = 0.
Definition in_group (dim : nat) (d : nat -> nat) (i : nat) : Prop := exists m, (m < dim)%nat /\ i = d m.
Definition good_group (n c dim : nat) (d : nat -> nat) : Prop :=
  (forall m, (m < dim)%nat -> (d m < n)%nat /\ (d m < c)%nat) /\
  (forall m m', (m < dim)%nat -> (m' < dim)%nat -> d m = d m' -> m = m').
(* the constrained directions are different rows of V, pairwise orthogonal *)
Definition good_dirs (dim : nat) (v : nat -> nat -> R) (ndc : nat) (w : nat -> nat) : Prop :=
  (forall k, (k < ndc)%nat -> (w k < dim)%nat) /\
  (forall k k', (k < ndc)%nat -> (k' < ndc)%nat -> k <> k' -> w k <> w k' /\ orthogonal dim v (w k) (w k')).
(** Solution set a user expects: the projections are prescribed; the equations of
    dofs outside the group are kept; the equations of the group are kept in the
    unconstrained directions. *)
Definition vector_constrained (n c dim : nat) (a : nat -> nat -> R) (f x : nat -> R) (v : nat -> nat -> R) (d : nat -> nat)
    (ndc : nat) (w : nat -> nat) (b : nat -> R) : Prop :=
  (forall k, (k < ndc)%nat -> proj dim v d (w k) x = b k) /\
  (forall i, (i < n)%nat -> ~ in_group dim d i -> row_times c a i x = f i) /\
  (forall m, (m < dim)%nat -> (forall k, (k < ndc)%nat -> m <> w k) ->
     Rsum dim (fun p => v m p * (row_times c a (d p) x - f (d p))) = 0).
(** Coupling of two constrained directions through the matrix: v_k^T A v_k'
    restricted to the group. *)
Definition coupling (dim : nat) (v : nat -> nat -> R) (d w : nat -> nat) (a : nat -> nat -> R) (k k' : nat) : R :=
  Rsum dim (fun p => Rsum dim (fun r => v (w k) r * a (d r) (d p) * v (w k') p)).
