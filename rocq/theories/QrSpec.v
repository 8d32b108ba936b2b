(** What a QR factorisation must deliver. *)
From Verif Require Import Prelude RSum DenseSpec.
Local Open Scope R_scope.

Definition orthonormal (N : nat) (q : matrix) : Prop :=
  forall i j, (i < N)%nat -> (j < N)%nat -> Rsum N (fun r => q r i * q r j) = if (i =? j)%nat then 1 else 0.
Definition upper_triangular (M : nat) (r : matrix) : Prop := forall i j, (j < i)%nat -> (i < M)%nat -> r i j = 0.
(* column j of a - q r, where only the first M columns of q are used *)
Definition residual (M : nat) (a q r : matrix) (j i : nat) : R := a i j - Rsum M (fun m => q i m * r m j).
Definition norm2 (N : nat) (x : nat -> R) : R := sqrt (Rsum N (fun i => x i * x i)).
