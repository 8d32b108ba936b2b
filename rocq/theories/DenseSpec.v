(** What a dense solver must do, in terms of matrices as functions of row and column. *)
From Verif Require Import Prelude RSum.
Local Open Scope R_scope.

Definition matrix := nat -> nat -> R.
(* a i j for i, j below N is symmetric *)
Definition symmetric (N : nat) (a : matrix) : Prop := forall i j, (i < N)%nat -> (j < N)%nat -> a i j = a j i.
Definition quadratic (N : nat) (a : matrix) (x : nat -> R) : R := Rsum N (fun i => Rsum N (fun j => a i j * x i * x j)).
Definition positive_definite (N : nat) (a : matrix) : Prop :=
  forall x, (exists i, (i < N)%nat /\ x i <> 0) -> 0 < quadratic N a x.
(* the N x M matrix x satisfies a x = b *)
Definition solves (N M : nat) (a x b : matrix) : Prop :=
  forall i k, (i < N)%nat -> (k < M)%nat -> Rsum N (fun j => a i j * x j k) = b i k.
Definition identity : matrix := fun i j => if (i =? j)%nat then 1 else 0.
Definition nonsingular (N : nat) (a : matrix) : Prop :=
  forall x, (forall i, (i < N)%nat -> Rsum N (fun j => a i j * x j) = 0) -> forall j, (j < N)%nat -> x j = 0.
