(** Specification vocabulary for C51: matrices and tensors as functions of their
    indices.  Nothing of the model is used. *)
From Coq Require Import Reals.
From Verif Require Import Prelude RSum.
Open Scope R_scope.

(** sums over all the indices below n *)
Definition Rsum2 (n : nat) (f : nat -> nat -> R) : R := Rsum n (fun i => Rsum n (fun j => f i j)).
Definition Rsum4 (n : nat) (f : nat -> nat -> nat -> nat -> R) : R := Rsum2 n (fun i j => Rsum2 n (fun k l => f i j k l)).
Definition delta (i j : nat) : R := if (i =? j)%nat then 1 else 0.

(** the product of matrices *)
Definition mprod (n : nat) (A B : nat -> nat -> R) (i j : nat) : R := Rsum n (fun k => A i k * B k j).
(** the determinant of a matrix of size 3 *)
Definition det3 (A : nat -> nat -> R) : R :=
  let a i j := A i j in
  a 0%nat 0%nat * a 1%nat 1%nat * a 2%nat 2%nat + a 0%nat 1%nat * a 1%nat 2%nat * a 2%nat 0%nat + a 0%nat 2%nat * a 1%nat 0%nat * a 2%nat 1%nat
  - a 0%nat 2%nat * a 1%nat 1%nat * a 2%nat 0%nat - a 0%nat 1%nat * a 1%nat 0%nat * a 2%nat 2%nat - a 0%nat 0%nat * a 1%nat 2%nat * a 2%nat 1%nat.
(** the determinant of any size, by the first row *)
Fixpoint det (n : nat) (A : nat -> nat -> R) : R :=
  match n with
  | O => 1
  | S n' => Rsum n (fun k => (-1) ^ k * A 0%nat k * det n' (fun i j => A (S i) (if (j <? k)%nat then j else S j)))
  end.

(** the index pairs of one element of a symmetric matrix *)
Definition same2 (i j k l : nat) : Prop := (i = k /\ j = l) \/ (i = l /\ j = k).
(** the same for tensors with R_ijkl = R_klij, and also = R_jikl = R_ijlk *)
Definition same4 (i j k l i' j' k' l' : nat) : Prop :=
  (i = i' /\ j = j' /\ k = k' /\ l = l') \/ (i = k' /\ j = l' /\ k = i' /\ l = j').
Definition bisame4 (i j k l i' j' k' l' : nat) : Prop :=
  (same2 i j i' j' /\ same2 k l k' l') \/ (same2 i j k' l' /\ same2 k l i' j').

(** element access [acc] gives the matrix A of size n, or the tensor *)
Definition reads2 (n : nat) (acc : nat -> nat -> option R) (A : nat -> nat -> R) : Prop :=
  forall i j, (i < n)%nat -> (j < n)%nat -> acc i j = Some (A i j).
Definition reads4 (n : nat) (acc : nat -> nat -> nat -> nat -> option R) (A : nat -> nat -> nat -> nat -> R) : Prop :=
  forall i j k l, (i < n)%nat -> (j < n)%nat -> (k < n)%nat -> (l < n)%nat -> acc i j k l = Some (A i j k l).
(** ... of size 3 *)
Definition is2 (acc : nat -> nat -> R) (A : nat -> nat -> R) : Prop :=
  forall i j, (i < 3)%nat -> (j < 3)%nat -> acc i j = A i j.
Definition is4 (acc : nat -> nat -> nat -> nat -> R) (A : nat -> nat -> nat -> nat -> R) : Prop :=
  forall i j k l, (i < 3)%nat -> (j < 3)%nat -> (k < 3)%nat -> (l < 3)%nat -> acc i j k l = A i j k l.
