(** Specification vocabulary for C52: deformation gradients, strains and the
    invariants of the Cauchy-Green tensor.  Only the names of the invariants are
    taken from the model. *)
From Coq Require Import Reals.
From Verif Require Import Prelude RSum AdSpec TnSpec MechModel.
Open Scope R_scope.

(** A point of the space of 3x3 matrices is the sequence of its rows *)
Definition mat (F : nat -> R) (i j : nat) : R := F (3 * i + j)%nat.
(** the symmetric matrix with the elements 00, 01, 02, 11, 12, 22 *)
Definition sym6 (x : nat -> R) (i j : nat) : R :=
  x (match Nat.min i j, Nat.max i j with O, b => b | S a, b => S (S a + b) end)%nat.
(** the same from a list *)
Definition of_list (l : list R) : nat -> R := fun i => nth i l 0.

(** C = F^T F *)
Definition right_cauchy (F : nat -> nat -> R) (i j : nat) : R := Rsum 3 (fun k => F k i * F k j).
(** E = (F^T F - I) / 2 *)
Definition green (F : nat -> nat -> R) (i j : nat) : R := (right_cauchy F i j - delta i j) / 2.
(** F = I + grad u *)
Definition deformation (grU : list R) (p : nat) : R := delta (p / 3) (p mod 3) + nth p grU 0.
(** C = I + 2 E *)
Definition cauchy_of (E : nat -> nat -> R) (i j : nat) : R := delta i j + 2 * E i j.

(** The invariants of a symmetric tensor C *)
Definition trace3 (C : nat -> nat -> R) : R := Rsum 3 (fun i => C i i).
Definition bilinear (f s : nat -> R) (C : nat -> nat -> R) : R := Rsum2 3 (fun i j => f i * C i j * s j).
Definition invariant_of (C : nat -> nat -> R) (i : invariant) : R :=
  match i with
  | I0fs f s => bilinear (of_list f) (of_list s) delta
  | I1 => trace3 C
  | I2 => (trace3 C * trace3 C - trace3 (mprod 3 C C)) / 2
  | I3 => det3 C
  | Jdet => sqrt (det3 C)
  | I4fs f s => bilinear (of_list f) (of_list s) C
  | I5fs f s => bilinear (of_list f) (of_list s) (mprod 3 C C)
  end.
(** ... where it is smooth *)
Definition regular (C : nat -> nat -> R) (i : invariant) : Prop := match i with Jdet => 0 < det3 C | _ => True end.
(** the vectors have three elements *)
Definition well_formed (i : invariant) : Prop :=
  match i with I0fs f s | I4fs f s | I5fs f s => length f = 3%nat /\ length s = 3%nat | _ => True end.
