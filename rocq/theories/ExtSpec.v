(** The arrays numbered by ext_range_array_enum, and their lexicographic numbering. *)
From Verif Require Import Prelude.

(** Lexicographic order of arrays of the same length *)
Inductive lex : list nat -> list nat -> Prop :=
| lex_head x y a b : x < y -> length a = length b -> lex (x :: a) (y :: b)
| lex_tail x a b : lex a b -> lex (x :: a) (x :: b).
(** The stored set: distinct arrays of length N in increasing order *)
Fixpoint increasing (l : list (list nat)) : Prop := match l with [] => True | a :: r => (forall b, In b r -> lex a b) /\ increasing r end.
Definition base (N : nat) (A : list (list nat)) : Prop := increasing A /\ forall a, In a A -> length a = N.
(** Insertion of a value at position n *)
Definition insert_at (n t : nat) (a : list nat) : list nat := firstn n a ++ t :: skipn n a.
(** ext_array_enum.h:35-40: the set B *)
Definition member (A : list (list nat)) (rg : nat -> nat) (n m : nat) (b : list nat) : Prop :=
  exists a t, In a A /\ t < rg (nth m a 0) /\ b = insert_at n t a.
(** [L] lists the set B in increasing order *)
Definition listing (A : list (list nat)) (rg : nat -> nat) (n m : nat) (L : list (list nat)) : Prop :=
  increasing L /\ forall b, In b L <-> member A rg n m b.
