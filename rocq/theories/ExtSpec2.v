(** Searches in the increasing listing of a set. *)
From Verif Require Import Prelude ExtSpec.

(** [p] is the place of the first element of [L] that is not less than [i], or the length of [L] when there is none *)
Definition first_from (L : list (list nat)) (i : list nat) (p : nat) : Prop :=
  p <= length L /\ forall j b, nth_error L j = Some b -> (j < p <-> lex b i).
(** The same for the first element greater than [i] *)
Definition first_after (L : list (list nat)) (i : list nat) (p : nat) : Prop :=
  p <= length L /\ forall j b, nth_error L j = Some b -> (j < p <-> lex b i \/ b = i).
