(** Vocabulary for iterators over all dofs. *)
From Verif Require Import Prelude DofModel DitModel.
Local Open Scope Z_scope.

(** What a history of moves and accesses shows, by the position in the list of dofs alone. *)
Fixpoint shown (d : dmap) (ops : list it_op) (pos : Z) : option (list LocalOrder) :=
  match ops with
  | [] => Some []
  | Move n :: r => shown d r (pos + n)
  | Deref :: r => do lo <- (if 0 <=? pos then local_order d (Z.to_nat pos) else None); do l <- shown d r pos; Some (lo :: l)
  end.
