(** The numbers stored by intervals. *)
From Verif Require Import Prelude IenModel.
From Coq Require Import Sorting.Sorted.
Open Scope Z_scope.

(** The intervals given as (start, length); the storage of interval_enum.h:20-22: numbers of the first elements, first elements, and a last pair past the end *)
Fixpoint store_from (n : Z) (l : list (Z * Z)) (last : Z) : mem :=
  match l with [] => [(n, last)] | (v, len) :: r => (n, v) :: store_from (n + len) r (v + len) end.
Definition store (l : list (Z * Z)) : mem := match l with [] => [] | _ => store_from 0 l 0 end.
(** The numbers of the intervals *)
Definition elements (l : list (Z * Z)) : list Z := flat_map (fun '(v, len) => map (fun j => v + Z.of_nat j) (seq 0 (Z.to_nat len))) l.
(** Nonempty intervals in increasing order; touching intervals are allowed *)
Fixpoint sorted_from (lo : Z) (l : list (Z * Z)) : Prop :=
  match l with [] => True | (v, len) :: r => lo <= v /\ 0 < len /\ sorted_from (v + len) r end.
Definition intervals (l : list (Z * Z)) : Prop := match l with [] => True | (v, _) :: _ => sorted_from v l end.
