(** Elements of a process. *)
From Verif Require Import Prelude DofModel EnumModel GwModel MpModel.

(** The local ID belongs to an element of the dimension that is not a ghost *)
Definition owns (w : world) (d i : nat) : Prop := i < length (w_mesh w d) /\ nth i (w_mesh w d) Deleted = Owned.
(** Different elements have different GlobalIDs *)
Definition unique_ids (w : world) : Prop := forall d i j, owns w d i -> owns w d j -> w_gid w d i = w_gid w d j -> i = j.
(** b is the smallest GlobalID of the dimension on the process *)
Definition first_id (w : world) (d b : nat) : Prop := (exists i, owns w d i /\ w_gid w d i = b) /\ forall i, owns w d i -> b <= w_gid w d i.
(** The stored map leads from GlobalIDs to the elements *)
Definition leads (w : world) (s : maps) (d : nat) : Prop := forall b i, first_id w d b -> owns w d i -> element s d (w_gid w d i - b) = Some i.
(** All elements of a dimension that exist, owned or ghost, by increasing local ID *)
Definition existing (w : world) (d : nat) : list Z :=
  map Z.of_nat (filter (fun i => match nth i (w_mesh w d) Deleted with Deleted => false | _ => true end) (seq 0 (length (w_mesh w d)))).
(** An array read as pairs *)
Fixpoint pairs (l : list Z) : list (Z * Z) := match l with a :: b :: r => (a, b) :: pairs r | _ => [] end.
(** The GlobalIDs of the dimension are less than k from the first one *)
Definition offsets_below (w : world) (d k : nat) : Prop := forall b i, first_id w d b -> owns w d i -> w_gid w d i - b < k.
