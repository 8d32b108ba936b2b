(** Vocabulary for the iteration in geometric order. *)
From Verif Require Import Prelude DofModel DofSpec.

(** In a composition every dimension uses one of its two types only. *)
Fixpoint geom_safe (d : dmap) : Prop :=
  match d with
  | Unite _ _ => True
  | Vector _ b => geom_safe b
  | Complex l => fold_right (fun b P => geom_safe b /\ P) True l /\
      (cnt (Complex l) 1 = 0 \/ cnt (Complex l) 2 = 0) /\ (cnt (Complex l) 3 = 0 \/ cnt (Complex l) 4 = 0)
  end.

(** The dof [a] sits on an entity of smaller dimension than that of [b], or of the same
    dimension and with at most the same number. *)
Definition before_or_at (a b : LocalOrder) : Prop :=
  geom_dim (lo_type a) < geom_dim (lo_type b) \/
  (geom_dim (lo_type a) = geom_dim (lo_type b) /\ lo_elem a <= lo_elem b).
(** Entity by entity: nodes, edges, faces, cell, each by number. *)
Definition by_entity (L : list LocalOrder) : Prop :=
  forall L1 a L2 b L3, L = L1 ++ a :: L2 ++ b :: L3 -> before_or_at a b.
