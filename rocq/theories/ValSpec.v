(** Vocabulary for valid indices. *)
From Verif Require Import Prelude DofModel.

(** Number [i] of a tetrahedron is the number of a dof. *)
Definition names_dof (d : dmap) (i : nat) : Prop := exists lo, local_order d i = Some lo /\ lo_gid lo = i.
(** There is a dof with position [p] on entity [e] of type [t]. *)
Definition places_dof (d : dmap) (t e p : nat) : Prop :=
  exists i lo, local_order d i = Some lo /\ lo_type lo = t /\ lo_elem lo = e /\ lo_leid lo = p.
