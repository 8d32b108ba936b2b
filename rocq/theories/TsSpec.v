(** Maps for which the order of the vertices matters. *)
From Verif Require Import Prelude DofModel DofSpec.

(** The dof sits at the centre of its entity and has no orientation. *)
Definition order_free (x : dof) : Prop := d_sym x = Some (0, 0) /\ d_type x <> 2 /\ d_type x <> 4.
(** Every leaf has a symmetry table, and no part is repeated zero times. *)
Fixpoint tabled (d : dmap) : Prop :=
  match d with
  | Unite _ sy => sy <> None
  | Vector k b => 0 < k /\ tabled b
  | Complex l => fold_right (fun b P => tabled b /\ P) True l
  end.
