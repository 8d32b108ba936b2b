(** The order chosen by the user: keys of dofs. *)
From Verif Require Import Prelude DofModel DofSpec EnumModel EnumSpec ExtSpec.

(** VAR = 0, DIM = 1, ELEM_TYPE = 2, ELEM_ID = 3, DOF_ID = 4 (global_enumerator.h:320-327): the value of an attribute of the dof
    with description x on the element number o among the owned elements of its dimension *)
Definition attribute (o : nat) (x : desc) (k : nat) : nat :=
  match k with 0 => x_var x | 1 => x_dim x | 2 => x_type x | 3 => o | _ => x_pos x end.
(** The attributes in the order of the arrangement *)
Definition dof_key (order : list nat) (o : nat) (x : desc) : list nat := map (attribute o x) order.
(** An owned dof: an owned element and a description that exists on its dimension *)
Definition owned_dof (l : list dmap) (r : rank) (g : nat) (x : desc) : Prop := valid_desc l x /\ owned r (geom_dim (x_type x)) g.
