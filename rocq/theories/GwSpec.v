(** Which degrees of freedom a walk has to visit, and in which order *)
From Verif Require Import Prelude DofModel DofSpec EnumModel EnumSpec GwModel.

(** A component of the slice is free or fixed *)
Definition fits (o : option nat) (i : nat) : Prop := match o with None => True | Some a => i = a end.
(** The place is a dof of an element this process owns, and lies in the slice *)
Definition selected (l : list dmap) (m : mesh) (s : slice) (x : place) : Prop :=
  p_dim x < 4 /\ p_lid x < length (m (p_dim x)) /\ status m (p_dim x) (p_lid x) = Owned /\
  valid_desc l (p_desc x) /\ geom_dim (x_type (p_desc x)) = p_dim x /\
  fits (s_var s) (x_var (p_desc x)) /\ fits (s_dim s) (x_dim (p_desc x)) /\ fits (s_dof s) (x_pos (p_desc x)) /\
  has s (x_type (p_desc x)) = true /\ fits (s_lid s) (p_lid x).
(** Order of the places: dimension, element, type, variable, component, position *)
Definition lex_le (a b : nat) (P : Prop) : Prop := a < b \/ a = b /\ P.
Definition before (x y : place) : Prop :=
  lex_le (p_dim x) (p_dim y) (lex_le (p_lid x) (p_lid y) (lex_le (x_type (p_desc x)) (x_type (p_desc y))
    (lex_le (x_var (p_desc x)) (x_var (p_desc y)) (lex_le (x_dim (p_desc x)) (x_dim (p_desc y)) (x_pos (p_desc x) < x_pos (p_desc y)))))).
Definition ordered (L : list place) : Prop := forall i j x y, i < j -> nth_error L i = Some x -> nth_error L j = Some y -> before x y.
(** Oriented dofs are asked for together with the unoriented ones, or there are no unoriented ones in the slice *)
Definition sound_mask (l : list dmap) (s : slice) : Prop :=
  forall t, t = 1 \/ t = 3 -> has s (S t) = true -> has s t = true \/
    forall x, valid_desc l x -> x_type x = t -> fits (s_var s) (x_var x) -> fits (s_dim s) (x_dim x) -> fits (s_dof s) (x_pos x) -> False.
(** Number of the elements of the dimension this process owns *)
Definition owned_count (m : mesh) (d : nat) : nat := length (filter (fun x => match x with Owned => true | _ => false end) (m d)).
