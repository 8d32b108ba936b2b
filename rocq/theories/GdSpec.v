(** What the gathered value of a degree of freedom should be. *)
From Coq Require Import Reals.
From Verif Require Import Prelude DofModel DofSpec SymSpec SparsitySpec.

(** The sign attached to a dof of type [t] on entity [e] seen through the order [p] of the
    vertices: oriented edges compare their two ends; for oriented faces the code counts the
    descents over four consecutive vertices starting at the face number (see C23 for when
    this is the orientation of the face). *)
Definition descents (p vs : list nat) : nat :=
  length (filter (fun k => app4 p (nth (S k) vs 0) <? app4 p (nth k vs 0)) (seq 0 (length vs - 1))).
Definition sign_is (t e : nat) (p : list nat) (s : Z) : Prop :=
  match t with
  | 2 => s = if descents p (corners 2 e) =? 0 then 1%Z else (-1)%Z
  | 4 => s = if descents p [e; (e + 1) mod 4; (e + 2) mod 4; (e + 3) mod 4] =? 1 then 1%Z else (-1)%Z
  | _ => s = 1%Z
  end.
(** On an entity the unoriented dofs are stored first, then the oriented ones. *)
Definition store_at (d : dmap) (t p : nat) : nat :=
  match t with 2 => cnt d 1 + p | 4 => cnt d 3 + p | _ => p end.
Definition store_size (d : dmap) (q : nat) : nat :=
  match q with 0 => cnt d 0 | 1 => cnt d 1 + cnt d 2 | 2 => cnt d 3 + cnt d 4 | _ => cnt d 5 end.
(** [v] is the value stored for the dof number [g] of the map: its class is (c, l), the
    orbit of the class starts at leid - l, and the dof is the point r of it seen from the
    mesh entity. *)
Definition value_of (data : nat -> nat -> option (list R)) (d : dmap) (p : list nat) (g : nat) (v : R) : Prop :=
  exists lo c l r a s w, local_order d g = Some lo /\ lo_sym lo = Some (c, l) /\
    placed (lo_type lo) (lo_elem lo) c l p r /\ sign_is (lo_type lo) (lo_elem lo) p s /\
    data (geom_dim (lo_type lo)) (lo_elem lo) = Some a /\
    nth_error a (store_at d (lo_type lo) (lo_leid lo - l + r)) = Some w /\ v = (IZR s * w)%R.
(** The tag holds all values of the map on every entity of the cell. *)
Definition full_data (data : nat -> nat -> option (list R)) (d : dmap) : Prop :=
  forall q e, entity q e -> exists a, data q e = Some a /\ store_size d q <= length a.
(** Only the entries off .. off + n - 1 of the array may have changed. *)
Definition same_outside (off n : nat) (out out' : list R) : Prop :=
  length out' = length out /\ forall i, i < off \/ off + n <= i -> nth_error out' i = nth_error out i.
(** Components of a map, and the number of dofs of the components before number [v]. *)
Definition components (d : dmap) : list dmap := match d with Unite _ _ => [] | Vector k b => repeat b k | Complex l => l end.
Definition dofs_before (d : dmap) (v : nat) : nat := list_sum (map num_dof_tet (firstn v (components d))).
(** The entry [i] of the new array: the value of dof [g] if the tag stores it, else what was there. *)
Definition got (data : nat -> nat -> option (list R)) (d : dmap) (p : list nat) (g : nat) (out : list R) (i : nat) (out' : list R) : Prop :=
  (exists v, value_of data d p g v /\ nth_error out' i = Some v) \/ ((forall v, ~ value_of data d p g v) /\ nth_error out' i = nth_error out i).
