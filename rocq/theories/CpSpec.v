(** Where the value of a degree of freedom is stored, and when a copy is right *)
From Verif Require Import Prelude DofModel DofSpec EnumModel EnumSpec GwModel CpModel.

(** The degrees of freedom of the elements that exist in this process, owned or not, and of the owned ones *)
Definition dof_of (l : list dmap) (m : mesh) (x : place) : Prop :=
  p_dim x < 4 /\ p_lid x < length (m (p_dim x)) /\ status m (p_dim x) (p_lid x) <> Deleted /\ valid_desc l (p_desc x) /\ geom_dim (x_type (p_desc x)) = p_dim x.
Definition own_dof (l : list dmap) (m : mesh) (x : place) : Prop := dof_of l m x /\ status m (p_dim x) (p_lid x) = Owned.
(** Cell of a dof in a tag for all variables, in a tag for its variable, in the list of the tags of the variables.
    The dofs on one element are stored in the order of [descs] and [descs_var] (EnumSpec) *)
Definition union_cell (l : list dmap) (x : place) (a : list nat) : Prop :=
  exists k, nth_error (descs l (p_dim x)) k = Some (p_desc x) /\ a = [p_dim x; p_lid x; k].
Definition var_cell (l : list dmap) (x : place) (a : list nat) : Prop :=
  exists k, nth_error (descs_var l (x_var (p_desc x)) (p_dim x)) k = Some (p_desc x) /\ a = [p_dim x; p_lid x; k].
Definition tags_cell (l : list dmap) (x : place) (a : list nat) : Prop := exists b, var_cell l x b /\ a = x_var (p_desc x) :: b.
Definition vec_cell (idx : place -> option nat) (x : place) (a : list nat) : Prop := exists n, idx x = Some n /\ a = [n].
(** The memory has room for the dofs in P *)
Definition room {A} (P : place -> Prop) (cell : place -> list nat -> Prop) (m : mem A) : Prop := forall x a, P x -> cell x a -> m a <> None.
(** [to'] is [to] with the dofs in P copied from [from], and nothing else changed *)
Definition copied {A} (P : place -> Prop) (c1 c2 : place -> list nat -> Prop) (from to to' : mem A) : Prop :=
  (forall x a b, P x -> c1 x a -> c2 x b -> to' b = from a) /\ (forall b, (forall x, P x -> ~ c2 x b) -> to' b = to b).
(** The unknowns of the owned dofs are numbered by b .. e-1 *)
Definition enumerates (l : list dmap) (m : mesh) (idx : place -> option nat) (b e : nat) : Prop :=
  (forall x, own_dof l m x -> exists n, idx x = Some n /\ b <= n < e) /\
  (forall x y n, own_dof l m x -> own_dof l m y -> idx x = Some n -> idx y = Some n -> x = y) /\
  (forall n, b <= n < e -> exists x, own_dof l m x /\ idx x = Some n).
(** The shifts of the oriented dofs fit into one byte, or there are no oriented dofs *)
Definition small_shifts (l : list dmap) : Prop := (0 < cnt (Complex l) 2 -> cnt (Complex l) 1 < 256) /\ (0 < cnt (Complex l) 4 -> cnt (Complex l) 3 < 256).
