(** What the value of an operator of a discrete function is *)
From Verif Require Import Prelude RSum GeoModel GeoSpec SpModel BasModel BasSpec CoreModel CoreSpec FiModel.
Local Open Scope R_scope.

(** Component c of the function with the given degrees of freedom, at the point y *)
Definition discrete (s : fem) (x : tetra) (dof : nat -> R) (c : nat) (y : nat -> R) : R := Rsum (nfa s) (fun i => dof i * BasSpec.shape s x i c y).
(** Component k of the operator applied to a function with values u c and derivatives D c a at a point *)
Definition value_of (o : op) (u : nat -> R) (D : nat -> nat -> R) (k : nat) : R :=
  match o with
  | IDEN => u k
  | GRAD => D (k / 3)%nat (k mod 3)%nat
  | DIV => D 0%nat 0%nat + D 1%nat 1%nat + D 2%nat 2%nat
  | CURL => match k with 0%nat => D 2%nat 1%nat - D 1%nat 2%nat | 1%nat => D 0%nat 2%nat - D 2%nat 0%nat | _ => D 1%nat 0%nat - D 0%nat 1%nat end
  | DUDX a => D k a
  end.
(** v is component k of Op(u) at y, u : components as functions of the point *)
Definition op_value (dim : nat) (o : op) (u : nat -> (nat -> R) -> R) (k : nat) (y : nat -> R) (v : R) : Prop :=
  exists D, (forall c a, (c < dim)%nat -> (a < 3)%nat -> partial (u c) a y (D c a)) /\ v = value_of o (fun c => u c y) D k.
(** The work memory suffices *)
Definition room_eval (q f : nat) (s : fem) (o : op) (w : work) : Prop :=
  (12 * f <= length (g_xyp (w_geom w)) /\ 9 * f <= length (g_psi (w_geom w)) /\ f <= length (g_det (w_geom w)) /\ f <= length (g_mes (w_geom w)) /\
   3 * (q * f) <= length (w_xyg w) /\ usize s o f q <= length (w_u w) /\ esize s o q <= length (w_ex w))%nat.
Definition room_tensor (d q f : nat) (s : fem) (o : op) (w : work) : Prop :=
  (odims s o * q * f <= length (w_v w) /\ d * q * f <= length (w_du w) /\ d * odims s o * q * f <= length (w_diff w) /\ q <= length (w_wg w))%nat.
(** The point of element r with the barycentric coordinates of point n in the array *)
Definition bary_point (x : tetra) (xyl : list R) (n : nat) : nat -> R := fun i => Rsum 4 (fun k => nth (4 * n + k) xyl 0 * x k i).
Definition cart_point (X : list R) (n : nat) : nat -> R := fun i => nth (3 * n + i) X 0.
