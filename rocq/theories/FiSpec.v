(** What an elemental matrix should be: integrals over a tetrahedron, a face or an edge, values at a vertex *)
From Coq Require Import ZArith.
From Verif Require Import Prelude RSum GeoModel GeoSpec SpModel BasModel BasSpec CoreModel CoreSpec QuadSpec FiModel.
Local Open Scope R_scope.

Definition valid (reg : region) : Prop := match reg with Tet => True | Face k | FaceN k | Node k => (k < 4)%nat | Edge e => (e < 6)%nat end.
(** The simplex a region is, and its vertices among those of the tetrahedron *)
Definition shape_of (reg : region) : option QuadSpec.shape :=
  match reg with Tet => Some Tetrahedron | Face _ | FaceN _ => Some Triangle | Edge _ => Some Segment | Node _ => None end.
Definition corner (reg : region) (i : nat) : nat :=
  match reg with
  | Tet => i
  | Face k | FaceN k => ((k + i) mod 4)%nat
  | Edge e => if (i =? 0)%nat then fst (edge_of e) else snd (edge_of e)
  | Node k => k
  end.
Definition corners (reg : region) : nat := match shape_of reg with Some s => S (dim s) | None => 1 end.
Definition order_ok (reg : region) (order : Z) : Prop := match shape_of reg with Some s => (0 <= order <= max_order s)%Z | None => True end.
(** Volume, area, length *)
Definition size_of (reg : region) (x : tetra) : R :=
  match reg with
  | Tet => volume x
  | Face k | FaceN k => face_area x k
  | Edge e => edge_length x (fst (edge_of e)) (snd (edge_of e))
  | Node _ => 1
  end.
(** The integral of a function of the point over the region *)
Definition integral (reg : region) (x : tetra) (g : (nat -> R) -> R) : R :=
  match shape_of reg with
  | Some s => size_of reg x * mean s (fun l => g (at_bary (fun i => x (corner reg i)) l))
  | None => g (x (corner reg 0))
  end.
(** g is a polynomial of degree at most n on the region: P in the barycentric coordinates of the region *)
Definition is_poly (reg : region) (x : tetra) (n : nat) (g : (nat -> R) -> R) (P : bpoly) : Prop :=
  bdegree (corners reg - 1) n P /\ forall p, length p = corners reg -> fold_right Rplus 0 p = 1 -> g (at_bary (fun i => x (corner reg i)) p) = beval P p.
(** Degrees of the basis functions, and after an operator is applied *)
Definition fem_degree (s : fem) : nat := match s with P0 => 0 | P2 | B2 => 2 | P3 => 3 | B4 => 4 | _ => 1 end.
Definition op_degree (s : fem) (o : op) : nat := match o with IDEN => fem_degree s | _ => fem_degree s - 1 end.
(** The outer unit normal of face k: orthogonal to its edges, of length 1, away from the opposite vertex *)
Definition outer_normal (x : tetra) (k : nat) (N : nat -> R) : Prop :=
  (forall i j, (i < 3)%nat -> (j < 3)%nat -> Rsum 3 (fun c => N c * (x ((k + i) mod 4)%nat c - x ((k + j) mod 4)%nat c)) = 0) /\
  Rsum 3 (fun c => N c * N c) = 1 /\ Rsum 3 (fun c => N c * (x (opp k) c - x k c)) < 0.

(** Component k of the operator applied to basis function i of the space, at the point y; D i c a y is the derivative of
    component c along axis a *)
Definition op_at (s : fem) (o : op) (x : tetra) (D : nat -> nat -> nat -> (nat -> R) -> R) (k i : nat) (y : nat -> R) : R :=
  op_of o (fun _ _ k i => BasSpec.shape s x i k y) (fun _ _ c a i => D i c a y) 0 0 k i.
Definition derivatives (s : fem) (x : tetra) (D : nat -> nat -> nat -> (nat -> R) -> R) : Prop :=
  forall i c a y, (i < nfa s)%nat -> (c < fdim s)%nat -> (a < 3)%nat -> partial (BasSpec.shape s x i c) a y (D i c a y).
(** (D OpA(phi_ia)) . OpB(psi_ib), the first one multiplied by the normal if there is one *)
Definition integrand (F : functor) (r : nat) (N : nat -> R) (normal : bool) (sA : fem) (oA : op) (sB : fem) (oB : op) (x : tetra) DA DB (ia ib : nat) (y : nat -> R) : R :=
  let nD := (if normal then 3 else 1)%nat in
  Rsum (odims sB oB) (fun k => flux (tmat (F (vec_of y) r) (odims sB oB * nD) (odims sA oA)) N normal (odims sA oA) (fun j => op_at sA oA x DA j ia y) k * op_at sB oB x DB k ib y).

(** The user's function gives acceptable tensors and keeps the promises of its traits *)
Definition proper (F : functor) (constant : bool) (sp : sparsity) (jdim idim nfa f : nat) : Prop :=
  (forall X r, (r < f)%nat -> tensor_ok jdim idim nfa (F X r)) /\ (constant = true -> forall X r, (r < f)%nat -> F X r = F (0, 0, 0) 0%nat) /\
  match sp with
  | Fixed k => forall X r, (r < f)%nat -> kind (F X r) = k
  | PerTetra => forall X Y r, (r < f)%nat -> kind (F X r) = kind (F Y r)
  | PerSelection => (forall X Y r, (r < f)%nat -> kind (F X r) = kind (F Y 0%nat)) /\ (forall X r, (r < f)%nat -> kind (F X r) = KFull -> F X r = F X 0%nat)
  | PerPoint => True
  end.
(** The work memory is large enough for q points of f elements *)
Definition room_for (reg_normal : bool) (q f : nat) (sA : fem) (oA : op) (sB : fem) (oB : op) (w : work) (A : list R) : Prop :=
  let nD := (if reg_normal then 3 else 1)%nat in
  (12 * f <= length (g_xyp (w_geom w)))%nat /\ (9 * f <= length (g_psi (w_geom w)))%nat /\ (f <= length (g_det (w_geom w)))%nat /\ (f <= length (g_mes (w_geom w)))%nat /\
  (reg_normal = true -> (3 * f <= length (w_nrm w))%nat) /\ (3 * (q * f) <= length (w_xyg w))%nat /\
  (usize sA oA f q <= length (w_u w))%nat /\ ((fem_eqb sA sB && op_eqb oA oB)%bool = false -> (usize sB oB f q <= length (w_v w))%nat) /\
  (esize sA oA q <= length (w_ex w))%nat /\ (esize sB oB q <= length (w_ex w))%nat /\ (nfa sA * nfa sB * f <= length (w_ex w))%nat /\
  (odims sB oB * Nat.max (odims sA oA * nD) (nfa sA) * q * f <= length (w_diff w))%nat /\ (odims sB oB * nD * q * nfa sA * f <= length (w_du w))%nat /\
  (nfa sA * nfa sB * f <= length A)%nat.
(** the points of a region: the number of points of the formula *)
Definition npoints (reg : region) (order : Z) : nat :=
  match shape_of reg with Some s => match quadrature s order with Some f => QuadModel.q_num f | None => 0 end | None => 1 end%nat.
Definition room_points (q : nat) (w : work) : Prop := (4 * q <= length (w_xyl w))%nat /\ (q <= length (w_wg w))%nat.
