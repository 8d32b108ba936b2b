(** Specification of quadrature formulas: polynomials in barycentric coordinates and their mean value over a simplex *)
From Coq Require Import ZArith Reals List Permutation.
From Coquelicot Require Import Coquelicot.
From Verif Require Import Prelude RSum BasModel BasSpec QuadModel QuadRules.
Import ListNotations.
Open Scope R_scope.

(** The three kinds of simplices *)
Inductive shape := Segment | Triangle | Tetrahedron.
Definition dim (s : shape) : nat := match s with Segment => 1 | Triangle => 2 | Tetrahedron => 3 end.
Definition max_order (s : shape) : Z := match s with Segment => 21 | _ => 20 end.
Definition quadrature (s : shape) (order : Z) : option quad :=
  match s with
  | Segment => segment_quadrature_formulas order
  | Triangle => triangle_quadrature_formulas order
  | Tetrahedron => tetrahedron_quadrature_formulas order
  end.

(** A polynomial in barycentric coordinates: coefficients with the exponents of their monomials *)
Fixpoint mono (es : list nat) (p : list R) : R :=
  match es, p with e :: es, x :: p => x ^ e * mono es p | _, _ => 1 end.
Definition bpoly : Type := list (R * list nat).
Definition beval (P : bpoly) (p : list R) : R := fold_right (fun ce s => fst ce * mono (snd ce) p + s) 0 P.
(** the sum of the absolute values of the coefficients *)
Definition bnorm (P : bpoly) : R := fold_right (fun ce s => Rabs (fst ce) + s) 0 P.
Definition bdegree (m n : nat) (P : bpoly) : Prop := forall c es, In (c, es) P -> length es = S m /\ (list_sum es <= n)%nat.

(** The mean value of a function of the barycentric coordinates over a segment, a triangle or a tetrahedron:
    the integral over the reference simplex x, y, z >= 0, x + y + z <= 1 divided by its measure 1, 1/2, 1/6.
    The mean over any other simplex is the same, because it is the image of this one by an affine map. *)
Definition mean (s : shape) (g : list R -> R) : R :=
  match s with
  | Segment => RInt (fun x => g [x; 1 - x]) 0 1
  | Triangle => 2 * RInt (fun x => RInt (fun y => g [x; y; 1 - x - y]) 0 (1 - x)) 0 1
  | Tetrahedron => 6 * RInt (fun x => RInt (fun y => RInt (fun z => g [x; y; z; 1 - x - y - z]) 0 (1 - x - y)) 0 (1 - x)) 0 1
  end.

(** The point with the given barycentric coordinates, X i k is coordinate k of vertex i *)
Definition at_bary (X : nat -> nat -> R) (l : list R) (k : nat) : R := fold_right Rplus 0 (map (fun i => nth i l 0 * X i k) (seq 0 (length l))).

(** A polynomial of total degree at most m in Cartesian coordinates with coefficients c, see [poly] in BasSpec *)
Definition cartesian (m : nat) (c : nat -> nat -> nat -> R) (y : nat -> R) : R :=
  Rsum (S m) (fun a => Rsum (S m - a) (fun b => Rsum (S m - a - b) (fun e => c a b e * (y 0%nat ^ a * y 1%nat ^ b * y 2%nat ^ e)))).
(** Its size on a simplex with n vertices *)
Definition cartesian_size (n m : nat) (c : nat -> nat -> nat -> R) (X : nat -> nat -> R) : R :=
  let s k := Rsum n (fun i => Rabs (X i k)) in
  Rsum (S m) (fun a => Rsum (S m - a) (fun b => Rsum (S m - a - b) (fun e => Rabs (c a b e) * (s 0%nat ^ a * s 1%nat ^ b * s 2%nat ^ e)))).

(** Sizes of the orbits: the symmetry partition lists how many orbits of every size there are *)
Definition orbit_sizes (s : shape) : list nat := match s with Segment => [1; 2] | Triangle => [1; 3; 6] | Tetrahedron => [1; 4; 6; 12; 24] end%nat.
Definition sizes_of (s : shape) (sym : list nat) : list nat := flat_map (fun nk => repeat (snd nk) (fst nk)) (List.combine sym (orbit_sizes s)).

(** [l'] is [l] with its coordinates permuted by [q] *)
Definition permuted (q : list nat) (l : list R) : list R := map (fun i => nth i l 0) q.
(** The orbit is mapped to itself by every permutation of the coordinates *)
Definition closed_orbit (m : nat) (o : list (list R)) : Prop :=
  forall q, Permutation q (seq 0 (S m)) -> Permutation (map (permuted q) o) o.

(** Formulas with the same number of points, coordinates and weights of which differ by at most d *)
Definition close (d : R) (F G : formula) : Prop :=
  Forall2 (fun a b => Forall2 (fun x y => Rabs (x - y) <= d) (fst a) (fst b) /\ Rabs (snd a - snd b) <= d) F G.
