(** What the library spaces should be: C35 to C39.
    A tetrahedron has vertices x 0 .. x 3 with coordinates x k 0 .. x k 2. *)
From Verif Require Import Prelude RSum GeoModel GeoSpec SpModel BasModel.
Local Open Scope R_scope.

Definition tetra : Type := nat -> nat -> R.
(** Barycentric coordinate k of the point y: ratio of the volumes (Cramer) *)
Definition repl (x : tetra) (k : nat) (y : nat -> R) : tetra := fun j => if (j =? k)%nat then y else x j.
Definition lam (x : tetra) (k : nat) (y : nat -> R) : R := det3 (edge_matrix (repl x k y)) / det3 (edge_matrix x).
(** Its derivative along axis c (it is an affine function) *)
Definition axis (c : nat) : nat -> R := fun j => delta j c.
Definition dlam (x : tetra) (k c : nat) : R := lam x k (axis c) - lam x k (fun _ => 0).
(** Local numbering of edges and faces; vertex (i + 3) mod 4 is opposite to face i *)
Definition edge_of (e : nat) : nat * nat := nth e [(0, 1); (0, 2); (0, 3); (1, 2); (1, 3); (2, 3)]%nat (0, 0)%nat.
Definition opp (i : nat) : nat := ((i + 3) mod 4)%nat.
Definition vtx_of (x : tetra) (k : nat) : R * R * R := (x k 0%nat, x k 1%nat, x k 2%nat).
Definition face_area (x : tetra) (i : nat) : R := sqrt (gram2 (vtx_of x i) (vtx_of x ((i + 1) mod 4)) (vtx_of x ((i + 2) mod 4))) / 2.
Definition volume (x : tetra) : R := Rabs (det3 (edge_matrix x)) / 6.
Definition edge_length (x : tetra) (a b : nat) : R := sqrt (Rsum 3 (fun c => (x b c - x a c) * (x b c - x a c))).

(** Component c of basis function i at the point y (the textbook formulas) *)
Definition shape (s : fem) (x : tetra) (i c : nat) (y : nat -> R) : R :=
  let l k := lam x k y in
  match s with
  | P0 => 1
  | P1 => l i
  | P2 => if (i <? 4)%nat then l i * (2 * l i - 1) else let (a, b) := edge_of (i - 4) in 4 * l a * l b
  | P3 =>
      if (i <? 4)%nat then l i * (3 * l i - 1) * (3 * l i - 2) / 2
      else if (i <? 16)%nat then
        (* two functions on every edge, the first one at the node near the first vertex *)
        let (a, b) := edge_of ((i - 4) / 2) in
        if Nat.even i then 9 / 2 * l a * l b * (3 * l a - 1) else 9 / 2 * l a * l b * (3 * l b - 1)
      else 27 * l ((i - 16) mod 4)%nat * l ((i - 16 + 1) mod 4)%nat * l ((i - 16 + 2) mod 4)%nat
  | B2 => let (a, b) := edge_of i in 4 * l a * l b
  | B4 => 256 * l 0%nat * l 1%nat * l 2%nat * l 3%nat
  | CR1 => 1 - 3 * l (opp i)
  | RT0 => face_area x i / (3 * volume x) * (y c - x (opp i) c)
  | ND0 => let (a, b) := edge_of i in edge_length x a b * (l a * dlam x b c - l b * dlam x a c)
  end.

(** d is the derivative of F along axis k at the point y *)
Definition shift (y : nat -> R) (k : nat) (t : R) : nat -> R := fun j => if (j =? k)%nat then y j + t else y j.
Definition partial (F : (nat -> R) -> R) (k : nat) (y : nat -> R) (d : R) : Prop := derivable_pt_lim (fun t => F (shift y k t)) 0 d.

(** The data of f elements and q points with barycentric coordinates L: what
    internalFem3DtetGeomInit_Tet prepares (C28_element) *)
Definition prepared (f q : nat) (x : nat -> tetra) (L : nat -> nat -> R) (g : geo) : Prop :=
  (forall n, (n < q)%nat -> Rsum 4 (L n) = 1 /\ forall k, (k < 4)%nat -> rd (XYL g) (k + 4 * n) = Some (L n k)) /\
  (forall r, (r < f)%nat -> nondegenerate (x r) /\
     (forall k i, (k < 4)%nat -> (i < 3)%nat -> rd (XYP g) (i + 3 * k + 12 * r) = Some (x r k i - x r 0%nat i)) /\
     rd (DET g) r = Some (det3 (edge_matrix (x r))) /\
     exists P, inverse_of (edge_matrix (x r)) P /\ forall i j, (i < 3)%nat -> (j < 3)%nat -> rd (PSI g) (9 * r + (i + 3 * j)) = Some (P i j)).
(** Point n of element r *)
Definition point (x : nat -> tetra) (L : nat -> nat -> R) (r n : nat) : nat -> R := fun i => Rsum 4 (fun k => L n k * x r k i).

(** The matrix of an operator: row k of point n, column i of element r; d rows per point *)
Definition cell (d q nf r n k i : nat) : nat := (k + d * (n + q * (i + nf * r)))%nat.
Definition has_table (d q nf f : nat) (v : nat -> nat -> nat -> nat -> R) (U : list R) : Prop :=
  forall r i n k, (r < f)%nat -> (i < nf)%nat -> (n < q)%nat -> (k < d)%nat -> rd U (cell d q nf r n k i) = Some (v r n k i).
Definition same_after (sz : nat) (U U' : list R) : Prop := length U' = length U /\ forall c, (sz <= c)%nat -> rd U' c = rd U c.
(** The value of the operator from the values u and the derivatives D of the components:
    D r n c k i is the derivative of component c along axis k *)
Definition op_of (o : op) (u : nat -> nat -> nat -> nat -> R) (D : nat -> nat -> nat -> nat -> nat -> R) (r n k i : nat) : R :=
  match o with
  | IDEN => u r n k i
  | GRAD => D r n (k / 3)%nat (k mod 3)%nat i
  | DIV => D r n 0%nat 0%nat i + D r n 1%nat 1%nat i + D r n 2%nat 2%nat i
  | CURL =>
      match k with
      | 0%nat => D r n 2%nat 1%nat i - D r n 1%nat 2%nat i
      | 1%nat => D r n 0%nat 2%nat i - D r n 2%nat 0%nat i
      | _ => D r n 1%nat 0%nat i - D r n 0%nat 1%nat i
      end
  | DUDX a => D r n k a i
  end.

(** *** Degrees of freedom *)
(** The values v r are entered at position i of the first arrays; nothing else changes *)
Definition entered (fusion i : nat) (v : nat -> R) (ud ud' : list (list R)) : Prop :=
  length ud' = length ud /\
  forall r a, rd ud r = Some a -> exists a', rd ud' r = Some a' /\ length a' = length a /\
    forall j, rd a' j = if ((r <? fusion) && (j =? i))%nat then Some (v r) else rd a j.
Definition has_dof (fusion i : nat) (ud : list (list R)) : Prop := forall r, (r < fusion)%nat -> exists a, rd ud r = Some a /\ (i < length a)%nat.
(** Sum over a quadrature formula *)
Definition qsum (fm : formula) (h : list R -> R) : R := fold_right (fun pw s => snd pw * h (fst pw) + s) 0 fm.
(** A formula of an m-simplex: points have m + 1 coordinates, their sum is 1 *)
Definition on_simplex (m : nat) (fm : formula) : Prop := forall p w, In (p, w) fm -> length p = S m /\ Rsum (S m) (fun k => nth k p 0) = 1.
(** weights and first moments have errors up to e *)
Definition near (e a b : R) : Prop := Rabs (a - b) <= e.
Definition affine_exact (e : R) (m : nat) (fm : formula) : Prop :=
  on_simplex m fm /\ near e (qsum fm (fun _ => 1)) 1 /\ forall k, (k <= m)%nat -> near e (qsum fm (fun p => nth k p 0)) (/ INR (S m)).
Definition quads_ok (e : R) (Q : quads) : Prop := affine_exact e 1 (q_seg Q) /\ affine_exact e 2 (q_tri Q) /\ affine_exact e 3 (q_tet Q).
Definition vec_of (y : nat -> R) : vec := (y 0%nat, y 1%nat, y 2%nat).
Definition of_vec (v : vec) : nat -> R := comp v.
(** The vector function with components h 0 .. h (d - 1), the same for all fused functions *)
Definition vector_fun (d : nat) (h : nat -> (nat -> R) -> R) : vec -> nat -> R := fun X c => h (c mod d)%nat (of_vec X).

(** Polynomials of total degree at most m *)
Definition poly (m : nat) (p : (nat -> R) -> R) : Prop :=
  exists c : nat -> nat -> nat -> R, forall y,
    p y = Rsum (S m) (fun a => Rsum (S m - a) (fun b => Rsum (S m - a - b) (fun e => c a b e * (y 0%nat ^ a * y 1%nat ^ b * y 2%nat ^ e)))).
Definition degree_of (s : fem) : nat := match s with P1 => 1 | P2 => 2 | P3 => 3 | _ => 0 end.

(** *** The degrees of freedom
    Nodes of the nodal spaces, as weights of the vertices *)
Definition unitw (a k : nat) : R := delta a k.
Definition node (s : fem) (i k : nat) : R :=
  match s with
  | P2 => if (i <? 4)%nat then unitw i k else let (a, b) := edge_of (i - 4) in (unitw a k + unitw b k) / 2
  | P3 => if (i <? 4)%nat then unitw i k
          else if (i <? 16)%nat then let (a, b) := edge_of ((i - 4) / 2) in if Nat.even i then 2 / 3 * unitw a k + 1 / 3 * unitw b k else 1 / 3 * unitw a k + 2 / 3 * unitw b k
          else (unitw ((i - 16) mod 4) k + unitw ((i - 16 + 1) mod 4) k + unitw ((i - 16 + 2) mod 4) k) / 3
  | B2 => let (a, b) := edge_of i in (unitw a k + unitw b k) / 2
  | B4 => / 4
  | _ => unitw i k
  end.
Definition nodal (s : fem) : bool := match s with P1 | P2 | P3 | B2 | B4 => true | _ => false end.
Definition comb (x : tetra) (w : nat -> R) : nat -> R := fun c => Rsum 4 (fun k => w k * x k c).
(** The point of face i (of edge a b) with barycentric coordinates p *)
Definition facew (i : nat) (p : list R) (k : nat) : R := nth 0 p 0 * delta (i mod 4) k + nth 1 p 0 * delta ((i + 1) mod 4) k + nth 2 p 0 * delta ((i + 2) mod 4) k.
Definition edgew (a b : nat) (p : list R) (k : nat) : R := nth 0 p 0 * delta a k + nth 1 p 0 * delta b k.
(** Outer unit normal of face i, unit tangent of the edge a b *)
Definition outer (x : tetra) (i c : nat) : R := - dlam x (opp i) c / sqrt (Rsum 3 (fun a => dlam x (opp i) a * dlam x (opp i) a)).
Definition tangent (x : tetra) (a b c : nat) : R := (x b c - x a c) / edge_length x a b.
(** Value of dof i for function r of F: F at the node, or the mean of F, of its normal component on the
    face, of its tangential component on the edge, by the formulas of Q *)
Definition dof_value (s : fem) (Q : quads) (x : tetra) (F : vec -> nat -> R) (i r : nat) : R :=
  match s with
  | P0 => qsum (q_tet Q) (fun p => F (vec_of (comb x (fun k => nth k p 0))) r)
  | CR1 => qsum (q_tri Q) (fun p => F (vec_of (comb x (facew i p))) r)
  | RT0 => qsum (q_tri Q) (fun p => Rsum 3 (fun c => F (vec_of (comb x (facew i p))) (3 * r + c)%nat * outer x i c))
  | ND0 => let (a, b) := edge_of i in qsum (q_seg Q) (fun p => Rsum 3 (fun c => F (vec_of (comb x (edgew a b p))) (3 * r + c)%nat * tangent x a b c))
  | _ => F (vec_of (comb x (node s i))) r
  end.
