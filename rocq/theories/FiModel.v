(** Elemental matrices of integrals over a tetrahedron, a face, an edge, and of values at points:
    fem/operations/int_tet.inl, int_face.inl, int_edge.inl, int_pnt.inl.
    The three variants of every function (memory on the stack, plain memory, operators chosen at run time) run
    the same steps on work memory of different origin; the work memory is an input here, its layout is C16. *)
From Coq Require Import ZArith.
From Verif Require Import Prelude RSum GeoModel SpModel BasModel CoreModel QuadModel QuadRules.
Local Open Scope R_scope.

(** What is integrated over: fem3Dtet, fem3Dface, fem3DfaceN, fem3Dedge, fem3Dnode *)
Inductive region := Tet | Face (k : nat) | FaceN (k : nat) | Edge (e : nat) | Node (k : nat).
Definition with_normal (reg : region) : bool := match reg with FaceN _ => true | _ => false end.

(** AniMemory (fem_memory.h:190-213) without the result *)
Record work := Work { w_geom : geom; w_nrm : list R; w_xyl : list R; w_wg : list R; w_xyg : list R;
                      w_u : list R; w_v : list R; w_du : list R; w_diff : list R; w_ex : list R }.

Definition copy (n : nat) (src dst : list R) : option (list R) := for_ n (fun i d => do v <- rd src i; wr d i v) dst.
(** int_face.inl:35-40, 75-80, 115-120, 149-154, 187-192 *)
Definition face_points (q k : nat) (p xyl : list R) : option (list R) :=
  for_ q (fun n xyl =>
    do a <- rd p (3 * n + 0); do xyl <- wr xyl (4 * n + k) a;
    do b <- rd p (3 * n + 1); do xyl <- wr xyl (4 * n + (k + 1) mod 4) b;
    do c <- rd p (3 * n + 2); do xyl <- wr xyl (4 * n + (k + 2) mod 4) c;
    wr xyl (4 * n + (k + 3) mod 4) 0) xyl.
(** int_edge.inl:27, 68, 99 *)
Definition lookup1 : list nat := [0; 0; 0; 1; 1; 2]%nat.
Definition lookup2 : list nat := [1; 2; 3; 2; 3; 3]%nat.
(** int_edge.inl:26-31, 67-72, 98-103 *)
Definition edge_points (q e : nat) (p xyl : list R) : option (list R) :=
  do xyl <- for_ (4 * q) (fun i xyl => wr xyl i 0) xyl;
  do l1 <- rd lookup1 e; do l2 <- rd lookup2 e;
  for_ q (fun n xyl =>
    do a <- rd p (2 * n + 0); do xyl <- wr xyl (4 * n + l1) a;
    do b <- rd p (2 * n + 1); wr xyl (4 * n + l2) b) xyl.
(** int_pnt.inl:24-25, 48-49, 174-178 *)
Definition node_point (k : nat) (xyl : list R) : option (list R) :=
  do xyl <- for_ 4 (fun i xyl => wr xyl i 0) xyl; wr xyl k 1.

(** The number of points, their barycentric coordinates and weights.  Simplified: fem3Dtet with ScalarType = qReal
    refers to the table of the formula instead of copying it (int_tet.inl:17-23, 46-52, 109-115) *)
Definition load_points (reg : region) (order : Z) (xyl wg : list R) : option (nat * list R * list R) :=
  match reg with
  | Tet =>
      do f <- tetrahedron_quadrature_formulas order; let q := q_num f in
      do xyl <- copy (4 * q) (q_p f) xyl; do wg <- copy q (q_w f) wg; Some (q, xyl, wg)
  | Face k | FaceN k =>
      do f <- triangle_quadrature_formulas order; let q := q_num f in
      do xyl <- face_points q k (q_p f) xyl; do wg <- copy q (q_w f) wg; Some (q, xyl, wg)
  | Edge e =>
      do f <- segment_quadrature_formulas order; let q := q_num f in
      do xyl <- edge_points q e (q_p f) xyl; do wg <- copy q (q_w f) wg; Some (q, xyl, wg)
  | Node k => do xyl <- node_point k xyl; do wg <- wr wg 0 1; Some (1%nat, xyl, wg)
  end.

(** A point at x + i of an array *)
Definition vec_at (a : list R) (i : nat) : option vec := do x <- rd a i; do y <- rd a (i + 1); do z <- rd a (i + 2); Some (x, y, z).
(** The measure of the region of every element, and the normals.
    int_face.inl:46-49, 86-91, 124-127, 158-163, 195-206, int_edge.inl:36-41, 77-82, 106-111, int_pnt.inl:28, 53, 180 *)
Definition measure (reg : region) (f : nat) (xyp mes nrm : list R) : option (list R * list R) :=
  match reg with
  | Tet => Some (mes, nrm)
  | Face k =>
      do mes <- for_ f (fun r mes =>
        do a <- vec_at xyp (12 * r + 3 * k); do b <- vec_at xyp (12 * r + 3 * ((k + 1) mod 4)); do c <- vec_at xyp (12 * r + 3 * ((k + 2) mod 4));
        wr mes r (tri_area a b c)) mes;
      Some (mes, nrm)
  | FaceN k =>
      for_ f (fun r mn =>
        do a <- vec_at xyp (12 * r + 3 * k); do b <- vec_at xyp (12 * r + 3 * ((k + 1) mod 4)); do c <- vec_at xyp (12 * r + 3 * ((k + 2) mod 4));
        do d <- vec_at xyp (12 * r + 3 * ((k + 3) mod 4));
        let '(area, (n0, n1, n2)) := face_normal a b c d in
        do nrm <- wr (snd mn) (3 * r + 0) n0; do nrm <- wr nrm (3 * r + 1) n1; do nrm <- wr nrm (3 * r + 2) n2;
        do mes <- wr (fst mn) r area;
        Some (mes, nrm)) (mes, nrm)
  | Edge e =>
      do l1 <- rd lookup1 e; do l2 <- rd lookup2 e;
      do mes <- for_ f (fun r mes =>
        do a <- vec_at xyp (12 * r + 3 * l1); do b <- vec_at xyp (12 * r + 3 * l2);
        wr mes r (sqrt (sqlen (vsub a b)))) mes;
      Some (mes, nrm)
  | Node _ => do mes <- for_ f (fun r mes => wr mes r 1) mes; Some (mes, nrm)
  end.

(** operations/core.inl:285, 297: the matrix of an operator of a library space as a band matrix with one part *)
Definition one_part (d q nf : nat) (U : list R) : band := {| parts := [(U, (q * d)%nat)]; st_row := [0; d]%nat; st_col := [0; nf]%nat |}.
(** std::is_same<OpA, OpB>, core.inl:291: the matrix is computed once *)
Definition fem_eqb (a b : fem) : bool :=
  match a, b with
  | P0, P0 | P1, P1 | P2, P2 | P3, P3 | B2, B2 | B4, B4 | CR1, CR1 | RT0, RT0 | ND0, ND0 => true
  | _, _ => false
  end.
Definition op_eqb (a b : op) : bool :=
  match a, b with
  | IDEN, IDEN | GRAD, GRAD | DIV, DIV | CURL, CURL => true
  | DUDX i, DUDX j => (i =? j)%nat
  | _, _ => false
  end.

(** The integrals of (D OpA(u)) . OpB(v), or of ((D OpA(u)) . N) . OpB(v), for the basis functions of two spaces,
    after the points with weights are loaded; [setup] sets the measure and the normals *)
Definition assemble (F : functor) (constant : bool) (sp : sparsity) (normal : bool) (setup : list R -> list R -> list R -> option (list R * list R))
    (q f : nat) (sA : fem) (oA : op) (sB : fem) (oB : op)
    (XY0 XY1 XY2 XY3 : nat -> nat -> R) (xyl wg : list R) (w : work) (A : list R) : option (list R) :=
  do g <- geom_init_tet f XY0 XY1 XY2 XY3 (w_geom w);
  do xyg <- geom_init_xyg q f XY0 xyl (g_xyp g) (w_xyg w);
  do mn <- setup (g_xyp g) (g_mes g) (w_nrm w);
  let geo := {| XYL := xyl; PSI := g_psi g; XYP := g_xyp g; DET := g_det g |} in
  do ue <- apply_op sA oA f q geo (w_u w) (w_ex w);
  do ve <- (if (fem_eqb sA sB && op_eqb oA oB)%bool then Some ue else apply_op sB oB f q geo (w_v w) (snd ue));
  fem3Dtet F constant sp normal q f (odims sA oA) (odims sB oB) (nfa sA) (nfa sB)
    (one_part (odims sA oA) q (nfa sA) (fst ue)) (one_part (odims sB oB) q (nfa sB) (fst ve))
    wg (fst mn) xyg (snd mn) (w_diff w) (snd ve) (w_du w) A.

(** int_tet.inl:3-28, 31-57, 93-121; int_face.inl:12-51, 53-93, 95-129, 131-165, 167-209; int_edge.inl; int_pnt.inl:8-55, 160-183.
    [nf_a * nf_b * f] is compared with the size of A; the functions with memory on the stack compare before f is set
    (it is 1 then), so they do not notice a matrix A that is too small for several elements *)
Definition integrate (F : functor) (constant : bool) (sp : sparsity) (reg : region) (order : Z) (f : nat) (sA : fem) (oA : op) (sB : fem) (oB : op)
    (XY0 XY1 XY2 XY3 : nat -> nat -> R) (w : work) (A : list R) : option (list R) :=
  do _ <- guard (nfa sA * nfa sB * f <=? length A)%nat;
  do qxw <- load_points reg order (w_xyl w) (w_wg w);
  let '(q, xyl, wg) := qxw in
  assemble F constant sp (with_normal reg) (measure reg f) q f sA oA sB oB XY0 XY1 XY2 XY3 xyl wg w A.

(** int_pnt.inl:57-83, 85-109, 184-206 fem3DpntL: sums over given points.  q is the smaller of the numbers of points and weights *)
Definition unit_measure (f : nat) (xyp mes nrm : list R) : option (list R * list R) := do mes <- for_ f (fun r mes => wr mes r 1) mes; Some (mes, nrm).
Definition sum_points (F : functor) (constant : bool) (sp : sparsity) (xyl wg : list R) (f : nat) (sA : fem) (oA : op) (sB : fem) (oB : op)
    (XY0 XY1 XY2 XY3 : nat -> nat -> R) (w : work) (A : list R) : option (list R) :=
  do _ <- guard (nfa sA * nfa sB * f <=? length A)%nat;
  assemble F constant sp false (unit_measure f) (Nat.min (length xyl / 4) (length wg)) f sA oA sB oB XY0 XY1 XY2 XY3 xyl wg w A.

(** int_pnt.inl:111-132, 134-158, 207-226 fem3DpntX: points given by their coordinates, one element.  The view mem.XYL has 4 * q cells.
    Simplified: [assemble] prepares the geometry, from the same memory, once more *)
Definition sum_at (F : functor) (constant : bool) (sp : sparsity) (X wg : list R) (sA : fem) (oA : op) (sB : fem) (oB : op)
    (XY0 XY1 XY2 XY3 : list R) (w : work) (A : list R) : option (list R) :=
  let q := Nat.min (length X / 3) (length wg) in
  let at_ (l : list R) := fun i r : nat => nth i l 0 in
  do _ <- guard (nfa sA * nfa sB * 1 <=? length A)%nat;
  do g <- geom_init_tet 1 (at_ XY0) (at_ XY1) (at_ XY2) (at_ XY3) (w_geom w);
  do _ <- guard (4 * q <=? length (w_xyl w))%nat;
  do xyl <- bary_coord_psi XY0 X (firstn (4 * q) (w_xyl w)) (g_psi g);
  assemble F constant sp false (unit_measure 1) q 1 sA oA sB oB (at_ XY0) (at_ XY1) (at_ XY2) (at_ XY3) xyl wg w A.

(** fem_memory.h:223-261 MemoryLegacy<ScalarType, FUSION, 24>: the memory on the stack, with any contents *)
Definition on_stack (fusion : nat) (w : work) : Prop :=
  (length (w_u w) = 9 * 24 * 30 * fusion /\ length (w_v w) = 9 * 24 * 30 * fusion /\ length (w_du w) = 9 * 24 * 30 * fusion /\ length (w_diff w) = 9 * 24 * 30 * fusion /\
   length (w_ex w) = 3 * 20 * 24 * fusion /\ length (w_xyg w) = 3 * 24 * fusion /\ length (w_xyl w) = 4 * 24 /\ length (w_wg w) = 24 /\
   length (g_xyp (w_geom w)) = 12 * fusion /\ length (g_psi (w_geom w)) = 9 * fusion /\ length (w_nrm w) = 3 * fusion /\ length (g_det (w_geom w)) = fusion /\ length (g_mes (w_geom w)) = fusion)%nat.
(** The orders these functions accept: int_tet.inl:100, int_face.inl:21, 59, int_edge.inl:11 *)
Definition stack_order (reg : region) : Z := match reg with Tet => 6 | Face _ | FaceN _ => 9 | Edge _ => 20 | Node _ => 0 end%Z.
