(** Small geometry: fem/geometry.h:24-194 and the geometric part of
    fem/operations/core.inl:94-137, 217-268.  Doubles are reals; memory is a list of reals,
    a pointer is an offset into it. *)
From Verif Require Import Prelude RSum.
Local Open Scope R_scope.

Definition ent3 (m : list R) (mo i j : nat) : option R := rd m (mo + (i + 3 * j)).
(** geometry.h:25-45 inverse3x3: matrix at m + mo, result at inv + io (another array) *)
Definition inverse3x3 (m : list R) (mo : nat) (inv : list R) (io : nat) : option (R * list R) :=
  do m00 <- ent3 m mo 0 0; do m01 <- ent3 m mo 0 1; do m02 <- ent3 m mo 0 2;
  do m10 <- ent3 m mo 1 0; do m11 <- ent3 m mo 1 1; do m12 <- ent3 m mo 1 2;
  do m20 <- ent3 m mo 2 0; do m21 <- ent3 m mo 2 1; do m22 <- ent3 m mo 2 2;
  let da := m11 * m22 - m12 * m21 in
  let db := m12 * m20 - m10 * m22 in
  let dc := m10 * m21 - m11 * m20 in
  let det := m00 * da + m01 * db + m02 * dc in
  do inv <- wr inv (io + 0) (da / det);
  do inv <- wr inv (io + 1) (db / det);
  do inv <- wr inv (io + 2) (dc / det);
  do inv <- for_range 1 2 (fun i inv => for_ 3 (fun j inv =>
      do a <- ent3 m mo ((i + 1) mod 3) ((j + 1) mod 3); do b <- ent3 m mo ((i + 2) mod 3) ((j + 2) mod 3);
      do c <- ent3 m mo ((i + 1) mod 3) ((j + 2) mod 3); do d <- ent3 m mo ((i + 2) mod 3) ((j + 1) mod 3);
      wr inv (io + (j + 3 * i)) ((a * b - c * d) / det)) inv) inv;
  Some (det, inv).

(** Points are triples. *)
Definition vec : Type := R * R * R.
Definition vsub (p q : vec) : vec := let '(a, b, c) := p in let '(x, y, z) := q in (a - x, b - y, c - z).
(* geometry.h:49-53 *)
Definition cross (a b : vec) : vec :=
  let '(a0, a1, a2) := a in let '(b0, b1, b2) := b in
  (a1 * b2 - a2 * b1, - a0 * b2 + a2 * b0, a0 * b1 - a1 * b0).
(* geometry.h:57-63 *)
Definition cross3 (p0 p1 p2 : vec) : vec := cross (vsub p0 p2) (vsub p1 p2).
Definition sqlen (n : vec) : R := let '(a, b, c) := n in a * a + b * b + c * c.
Definition vdot (n a : vec) : R := let '(n0, n1, n2) := n in let '(a0, a1, a2) := a in n0 * a0 + n1 * a1 + n2 * a2.
(* geometry.h:67-72 *)
Definition tri_area (p0 p1 p2 : vec) : R := sqrt (sqlen (cross3 p0 p1 p2)) / 2.
(** geometry.h:77-93 face_normal: area and normal *)
Definition face_normal (p0 p1 p2 p3 : vec) : R * vec :=
  let '(n0, n1, n2) := cross (vsub p1 p0) (vsub p2 p0) in
  let len := sqrt (n0 * n0 + n1 * n1 + n2 * n2) in
  let area := len / 2 in
  let vol := vdot (n0, n1, n2) (vsub p3 p0) in
  if Rlt_dec 0 vol then (area, (n0 / - len, n1 / - len, n2 / - len)) else (area, (n0 / len, n1 / len, n2 / len)).
(** geometry.h:154-158 *)
Definition centroid (x : nat -> vec) : vec :=
  let c (p : vec -> R) := (p (x 0%nat) + p (x 1%nat) + p (x 2%nat) + p (x 3%nat)) / 4 in
  (c (fun v => fst (fst v)), c (fun v => snd (fst v)), c (fun v => snd v)).
(** geometry.h:159-169 *)
Definition len2 (p q : vec) : R := sqlen (vsub q p).
Definition diameter (x : nat -> vec) : R :=
  sqrt (fold_left Rmax [len2 (x 0%nat) (x 2%nat); len2 (x 0%nat) (x 3%nat); len2 (x 1%nat) (x 2%nat); len2 (x 1%nat) (x 3%nat); len2 (x 2%nat) (x 3%nat)]
          (len2 (x 0%nat) (x 1%nat))).
(** geometry.h:172-183; the declaration at 175 does not compile (p1, p2, p3 are not
    pointers), the model is the evident meaning *)
Definition normal_direction (x : nat -> vec) (i : nat) : vec :=
  let p0 := x ((i + 1) mod 4)%nat in let p1 := x ((i + 2) mod 4)%nat in let p2 := x ((i + 3) mod 4)%nat in let p3 := x (i mod 4)%nat in
  let n := cross (vsub p1 p0) (vsub p2 p0) in
  let vol := vdot n (vsub p3 p0) in
  if Rlt_dec 0 vol then let '(a, b, c) := n in (- a, - b, - c) else n.
(** geometry.h:185-191 *)
Definition normal (x : nat -> vec) (i : nat) : vec :=
  snd (face_normal (x ((i + 1) mod 4)%nat) (x ((i + 2) mod 4)%nat) (x ((i + 3) mod 4)%nat) (x (i mod 4)%nat)).

(** core.inl:94-118 getBaryCoord, first overload.  XYL.SetZero clears the whole array. *)
Definition zero_all (l : list R) : list R := map (fun _ => 0) l.
Definition bary_coord (XY0 XY1 XY2 XY3 X XYL : list R) : option (list R) :=
  let r := (length X / 3)%nat in
  do _ <- guard (r <=? length XYL / 4)%nat;
  let T0 := repeat 0 9 in
  do T <- for_ 3 (fun i T => do a <- rd XY0 i; do b <- rd XY3 i; wr T (i + 3 * 0) (a - b)) T0;
  do T <- for_ 3 (fun i T => do a <- rd XY1 i; do b <- rd XY3 i; wr T (i + 3 * 1) (a - b)) T;
  do T <- for_ 3 (fun i T => do a <- rd XY2 i; do b <- rd XY3 i; wr T (i + 3 * 2) (a - b)) T;
  do dT <- inverse3x3 T 0 (repeat 0 9) 0;
  let Tinv := snd dT in
  for_ r (fun n XYL =>
    do dr <- for_ 3 (fun i dr => do a <- rd X (i + n * 3); do b <- rd XY3 i; wr dr i (a - b)) (repeat 0 3);
    do XYL <- for_ 3 (fun j XYL => for_ 3 (fun i XYL =>
        do t <- rd Tinv (i + 3 * j); do d <- rd dr j; do y <- rd XYL (4 * n + i); wr XYL (4 * n + i) (y + t * d)) XYL) XYL;
    do XYL <- wr XYL (4 * n + 3) 1;
    for_ 3 (fun i XYL => do y <- rd XYL (4 * n + 3); do x <- rd XYL (4 * n + i); wr XYL (4 * n + 3) (y - x)) XYL) (zero_all XYL).
(** core.inl:120-137, second overload, with the inverse map PSI prepared *)
Definition bary_coord_psi (XY0 X XYL PSI : list R) : option (list R) :=
  for_ (length X / 3)%nat (fun n XYL =>
    do dr <- for_ 3 (fun i dr => do a <- rd X (i + 3 * n); do b <- rd XY0 i; wr dr i (a - b)) (repeat 0 3);
    do XYL <- for_ 3 (fun j XYL => for_ 3 (fun i XYL =>
        do t <- rd PSI (i + 3 * j); do d <- rd dr j; do y <- rd XYL (4 * n + i + 1); wr XYL (4 * n + i + 1) (y + t * d)) XYL) XYL;
    do XYL <- wr XYL (4 * n + 0) 1;
    for_ 3 (fun i XYL => do y <- rd XYL (4 * n + 0); do x <- rd XYL (4 * n + i + 1); wr XYL (4 * n + 0) (y - x)) XYL) (zero_all XYL).

(** core.inl:217-249 internalFem3DtetGeomInit_Tet for f tetrahedra; XYk i r are the
    coordinates of vertex k of tetrahedron r *)
Record geom := Geom { g_xyp : list R; g_psi : list R; g_det : list R; g_mes : list R }.
Definition geom_init_tet (f : nat) (XY0 XY1 XY2 XY3 : nat -> nat -> R) (g : geom) : option geom :=
  for_ f (fun r g =>
    let xyp := g_xyp g in
    do xyp <- for_ 3 (fun i xyp => wr xyp (i + 12 * r) 0) xyp;
    do xyp <- for_ 3 (fun i xyp => wr xyp (i + 3 + 12 * r) (XY1 i r - XY0 i r)) xyp;
    do xyp <- for_ 3 (fun i xyp => wr xyp (i + 6 + 12 * r) (XY2 i r - XY0 i r)) xyp;
    do xyp <- for_ 3 (fun i xyp => wr xyp (i + 9 + 12 * r) (XY3 i r - XY0 i r)) xyp;
    do dp <- inverse3x3 xyp (3 + 12 * r) (g_psi g) (9 * r);
    do det <- wr (g_det g) r (fst dp);
    do mes <- wr (g_mes g) r (Rabs (fst dp) / 6);
    Some (Geom xyp (snd dp) det mes)) g.
(** core.inl:251-268 internalFem3DtetGeomInit_XYG *)
Definition geom_init_xyg (q f : nat) (XY0 : nat -> nat -> R) (xyl xyp xyg : list R) : option (list R) :=
  for_ f (fun r xyg => for_ q (fun n xyg => for_ 3 (fun k xyg =>
    do s <- for_ 3 (fun l s => do a <- rd xyl (l + 1 + 4 * n); do b <- rd xyp (k + 3 * (l + 1) + 12 * r); Some (s + a * b)) (XY0 k r);
    wr xyg (k + 3 * (n + q * r)) s) xyg) xyg) xyg.
