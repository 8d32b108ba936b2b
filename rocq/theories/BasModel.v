(** The library spaces: fem/spaces/{poly_0,poly_1,poly_2,poly_3,bubble_2,bubble_4,
    crouzeix_raviart_1,raviant_thomas_0,nedelec_0}.h, OperatorDUDXHelper and DOF_coord of
    fem/operators.h:286-317, 720-880.
    Doubles are reals.  The memory U of an operator and the work memory extraR are two arrays;
    [None] is an access out of range, a failed assertion or a thrown exception.  The extra bounds
    checks of DenseMatrix are not modelled. *)
From Verif Require Import Prelude RSum GeoModel SpModel.
Local Open Scope R_scope.

Inductive fem : Type := P0 | P1 | P2 | P3 | B2 | B4 | CR1 | RT0 | ND0.
(** Operator<IDEN, FemFix<..>>::Dim and ::Nfa *)
Definition fdim (s : fem) : nat := match s with RT0 | ND0 => 3 | _ => 1 end.
Definition nfa (s : fem) : nat :=
  match s with P0 | B4 => 1 | P1 | CR1 | RT0 => 4 | P2 => 10 | P3 => 20 | B2 | ND0 => 6 end.

(** AniMemory: barycentric coordinates of the points, inverse maps, vertices, determinants *)
Record geo : Type := Geo { XYL : list R; PSI : list R; XYP : list R; DET : list R }.

(** Tables of the headers *)
Definition eI : list nat := [0; 0; 0; 1; 1; 2]%nat.
Definition eJ : list nat := [1; 2; 3; 2; 3; 3]%nat.
Definition IPF : list nat := [0; 1; 2; 3; 1; 2; 3; 0; 0; 2; 3; 1; 0; 1; 3; 2]%nat.
Definition IPF3 : list nat := [3; 0; 1; 2]%nat.
Definition IPR : list nat := [0; 1; 2; 3; 0; 2; 3; 1; 0; 3; 1; 2; 1; 2; 0; 3; 1; 3; 2; 0; 2; 3; 0; 1]%nat.
Definition GRAD_P1 : list R := [-1; -1; -1; 1; 0; 0; 0; 1; 0; 0; 0; 1].
Definition fill_n (n : nat) (v : R) (U : list R) : option (list R) := for_ n (fun p U => wr U p v) U.
(** std::copy(U, U + n, U + n r) for r = 1 .. f - 1 *)
Definition copy_blocks (f n : nat) (U : list R) : option (list R) :=
  for_range 1 (f - 1) (fun r U => for_ n (fun p U => do v <- rd U p; wr U (n * r + p) v) U) U.
(** U(n, i + r nfa) = U(n, i) for r = 1 .. f - 1 *)
Definition copy_cells (f q nf : nat) (U : list R) : option (list R) :=
  for_range 1 (f - 1) (fun r U => for_ nf (fun i U => for_ q (fun n U => do v <- rd U (n + q * i); wr U (n + q * (i + r * nf)) v) U) U) U.
Definition room (f q d nf : nat) (U : list R) : option unit := guard (d * q * (nf * f) <=? length U)%nat.

(** *** IDEN *)
(** poly_0.h:75-81 *)
Definition iden_p0 (f q : nat) (U : list R) : option (list R) := do _ <- room f q 1 1 U; fill_n (q * f) 1 U.
(** poly_1.h:25-39 *)
Definition iden_p1 (f q : nat) (g : geo) (U : list R) : option (list R) :=
  do _ <- room f q 1 4 U;
  do U <- for_ 4 (fun i U => for_ q (fun n U => do l <- rd (XYL g) (i + 4 * n); wr U (n + q * i) l) U) U;
  copy_blocks f (4 * q) U.
(** poly_2.h:25-48 *)
Definition iden_p2 (f q : nat) (g : geo) (U : list R) : option (list R) :=
  do _ <- room f q 1 10 U;
  do U <- for_ 4 (fun i U => for_ q (fun n U => do l <- rd (XYL g) (i + 4 * n); wr U (n + q * i) (l * (2 * l - 1))) U) U;
  do U <- for_range 4 6 (fun i U => for_ q (fun n U =>
            do a <- rd eI (i - 4); do b <- rd eJ (i - 4); do s1 <- rd (XYL g) (a + 4 * n); do s2 <- rd (XYL g) (b + 4 * n);
            wr U (n + q * i) (4 * s1 * s2)) U) U;
  copy_cells f q 10 U.
(** poly_3.h:24-54 *)
Definition iden_p3 (f q : nat) (g : geo) (U : list R) : option (list R) :=
  do _ <- room f q 1 20 U;
  do U <- for_ 4 (fun i U => for_ q (fun n U => do l <- rd (XYL g) (i + 4 * n); wr U (n + q * i) (l * (3 * l - 1) * (3 * l - 2) / 2)) U) U;
  do U <- for_range 4 6 (fun i U => for_ q (fun n U =>
            do a <- rd eI (i - 4); do b <- rd eJ (i - 4); do s1 <- rd (XYL g) (a + 4 * n); do s2 <- rd (XYL g) (b + 4 * n);
            do U <- wr U (n + q * (4 + (i - 4) * 2)) (s1 * (3 * s1 - 1) * s2 * (9 / 2));
            wr U (n + q * (4 + (i - 4) * 2 + 1)) (s1 * (3 * s2 - 1) * s2 * (9 / 2))) U) U;
  do U <- for_range 16 4 (fun i U => for_ q (fun n U =>
            do a <- rd IPF (0 + 4 * (i - 16)); do b <- rd IPF (1 + 4 * (i - 16)); do c <- rd IPF (2 + 4 * (i - 16));
            do s1 <- rd (XYL g) (a + 4 * n); do s2 <- rd (XYL g) (b + 4 * n); do s3 <- rd (XYL g) (c + 4 * n);
            wr U (n + q * i) (27 * s1 * s2 * s3)) U) U;
  copy_cells f q 20 U.
(** bubble_2.h:25-45 *)
Definition iden_b2 (f q : nat) (g : geo) (U : list R) : option (list R) :=
  do _ <- room f q 1 6 U;
  do U <- for_ 6 (fun i U => for_ q (fun n U =>
            do a <- rd eI i; do b <- rd eJ i; do s1 <- rd (XYL g) (a + 4 * n); do s2 <- rd (XYL g) (b + 4 * n);
            wr U (n + q * i) (4 * s1 * s2)) U) U;
  copy_cells f q 6 U.
(** bubble_4.h:24-37 *)
Definition iden_b4 (f q : nat) (g : geo) (U : list R) : option (list R) :=
  do _ <- room f q 1 1 U;
  do U <- for_ q (fun n U =>
            do a <- rd (XYL g) (0 + 4 * n); do b <- rd (XYL g) (1 + 4 * n); do c <- rd (XYL g) (2 + 4 * n); do d <- rd (XYL g) (3 + 4 * n);
            wr U n (256 * a * b * c * d)) U;
  copy_blocks f q U.
(** crouzeix_raviart_1.h:26-42 *)
Definition iden_cr1 (f q : nat) (g : geo) (U : list R) : option (list R) :=
  do _ <- room f q 1 4 U;
  do U <- for_ 4 (fun i U => for_ q (fun n U => do a <- rd IPF3 i; do l <- rd (XYL g) (a + 4 * n); wr U (n + q * i) (1 - 3 * l)) U) U;
  copy_blocks f (4 * q) U.
(** column k of the vertices of element r *)
Definition vtx (g : geo) (r k : nat) : option vec :=
  do a <- rd (XYP g) (12 * r + 3 * k); do b <- rd (XYP g) (12 * r + 3 * k + 1); do c <- rd (XYP g) (12 * r + 3 * k + 2); Some (a, b, c).
Definition comp (v : vec) (j : nat) : R := let '(a, b, c) := v in match j with 0%nat => a | 1%nat => b | _ => c end.
(** rows of IPF or IPR *)
Definition row4 (t : list nat) (i : nat) : option (nat * nat * nat * nat) :=
  do a <- rd t (4 * i); do b <- rd t (4 * i + 1); do c <- rd t (4 * i + 2); do d <- rd t (4 * i + 3); Some (a, b, c, d).
(** raviant_thomas_0.h:24-51 *)
Definition iden_rt0 (f q : nat) (g : geo) (U : list R) : option (list R) :=
  do _ <- room f q 3 4 U;
  for_ f (fun r U =>
    do det <- rd (DET g) r;
    let vol := Rabs det / 2 in
    for_ 4 (fun i U =>
      do (i0, i1, i2, i3) <- row4 IPF i;
      do x0 <- vtx g r i0; do x1 <- vtx g r i1; do x2 <- vtx g r i2; do x3 <- vtx g r i3;
      let sqr := tri_area x0 x1 x2 / vol in
      for_ q (fun n U => for_ 3 (fun j U =>
        do l0 <- rd (XYL g) (i0 + 4 * n); do l1 <- rd (XYL g) (i1 + 4 * n); do l2 <- rd (XYL g) (i2 + 4 * n);
        wr U (j + 3 * n + 3 * q * (i + 4 * r))
          (sqr * (l0 * (comp x0 j - comp x3 j) + l1 * (comp x1 j - comp x3 j) + l2 * (comp x2 j - comp x3 j)))) U) U) U) U.
(** nedelec_0.h:25-58; [edge_len]: 42-47 *)
Definition edge_len (x y : vec) : R := sqrt (sqlen (vsub x y)).
Definition iden_nd0 (f q : nat) (g : geo) (U : list R) : option (list R) :=
  do _ <- room f q 3 6 U;
  for_ f (fun r U =>
    do vol <- rd (DET g) r;
    for_ 6 (fun i U =>
      do (i0, i1, i2, i3) <- row4 IPR i;
      do x0 <- vtx g r i0; do x1 <- vtx g r i1; do x2 <- vtx g r i2; do x3 <- vtx g r i3;
      let sqr := edge_len x0 x1 / vol in
      let xyn := cross3 x2 x3 x0 in let xym := cross3 x2 x3 x1 in
      for_ q (fun n U => for_ 3 (fun k U =>
        do l0 <- rd (XYL g) (i0 + 4 * n); do l1 <- rd (XYL g) (i1 + 4 * n);
        wr U (3 * q * 6 * r + (k + 3 * n + 3 * q * i)) (sqr * (comp xyn k * l0 + comp xym k * l1))) U) U) U) U.

(** *** GRAD *)
(** poly_0.h:24-30 *)
Definition grad_p0 (f q : nat) (U : list R) : option (list R) := do _ <- room f q 3 1 U; fill_n (3 * q * (1 * f)) 0 U.
(** the array s of poly_1.h:64-76 and 111-123 *)
Definition p1_s (g : geo) (r : nat) : option (list R) :=
  let l j k := rd (PSI g) (9 * r + (j + 3 * k)) in
  do a00 <- (l 0 0)%nat; do a10 <- (l 1 0)%nat; do a20 <- (l 2 0)%nat; do a01 <- (l 0 1)%nat; do a11 <- (l 1 1)%nat; do a21 <- (l 2 1)%nat; do a02 <- (l 0 2)%nat; do a12 <- (l 1 2)%nat; do a22 <- (l 2 2)%nat;
  Some [- a00 - a10 - a20; - a01 - a11 - a21; - a02 - a12 - a22; a00; a01; a02; a10; a11; a12; a20; a21; a22].
(** poly_1.h:104-131 *)
Definition grad_p1 (f q : nat) (g : geo) (U : list R) : option (list R) :=
  do _ <- room f q 3 4 U;
  for_ f (fun r U => do s <- p1_s g r;
    for_ 4 (fun i U => for_ q (fun n U => for_ 3 (fun k U => do v <- rd s (k + 3 * i); wr U (k + 3 * (n + q * (i + 4 * r))) v) U) U) U) U.
(** The last loop of poly_2.h:89-97, poly_3.h:107-115, bubble_2.h:81-89, bubble_4.h:76-83 (nf = 1) *)
Definition push_grad (f q nf : nat) (g : geo) (E U : list R) : option (list R) :=
  for_ f (fun r U => for_ nf (fun i U => for_ q (fun n U => for_ 3 (fun k U =>
    do s <- for_ 3 (fun j s => do a <- rd (PSI g) (j + 3 * (k + 3 * r)); do b <- rd E (j + 3 * (i + nf * n)); Some (s + a * b)) 0;
    wr U (k + 3 * (n + q * (i + nf * r))) s) U) U) U) U.
(** poly_2.h:75-88 *)
Definition ref_p2 (q : nat) (g : geo) (E : list R) : option (list R) :=
  for_ q (fun n E =>
    do E <- for_ 4 (fun i E => do s1 <- rd (XYL g) (i + 4 * n);
              for_ 3 (fun d E => do a <- rd GRAD_P1 (d + 3 * i); wr E (d + 3 * (i + 10 * n)) (a * (4 * s1 - 1))) E) E;
    for_range 4 6 (fun i E => do a <- rd eI (i - 4); do b <- rd eJ (i - 4); do s1 <- rd (XYL g) (a + 4 * n); do s2 <- rd (XYL g) (b + 4 * n);
              for_ 3 (fun d E => do u <- rd GRAD_P1 (d + 3 * b); do v <- rd GRAD_P1 (d + 3 * a);
                        wr E (d + 3 * (i + 10 * n)) (4 * (u * s1 + v * s2))) E) E) E.
(** poly_3.h:82-106 (only the first six entries of I and J are read) *)
Definition ref_p3 (q : nat) (g : geo) (E : list R) : option (list R) :=
  for_ q (fun n E =>
    do E <- for_ 4 (fun i E => do s1 <- rd (XYL g) (i + 4 * n);
              for_ 3 (fun d E => do a <- rd GRAD_P1 (d + 3 * i); wr E (d + 3 * (i + 20 * n)) (a * ((27 / 2 * s1 - 9) * s1 + 1))) E) E;
    do E <- for_range 4 6 (fun i E => do a <- rd eI (i - 4); do b <- rd eJ (i - 4); do s1 <- rd (XYL g) (a + 4 * n); do s2 <- rd (XYL g) (b + 4 * n);
              for_ 3 (fun d E => do u <- rd GRAD_P1 (d + 3 * a); do v <- rd GRAD_P1 (d + 3 * b);
                        do E <- wr E (d + 3 * (4 + (i - 4) * 2 + 20 * n)) ((u * (6 * s1 - 1) * s2 + v * (3 * s1 - 1) * s1) * (9 / 2));
                        wr E (d + 3 * (4 + (i - 4) * 2 + 1 + 20 * n)) ((v * (6 * s2 - 1) * s1 + u * (3 * s2 - 1) * s2) * (9 / 2))) E) E;
    for_range 16 4 (fun i E => do a <- rd IPF (4 * (i - 16)); do b <- rd IPF (1 + 4 * (i - 16)); do c <- rd IPF (2 + 4 * (i - 16));
              do s1 <- rd (XYL g) (a + 4 * n); do s2 <- rd (XYL g) (b + 4 * n); do s3 <- rd (XYL g) (c + 4 * n);
              for_ 3 (fun d E => do u <- rd GRAD_P1 (d + 3 * a); do v <- rd GRAD_P1 (d + 3 * b); do w <- rd GRAD_P1 (d + 3 * c);
                        wr E (d + 3 * (i + 20 * n)) (27 * (u * s2 * s3 + s1 * v * s3 + s1 * s2 * w))) E) E) E.
(** bubble_2.h:72-80 *)
Definition ref_b2 (q : nat) (g : geo) (E : list R) : option (list R) :=
  for_ q (fun n E =>
    for_ 6 (fun i E => do a <- rd eI i; do b <- rd eJ i; do s1 <- rd (XYL g) (a + 4 * n); do s2 <- rd (XYL g) (b + 4 * n);
              for_ 3 (fun d E => do u <- rd GRAD_P1 (d + 3 * b); do v <- rd GRAD_P1 (d + 3 * a);
                        wr E (d + 3 * (i + 6 * n)) (4 * (u * s1 + v * s2))) E) E) E.
(** bubble_4.h:63-75 *)
Definition ref_b4 (q : nat) (g : geo) (E : list R) : option (list R) :=
  for_ q (fun n E =>
    do a <- rd (XYL g) (0 + 4 * n); do b <- rd (XYL g) (1 + 4 * n); do c <- rd (XYL g) (2 + 4 * n); do d <- rd (XYL g) (3 + 4 * n);
    for_ 3 (fun k E => do u0 <- rd GRAD_P1 (k + 3 * 0); do u1 <- rd GRAD_P1 (k + 3 * 1); do u2 <- rd GRAD_P1 (k + 3 * 2); do u3 <- rd GRAD_P1 (k + 3 * 3);
              wr E (k + 3 * n) (256 * (u0 * (b * c * d) + u1 * (a * c * d) + u2 * (a * b * d) + u3 * (a * b * c)))) E) E.
Definition grad_ref (nf : nat) (ref : nat -> geo -> list R -> option (list R)) (f q : nat) (g : geo) (U E : list R) : option (list R * list R) :=
  do _ <- room f q 3 nf U; do _ <- guard (3 * nf * q <=? length E)%nat;
  do E <- ref q g E; do U <- push_grad f q nf g E U; Some (U, E).
(** crouzeix_raviart_1.h:59-85 *)
Definition grad_cr1 (f q : nat) (g : geo) (U : list R) : option (list R) :=
  do _ <- room f q 3 4 U;
  for_ f (fun r U => for_ 4 (fun i U =>
    do U <- for_ 3 (fun k U =>
      do a <- rd IPF3 i;
      do s <- for_ 3 (fun j s => do p <- rd (PSI g) (j + 3 * (k + 3 * r)); do u <- rd GRAD_P1 (j + 3 * a); Some (s + p * u)) 0;
      wr U (k + 3 * q * (i + 4 * r)) (-3 * s)) U;
    for_range 1 (q - 1) (fun n U => for_ 3 (fun k U => do v <- rd U (k + 3 * q * (i + 4 * r)); wr U (k + 3 * n + 3 * q * (i + 4 * r)) v) U) U) U) U.
(** the array V of raviant_thomas_0.h:80-93, 141-154 and nedelec_0.h:108-121: V(j, i) at j + 4 i *)
Definition grad_lam (g : geo) (r : nat) : option (list R) :=
  for_ 3 (fun i V => for_ 4 (fun j V =>
    do s <- for_ 3 (fun k s => do u <- rd GRAD_P1 (k + 3 * j); do p <- rd (PSI g) (9 * r + (k + 3 * i)); Some (s + u * p)) 0;
    wr V (j + 4 * i) s) V) (repeat 0 12).
(** raviant_thomas_0.h:68-113 *)
Definition grad_rt0 (f q : nat) (g : geo) (U : list R) : option (list R) :=
  do _ <- room f q 9 4 U;
  do U <- fill_n (9 * q * (4 * f)) 0 U;
  for_ f (fun r U =>
    do V <- grad_lam g r;
    do det <- rd (DET g) r;
    let vol := Rabs det / 2 in
    do U <- for_ 4 (fun i U =>
      do (i0, i1, i2, i3) <- row4 IPF i;
      do x0 <- vtx g r i0; do x1 <- vtx g r i1; do x2 <- vtx g r i2; do x3 <- vtx g r i3;
      let sqr := tri_area x0 x1 x2 / vol in
      for_ 3 (fun j U => for_ 3 (fun k U =>
        do v0 <- rd V (i0 + 4 * k); do v1 <- rd V (i1 + 4 * k); do v2 <- rd V (i2 + 4 * k);
        wr U (k + 3 * j + 9 * q * (i + 4 * r))
          (sqr * (v0 * (comp x0 j - comp x3 j) + v1 * (comp x1 j - comp x3 j) + v2 * (comp x2 j - comp x3 j)))) U) U) U;
    for_range 1 (q - 1) (fun n U => for_ 4 (fun i U => for_ 9 (fun l U =>
      do v <- rd U (l + 9 * q * (i + 4 * r)); wr U (l + 9 * n + 9 * q * (i + 4 * r)) v) U) U) U) U.
(** nedelec_0.h:96-146 CURL, result at offset o of U *)
Definition curl_nd0 (f q : nat) (g : geo) (o : nat) (U : list R) : option (list R) :=
  for_ f (fun r U =>
    do V <- grad_lam g r;
    do vol <- rd (DET g) r;
    for_ 6 (fun i U =>
      do (i0, i1, i2, i3) <- row4 IPR i;
      do x0 <- vtx g r i0; do x1 <- vtx g r i1; do x2 <- vtx g r i2; do x3 <- vtx g r i3;
      let sqr := edge_len x0 x1 / vol in
      let xyn := cross3 x2 x3 x0 in let xym := cross3 x2 x3 x1 in
      do U <- for_ 3 (fun k U =>
        do a <- rd V (i0 + 4 * ((k + 1) mod 3)); do b <- rd V (i1 + 4 * ((k + 1) mod 3));
        do c <- rd V (i0 + 4 * ((k + 2) mod 3)); do d <- rd V (i1 + 4 * ((k + 2) mod 3));
        wr U (o + (3 * q * 6 * r + (k + 3 * 0 + 3 * q * i)))
          (sqr * ((a * comp xyn ((k + 2) mod 3) + b * comp xym ((k + 2) mod 3)) - (c * comp xyn ((k + 1) mod 3) + d * comp xym ((k + 1) mod 3))))) U;
      for_range 1 (q - 1) (fun n U => for_ 3 (fun k U =>
        do v <- rd U (o + (3 * q * 6 * r + (k + 3 * 0 + 3 * q * i))); wr U (o + (3 * q * 6 * r + (k + 3 * n + 3 * q * i))) v) U) U) U) U.
(** nedelec_0.h:161-181 *)
Definition grad_nd0 (f q : nat) (g : geo) (U : list R) : option (list R) :=
  let wsz := (9 * q * (6 * f))%nat in let csz := (q * 6 * f * 3)%nat in
  do _ <- room f q 9 6 U;
  do U <- curl_nd0 f q g (wsz - csz) U;
  for_ f (fun r U => for_ 6 (fun i U => for_ q (fun n U =>
    do c0 <- rd U (wsz - csz + 0 + n * 3 + q * 3 * (i + 6 * r));
    do c1 <- rd U (wsz - csz + 1 + n * 3 + q * 3 * (i + 6 * r));
    do c2 <- rd U (wsz - csz + 2 + n * 3 + q * 3 * (i + 6 * r));
    let a0 := c0 / 2 in let a1 := c1 / 2 in let a2 := c2 / 2 in
    let o := (9 * (n + q * (i + r * 6)))%nat in
    do U <- wr U (o + 0) 0; do U <- wr U (o + 3) a2; do U <- wr U (o + 6) (- a1);
    do U <- wr U (o + 1) (- a2); do U <- wr U (o + 4) 0; do U <- wr U (o + 7) a0;
    do U <- wr U (o + 2) a1; do U <- wr U (o + 5) (- a0); wr U (o + 8) 0) U) U) U.

(** *** DIV, CURL *)
(** raviant_thomas_0.h:130-173 *)
Definition div_rt0 (f q : nat) (g : geo) (U : list R) : option (list R) :=
  do _ <- room f q 1 4 U;
  for_ f (fun r U =>
    do V <- grad_lam g r;
    do det <- rd (DET g) r;
    let vol := Rabs det / 2 in
    for_ 4 (fun i U =>
      do (i0, i1, i2, i3) <- row4 IPF i;
      do x0 <- vtx g r i0; do x1 <- vtx g r i1; do x2 <- vtx g r i2; do x3 <- vtx g r i3;
      let sqr := tri_area x0 x1 x2 / vol in
      do s <- for_ 3 (fun j s => do v0 <- rd V (i0 + 4 * j); do v1 <- rd V (i1 + 4 * j); do v2 <- rd V (i2 + 4 * j);
                Some (s + (v0 * (comp x0 j - comp x3 j) + v1 * (comp x1 j - comp x3 j) + v2 * (comp x2 j - comp x3 j)))) 0;
      do U <- wr U (0 + q * (i + 4 * r)) (sqr * s);
      for_range 1 (q - 1) (fun n U => do v <- rd U (0 + q * (i + 4 * r)); wr U (n + q * (i + 4 * r)) v) U) U) U.

(** *** DUDX *)
(** poly_0.h:48-54 *)
Definition dudx_p0 (f q : nat) (U : list R) : option (list R) := do _ <- room f q 1 1 U; fill_n (1 * q * (1 * f)) 0 U.
(** poly_1.h:57-83 *)
Definition dudx_p1 (x f q : nat) (g : geo) (U : list R) : option (list R) :=
  do _ <- room f q 1 4 U;
  for_ f (fun r U => do s <- p1_s g r;
    for_ 4 (fun i U => for_ q (fun n U => do v <- rd s (x + 3 * i); wr U (n + q * (i + 4 * r)) v) U) U) U.
(** operators.h:300-310 OperatorDUDXHelper after GRAD; d is the dimension of the functions *)
Definition compress (x d f q nf : nat) (U : list R) : option (list R) :=
  for_ f (fun r U => for_ nf (fun i U => for_ q (fun n U => for_ d (fun k U =>
    do v <- rd U (x + 3 * k + n * (3 * d) + 3 * d * q * (i + nf * r)); wr U (k + n * d + q * d * (i + nf * r)) v) U) U) U) U.

(** *** Dispatch: Operator<OP, FemFix<..>>::memoryRequirements and ::apply *)
Definition odims (s : fem) (o : op) : nat := dim_op o (fdim s).
(** operators that exist for the space (GenSpace::InternalOp rejects DIV and CURL of scalar spaces) *)
Definition has_op (s : fem) (o : op) : bool :=
  match o with DIV | CURL => (fdim s =? 3)%nat | DUDX x => (x <? 3)%nat | _ => true end.
Definition usize (s : fem) (o : op) (f q : nat) : nat :=
  match o with
  | DUDX _ => match s with P0 | P1 => fdim s * q * (nfa s * f) | _ => 3 * fdim s * q * (nfa s * f) end
  | _ => odims s o * q * (nfa s * f)
  end%nat.
Definition esize (s : fem) (o : op) (q : nat) : nat :=
  match o with
  | GRAD | DUDX _ => match s with P2 => 3 * 10 * q | P3 => 3 * 20 * q | B2 => 3 * 6 * q | B4 => 3 * q | _ => 0 end
  | _ => 0
  end%nat.
Definition keepE (E : list R) (x : option (list R)) : option (list R * list R) := do U <- x; Some (U, E).
Definition iden (s : fem) (f q : nat) (g : geo) (U : list R) : option (list R) :=
  match s with
  | P0 => iden_p0 f q U | P1 => iden_p1 f q g U | P2 => iden_p2 f q g U | P3 => iden_p3 f q g U
  | B2 => iden_b2 f q g U | B4 => iden_b4 f q g U | CR1 => iden_cr1 f q g U | RT0 => iden_rt0 f q g U | ND0 => iden_nd0 f q g U
  end.
Definition grad (s : fem) (f q : nat) (g : geo) (U E : list R) : option (list R * list R) :=
  match s with
  | P0 => keepE E (grad_p0 f q U) | P1 => keepE E (grad_p1 f q g U)
  | P2 => grad_ref 10 ref_p2 f q g U E | P3 => grad_ref 20 ref_p3 f q g U E
  | B2 => grad_ref 6 ref_b2 f q g U E | B4 => grad_ref 1 ref_b4 f q g U E
  | CR1 => keepE E (grad_cr1 f q g U) | RT0 => keepE E (grad_rt0 f q g U) | ND0 => keepE E (grad_nd0 f q g U)
  end.
Definition apply_op (s : fem) (o : op) (f q : nat) (g : geo) (U E : list R) : option (list R * list R) :=
  match o with
  | IDEN => keepE E (iden s f q g U)
  | GRAD => grad s f q g U E
  | DIV =>
      match s with
      | RT0 => keepE E (div_rt0 f q g U)
      | ND0 => keepE E (do _ <- room f q 1 6 U; fill_n (1 * q * (6 * f)) 0 U)     (* nedelec_0.h:74-80 *)
      | _ => None
      end
  | CURL =>
      match s with
      | RT0 => keepE E (do _ <- room f q 3 4 U; fill_n (3 * q * (4 * f)) 0 U)     (* raviant_thomas_0.h:191-197 *)
      | ND0 => keepE E (do _ <- room f q 3 6 U; curl_nd0 f q g 0 U)
      | _ => None
      end
  | DUDX x =>
      do _ <- guard (x <? 3)%nat;
      match s with
      | P0 => keepE E (dudx_p0 f q U)
      | P1 => keepE E (dudx_p1 x f q g U)
      | _ => do (U, E) <- grad s f q g U E; keepE E (compress x (fdim s) f q (nfa s) U)
      end
  end.

(** *** Dof::interpolate *)
(** Quadrature formulas as lists of barycentric coordinates and weights *)
Definition formula : Type := list (list R * R).
(** The formulas that the interpolation uses for its max_quad_order *)
Record quads : Type := Quads { q_seg : formula; q_tri : formula; q_tet : formula }.
Definition vadd (a b : vec) : vec := let '(a0, a1, a2) := a in let '(b0, b1, b2) := b in (a0 + b0, a1 + b1, a2 + b2).
Definition vscal (t : R) (a : vec) : vec := let '(a0, a1, a2) := a in (t * a0, t * a1, t * a2).
Definition vdiv (a : vec) (t : R) : vec := let '(a0, a1, a2) := a in (a0 / t, a1 / t, a2 / t).
(** udofs[r][i] = v r for all r < fusion *)
Definition put (fusion i : nat) (v : nat -> R) (ud : list (list R)) : option (list (list R)) :=
  for_ fusion (fun r ud => do a <- rd ud r; do a <- wr a i (v r); wr ud r a) ud.
(** udofs[r][i] += v r *)
Definition add (fusion i : nat) (v : nat -> R) (ud : list (list R)) : option (list (list R)) :=
  for_ fusion (fun r ud => do a <- rd ud r; do y <- rd a i; do a <- wr a i (y + v r); wr ud r a) ud.
(** udofs[r][i] = 0, then one addition per point of the formula *)
Fixpoint quad_loop (fm : formula) (fusion i : nat) (v : list R -> R -> option (nat -> R)) (ud : list (list R)) : option (list (list R)) :=
  match fm with
  | [] => Some ud
  | (p, w) :: fm => do u <- v p w; do ud <- add fusion i u ud; quad_loop fm fusion i v ud
  end.
Definition quad_dof (fm : formula) (fusion i : nat) (v : list R -> R -> option (nat -> R)) (ud : list (list R)) : option (list (list R)) :=
  do ud <- put fusion i (fun _ => 0) ud; quad_loop fm fusion i v ud.
Definition bary2 (p : list R) (a b : vec) : option vec := do u <- rd p 0; do v <- rd p 1; Some (vadd (vscal u a) (vscal v b)).
Definition bary3 (p : list R) (a b c : vec) : option vec :=
  do u <- rd p 0; do v <- rd p 1; do w <- rd p 2; Some (vadd (vadd (vscal u a) (vscal v b)) (vscal w c)).
Definition bary4 (p : list R) (a b c d : vec) : option vec :=
  do u <- rd p 0; do v <- rd p 1; do w <- rd p 2; do z <- rd p 3; Some (vadd (vadd (vadd (vscal u a) (vscal v b)) (vscal w c)) (vscal z d)).
Definition mid (a b : vec) : vec := vdiv (vadd a b) 2.
(** lookup_nds *)
Definition lookup : list nat := [0; 1; 0; 2; 0; 3; 1; 2; 1; 3; 2; 3]%nat.
(** f X is what the user function writes for the point X: component c of function r at c + dim r *)
Definition interpolate (s : fem) (Q : quads) (x : nat -> vec) (F : vec -> nat -> R) (fusion i : nat) (ud : list (list R)) : option (list (list R)) :=
  match s with
  | P0 =>                                                          (* poly_0.h:90-106 *)
      do _ <- guard (i =? 0)%nat;
      quad_dof (q_tet Q) fusion 0 (fun p w => do X <- bary4 p (x 0%nat) (x 1%nat) (x 2%nat) (x 3%nat); Some (fun r => w * F X r)) ud
  | P1 =>                                                          (* poly_1.h:140-149 *)
      do _ <- guard (i <? 4)%nat; put fusion i (fun r => F (x i) r) ud
  | P2 =>                                                          (* poly_2.h:109-132 *)
      do _ <- guard (i <? 10)%nat;
      if (i <? 4)%nat then put fusion i (fun r => F (x i) r) ud
      else do a <- rd lookup (2 * (i - 4)); do b <- rd lookup (2 * (i - 4) + 1); put fusion i (fun r => F (mid (x a) (x b)) r) ud
  | P3 =>                                                          (* poly_3.h:127-161 *)
      do _ <- guard (i <? 20)%nat;
      if (i <? 4)%nat then put fusion i (fun r => F (x i) r) ud
      else if (i <? 16)%nat then
        let ie := ((i - 4) / 2)%nat in let ld := ((i - 4) mod 2)%nat in
        do a <- rd lookup (2 * ie); do b <- rd lookup (2 * ie + 1);
        do l <- wr [0; 0] ((ld + 0) mod 2) (2 / 3); do l <- wr l ((ld + 1) mod 2) (1 / 3);
        do l0 <- rd l 0; do l1 <- rd l 1;
        put fusion i (fun r => F (vadd (vscal l0 (x a)) (vscal l1 (x b))) r) ud
      else let fc := (i - 16)%nat in
        put fusion i (fun r => F (vdiv (vadd (vadd (x ((fc + 0) mod 4)%nat) (x ((fc + 1) mod 4)%nat)) (x ((fc + 2) mod 4)%nat)) 3) r) ud
  | B2 =>                                                          (* bubble_2.h:101-113 *)
      do _ <- guard (i <? 6)%nat;
      do a <- rd lookup (2 * i); do b <- rd lookup (2 * i + 1); put fusion i (fun r => F (mid (x a) (x b)) r) ud
  | B4 =>                                                          (* bubble_4.h:94-107 *)
      do _ <- guard (i <? 1)%nat;
      put fusion 0 (fun r => F (vdiv (vadd (vadd (vadd (x 0%nat) (x 1%nat)) (x 2%nat)) (x 3%nat)) 4) r) ud
  | CR1 =>                                                         (* crouzeix_raviart_1.h:94-110; the assertion admits i < 6 *)
      do _ <- guard (i <? 6)%nat;
      quad_dof (q_tri Q) fusion i (fun p w =>
        do X <- bary3 p (x ((i + 0) mod 4)%nat) (x ((i + 1) mod 4)%nat) (x ((i + 2) mod 4)%nat); Some (fun r => w * F X r)) ud
  | RT0 =>                                                         (* raviant_thomas_0.h:206-223 *)
      do _ <- guard (i <? 4)%nat;
      let n := snd (face_normal (x i) (x ((i + 1) mod 4)%nat) (x ((i + 2) mod 4)%nat) (x ((i + 3) mod 4)%nat)) in
      quad_dof (q_tri Q) fusion i (fun p w =>
        do X <- bary3 p (x ((i + 0) mod 4)%nat) (x ((i + 1) mod 4)%nat) (x ((i + 2) mod 4)%nat);
        Some (fun r => w * (F X (3 * r + 0)%nat * comp n 0 + F X (3 * r + 1)%nat * comp n 1 + F X (3 * r + 2)%nat * comp n 2))) ud
  | ND0 =>                                                         (* nedelec_0.h:190-216 *)
      do _ <- guard (i <? 6)%nat;
      do a <- rd lookup (2 * i); do b <- rd lookup (2 * i + 1);
      let t := vdiv (vsub (x b) (x a)) (sqrt (sqlen (vsub (x b) (x a)))) in
      quad_dof (q_seg Q) fusion i (fun p w =>
        do X <- bary2 p (x a) (x b);
        Some (fun r => w * (F X (3 * r + 0)%nat * comp t 0 + F X (3 * r + 1)%nat * comp t 1 + F X (3 * r + 2)%nat * comp t 2))) ud
  end.

(** *** DOF_coord::at, operators.h:722-816: nodes has the coordinates of the four vertices,
    coord is the output; [None] also stands for "unimplemented" *)
Definition b2n (b : bool) : nat := if b then 1%nat else 0%nat.
Definition dof_coord (s : fem) (odf : nat) (nodes coord : list R) : option (list R) :=
  let copy3 o c := for_ 3 (fun k c => do v <- rd nodes (o + k); wr c k v) c in
  match s with
  | P0 =>                                                          (* 730-740 *)
      do _ <- guard (odf =? 0)%nat;
      do c <- for_ 4 (fun i c => for_ 3 (fun k c => do y <- rd c k; do v <- rd nodes (3 * i + k); wr c k (y + v)) c) coord;
      for_ 3 (fun k c => do y <- rd c k; wr c k (y / 4)) c
  | P1 => copy3 (3 * odf)%nat coord                                (* 743-748 *)
  | P2 =>                                                          (* 751-767 *)
      if (odf <? 4)%nat then copy3 (3 * odf)%nat coord
      else
        let o := (odf - 3)%nat in
        let i1 := if (3 <? o)%nat then (1 + b2n (5 <? o))%nat else 0%nat in
        let i2 := if (3 <? o)%nat then (2 + b2n (4 <? o))%nat else o in
        for_ 3 (fun i c => do u <- rd nodes (3 * i1 + i); do v <- rd nodes (3 * i2 + i); wr c i ((u + v) / 2)) coord
  | P3 =>                                                          (* 770-793 *)
      if (odf <? 4)%nat then copy3 (3 * odf)%nat coord
      else if (16 <=? odf)%nat then
        let o := (odf - 15)%nat in
        let i1 := b2n (o =? 4) in let i2 := (1 + b2n (2 <? o))%nat in let i3 := (3 - b2n (o =? 1))%nat in
        for_ 3 (fun i c => do u <- rd nodes (3 * i1 + i); do v <- rd nodes (3 * i2 + i); do w <- rd nodes (3 * i3 + i); wr c i ((u + v + w) / 3)) coord
      else
        let l := (odf mod 2)%nat in
        let o := ((odf - 4) / 2 + 1)%nat in
        let i1 := if (3 <? o)%nat then (1 + b2n (5 <? o))%nat else 0%nat in
        let i2 := if (3 <? o)%nat then (2 + b2n (4 <? o))%nat else o in
        let w1 := (if (l =? 0)%nat then 2 else 1) / 3 in let w2 := (if (l =? 0)%nat then 1 else 2) / 3 in
        for_ 3 (fun i c => do u <- rd nodes (3 * i1 + i); do v <- rd nodes (3 * i2 + i); wr c i (w1 * u + w2 * v)) coord
  | CR1 =>                                                         (* 796-802 *)
      for_ 3 (fun i c => do u <- rd nodes (i + 3 * ((odf + 1) mod 4)); do v <- rd nodes (i + 3 * ((odf + 2) mod 4)); do w <- rd nodes (i + 3 * ((odf + 3) mod 4));
                wr c i ((u + v + w) / 3)) coord
  | B2 =>                                                          (* 805-817 *)
      do _ <- guard (odf <? 6)%nat;
      let i1 := if (2 <? odf)%nat then (1 + b2n (4 <? odf))%nat else 0%nat in
      let i2 := if (2 <? odf)%nat then (2 + b2n (3 <? odf))%nat else (odf + 1)%nat in
      for_ 3 (fun i c => do u <- rd nodes (3 * i1 + i); do v <- rd nodes (3 * i2 + i); wr c i ((u + v) / 2)) coord
  | _ => None                                                      (* 722-727 *)
  end.

(** *** Basis::eval.  A symbolic expression is a matrix; the interface (expr_interface.h:104-190,
    expr_interface.inl:17-165) is modelled by its documented effect. *)
Record mat : Type := Mat { mr : nat; mc : nat; me : nat -> nat -> R }.
Definition scal (v : R) : mat := Mat 1 1 (fun _ _ => v).
(** expr_interface.h:165-172 operator(); the check there is i > nrows, an index out of range is [None] *)
Definition ent (m : mat) (i j : nat) : option R := if ((i <? mr m) && (j <? mc m))%nat then Some (me m i j) else None.
Definition m_col (m : mat) (j : nat) : option mat := if (j <? mc m)%nat then Some (Mat (mr m) 1 (fun i _ => me m i j)) else None.
Definition m_row (m : mat) (i : nat) : option mat := if (i <? mr m)%nat then Some (Mat 1 (mc m) (fun _ j => me m i j)) else None.
Definition m_T (m : mat) : mat := Mat (mc m) (mr m) (fun i j => me m j i).
(** vertcat: the rows of a above the rows of b, equal numbers of columns *)
Definition vcat2 (a b : mat) : option mat :=
  if (mc a =? mc b)%nat then Some (Mat (mr a + mr b) (mc a) (fun i j => if (i <? mr a)%nat then me a i j else me b (i - mr a)%nat j)) else None.
Definition m_cross (a b : mat) : option mat :=
  if ((mr a =? 3) && (mr b =? 3) && (mc a =? 1) && (mc b =? 1))%nat then
    Some (Mat 3 1 (fun i _ => let u k := me a k 0%nat in let v k := me b k 0%nat in
      match i with 0%nat => u 1%nat * v 2%nat - v 1%nat * u 2%nat | 1%nat => - u 0%nat * v 2%nat + v 0%nat * u 2%nat | _ => u 0%nat * v 1%nat - v 0%nat * u 1%nat end))
  else None.
Definition m_dot (a b : mat) : option R :=
  if ((mr a =? mr b) && (mc a =? mc b))%nat then Some (Rsum (mr a) (fun i => Rsum (mc a) (fun j => me a i j * me b i j))) else None.
Definition m_norm (a : mat) : option R := do d <- m_dot a a; Some (sqrt d).
Definition m_add (a b : mat) : option mat := if ((mr a =? mr b) && (mc a =? mc b))%nat then Some (Mat (mr a) (mc a) (fun i j => me a i j + me b i j)) else None.
(** product with a 1x1 expression: the most permissive reading, broadcast *)
Definition m_scal (t : R) (a : mat) : mat := Mat (mr a) (mc a) (fun i j => t * me a i j).
(** expr_interface.inl:162-166; the rows are taken as vectors for cross (permissive) *)
Definition det3x3 (m : mat) : option R :=
  do _ <- guard ((mr m =? 3) && (mc m =? 3))%nat;
  do r0 <- m_row m 0; do r1 <- m_row m 1; do r2 <- m_row m 2; do c <- m_cross (m_T r1) (m_T r2); m_dot (m_T r0) c.
Fixpoint collect {A} (l : list (option A)) : option (list A) :=
  match l with [] => Some [] | x :: r => do y <- x; do ys <- collect r; Some (y :: ys) end.
Definition pairs4 : list (nat * nat) := [(0, 1); (0, 2); (0, 3); (1, 2); (1, 3); (2, 3)]%nat.   (* for j < 4, for k = j + 1 .. 3 *)
Definition triples4 : list (nat * nat * nat) := [(0, 1, 2); (0, 1, 3); (0, 2, 3); (1, 2, 3)]%nat. (* for j, for k > j, for l > k *)
Definition sym_p2edges (L : nat -> option R) : list (option mat) :=
  map (fun jk => do a <- L (fst jk); do b <- L (snd jk); Some (scal (4 * a * b))) pairs4.
Definition basis (s : fem) (lmb grad_lmb : mat) : option (list mat) :=
  let L i := ent lmb i 0 in
  collect match s with
  | P0 => [Some (scal 1)]                                                                                     (* poly_0.h:120-123 *)
  | P1 => map (fun i => do a <- L i; Some (scal a)) (seq 0 4)                                                 (* poly_1.h:163-167 *)
  | P2 => map (fun i => do a <- L i; Some (scal ((2 * a - 1) * a))) (seq 0 4) ++ sym_p2edges L                 (* poly_2.h:146-157 *)
  | P3 =>                                                                                                     (* poly_3.h:175-194 *)
      map (fun i => do a <- L i; Some (scal (1 / 2 * a * (3 * a - 1) * (3 * a - 2)))) (seq 0 4) ++
      flat_map (fun jk => map (fun l => do a <- L (fst jk); do b <- L (snd jk); do c <- L (if (l =? 0)%nat then fst jk else snd jk);
                                        Some (scal (9 / 2 * a * b * (3 * c - 1)))) [0; 1]%nat) pairs4 ++
      map (fun t => let '(j, k, l) := t in do a <- L j; do b <- L k; do c <- L l; Some (scal (27 * a * b * c))) triples4
  | B2 => sym_p2edges L                                                                                       (* bubble_2.h:127-134 *)
  | B4 => [do a <- L 0%nat; do b <- L 1%nat; do c <- L 2%nat; do d <- L 3%nat; Some (scal (256 * a * b * c * d))] (* bubble_4.h:121-124 *)
  | CR1 => map (fun i => do a <- L ((i + 3) mod 4)%nat; Some (scal (1 - 3 * a))) (seq 0 4)                    (* crouzeix_raviart_1.h:124-128 *)
  | RT0 =>                                                                                                    (* raviant_thomas_0.h:237-246 *)
      map (fun i =>
        do c0 <- m_col grad_lmb 0; do c1 <- m_col grad_lmb 1; do c2 <- m_col grad_lmb 2;
        do s01 <- vcat2 c0 c1; do s <- vcat2 s01 c2; do d <- det3x3 s;
        let V := Rabs d in
        do g0 <- m_col grad_lmb ((i + 0) mod 4); do g1 <- m_col grad_lmb ((i + 1) mod 4); do g2 <- m_col grad_lmb ((i + 2) mod 4); do g3 <- m_col grad_lmb ((i + 3) mod 4);
        do nr <- m_norm g3;
        do l0 <- L ((i + 0) mod 4)%nat; do l1 <- L ((i + 1) mod 4)%nat; do l2 <- L ((i + 2) mod 4)%nat;
        do a <- m_cross (m_T g1) (m_T g2); do b <- m_cross (m_T g2) (m_T g0); do c <- m_cross (m_T g0) (m_T g1);
        do ab <- m_add (m_scal l0 a) (m_scal l1 b); do abc <- m_add ab (m_scal l2 c); Some (m_scal (nr / V) abc)) (seq 0 4)
  | ND0 =>                                                                                                    (* nedelec_0.h:230-242 *)
      map (fun i =>
        do c0 <- m_col grad_lmb 0; do c1 <- m_col grad_lmb 1; do c2 <- m_col grad_lmb 2;
        do s01 <- vcat2 c0 c1; do s <- vcat2 s01 c2; do V <- det3x3 s;
        do i0 <- rd IPR (6 * i + 0); do i1 <- rd IPR (6 * i + 1); do i2 <- rd IPR (6 * i + 2); do i3 <- rd IPR (6 * i + 3);
        do g0 <- m_col grad_lmb i0; do g1 <- m_col grad_lmb i1; do g2 <- m_col grad_lmb i2; do g3 <- m_col grad_lmb i3;
        do cr <- m_cross (m_T g2) (m_T g3); do e <- m_norm (m_scal (/ V) cr);
        do l0 <- L i0; do l1 <- L i1;
        do d <- m_add (m_scal l0 (m_T g1)) (m_scal (- l1) (m_T g0)); Some (m_scal (6 * e) d)) (seq 0 6)
  end.
