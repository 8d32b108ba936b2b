(** Finite element spaces and the matrices of their linear operators:
    fem/fem_space.cpp:232-372, 405-409, 505-654, 662-1063 (operator part), fem/fem_space.inl:70-166,
    fem/spaces/common.h:40-160.
    One numeric array holds the memory U and the work memory extraR; a pointer is an offset.
    The views (DenseMatrix) live in the array MTX, the first rows and columns of the parts in
    MTXI_ROW and MTXI_COL; busy_mtx_parts says how many views are taken.  Doubles are reals.
    [None] is an access out of range, a failed assertion or a thrown exception.
    extraI is not modelled: no operator uses it. *)
From Verif Require Import Prelude RSum.
Local Open Scope R_scope.

(** operators.h: OperatorType; DUDX 0, 1, 2 are DUDX, DUDY, DUDZ *)
Inductive op : Type := IDEN | GRAD | DIV | CURL | DUDX (k : nat).

(** A library space (spaces/common.h GenSpace).  [b_val o r n k i]: component k of operator o of
    basis function i at point n of element r.  The operator may leave anything ([b_junk]) in the
    rest of its part of U and in the work memory. *)
Record base : Type := {
  b_id : nat; b_dim : nat; b_nfa : nat;
  b_val : op -> nat -> nat -> nat -> nat -> R;
  b_usz : op -> nat -> nat -> nat; b_esz : op -> nat -> nat -> nat;
  b_junk : op -> nat -> R }.

(** Library spaces, VectorFemSpace, ComplexFemSpace, UnionFemSpace, and a user class derived
    from BaseFemSpace that takes IDEN and GRAD from another space and inherits the rest *)
Inductive space : Type :=
  SBase (b : base) | SVec (n : nat) (s : space) | SCom (l : list space) | SUni (l : list space) | SUser (s : space).

(** fem_space.h:287 VectorFemSpace::dim; fem_space.cpp:898 ComplexFemSpace::setup; 1009 UnionFemSpace *)
Fixpoint sdim (s : space) : nat :=
  match s with
  | SBase b => b_dim b
  | SVec n s => n * sdim s
  | SCom l => list_sum (map sdim l)
  | SUni l => match l with [] => 0 | s :: _ => sdim s end
  | SUser s => sdim s
  end%nat.
(** m_order.NumDofOnTet() *)
Fixpoint snfa (s : space) : nat :=
  match s with
  | SBase b => b_nfa b
  | SVec n s => n * snfa s
  | SCom l => list_sum (map snfa l)
  | SUni l => list_sum (map snfa l)
  | SUser s => snfa s
  end%nat.
(** fem_space.h:138-166 dimIDEN .. dimDUDX *)
Definition dim_op (o : op) (d : nat) : nat :=
  match o with IDEN | CURL | DUDX _ => d | GRAD => d * 3 | DIV => d / 3 end%nat.
Definition odim (o : op) (s : space) : nat := dim_op o (sdim s).

(** *** Memory requirements: OpMemoryRequirements *)
Record req : Type := { rU : nat; rE : nat; rP : nat }.
Definition max_of (f : req -> nat) (l : list req) : nat := fold_right (fun r a => Nat.max (f r) a) 0%nat l.
Definition sum_of (f : req -> nat) (l : list req) : nat := list_sum (map f l).
(** fem_space.inl:71-83 *)
Definition com_req (l : list req) : req := {| rU := sum_of rU l; rE := max_of rE l; rP := sum_of rP l |}.
(** fem_space.inl:117-130 *)
Definition uni_req (gdim q f nfa : nat) (l : list req) : req :=
  {| rU := (gdim * q * f * nfa)%nat; rE := max_of (fun r => rE r + rU r)%nat l; rP := sum_of rP l |}.
(** fem_space.cpp:270-277, 317-324, 366-372 and 568-577, 636-645 *)
Definition over_req (usz : nat) (g : req) : req := {| rU := usz; rE := rE g + rU g; rP := rP g |}.
Fixpoint all_opt {A} (l : list (option A)) : option (list A) :=
  match l with [] => Some [] | x :: r => do y <- x; do ys <- all_opt r; Some (y :: ys) end.

Fixpoint mreq (f q : nat) (o : op) (s : space) : option req :=
  match s with
  | SBase b =>
      match o with
      | DIV | CURL => do _ <- guard (b_dim b =? 3)%nat; Some {| rU := b_usz b o f q; rE := b_esz b o f q; rP := 1 |}
      | _ => Some {| rU := b_usz b o f q; rE := b_esz b o f q; rP := 1 |}
      end
  | SVec n s' =>
      match o with
      | DIV | CURL =>
          do _ <- guard (sdim s =? 3)%nat;
          if (n =? 3)%nat then do g <- mreq f q GRAD s'; Some (over_req ((match o with DIV => 3 | _ => 9 end) * q * f * snfa s') g)
          else if (n =? 1)%nat then mreq f q o s' else None
      | _ => do r <- mreq f q o s'; Some {| rU := rU r; rE := rE r; rP := rP r * n |}
      end
  | SCom l =>
      match o with
      | DIV =>
          do _ <- guard (sdim s =? 3)%nat;
          let fin (l : list req) := Some {| rU := q * f * snfa s; rE := max_of (fun r => rE r + rU r)%nat l; rP := Nat.max 1 (max_of rP l) + 2 |} in
          match l with
          | [s0] => mreq f q DIV s0
          | [s0; s1; s2] =>
              do a <- mreq f q (DUDX 0) s0; do b <- mreq f q (DUDX 1) s1; do c <- mreq f q (DUDX 2) s2;
              fin [a; b; c]
          | [s0; s1] =>
              do a <- (if (sdim s0 =? 1)%nat then mreq f q (DUDX 0) s0 else mreq f q GRAD s0);
              do b <- (if (sdim s1 =? 1)%nat then mreq f q (DUDX 2) s1 else mreq f q GRAD s1);
              fin [a; b]
          | _ => None
          end
      | CURL =>
          do _ <- guard (sdim s =? 3)%nat;
          do g <- all_opt (map (fun s => mreq f q GRAD s) l);
          Some (over_req (3 * q * f * snfa s) (com_req g))
      | _ => do g <- all_opt (map (fun s => mreq f q o s) l); Some (com_req g)
      end
  | SUni l => do g <- all_opt (map (fun s => mreq f q o s) l); Some (uni_req (odim o s) q f (snfa s) g)
  | SUser s' =>
      match o with
      | IDEN | GRAD => mreq f q o s'
      | DIV | CURL => do _ <- guard (sdim s =? 3)%nat; do g <- mreq f q GRAD s'; Some (over_req ((match o with DIV => 1 | _ => 3 end) * q * f * snfa s) g)
      | DUDX _ => do g <- mreq f q GRAD s'; Some (over_req (Nat.min (sdim s * q * f * snfa s) (rU g)) g)
      end
  end%nat.

(** *** Memory: AniMemoryX, fem_memory.h:193-233 *)
Record mem : Type := {
  hp : list R;                      (* all numeric memory *)
  mtx : list (nat * nat);           (* MTX: data pointer and number of rows *)
  rowi : list nat; coli : list nat; (* MTXI_ROW, MTXI_COL *)
  busy : nat;                       (* busy_mtx_parts *)
  edat : nat; esz : nat }.          (* extraR *)
Definition set_hp (m : mem) (h : list R) : mem := {| hp := h; mtx := mtx m; rowi := rowi m; coli := coli m; busy := busy m; edat := edat m; esz := esz m |}.
Definition set_mtx (m : mem) (x : list (nat * nat)) : mem := {| hp := hp m; mtx := x; rowi := rowi m; coli := coli m; busy := busy m; edat := edat m; esz := esz m |}.
Definition set_idx (m : mem) (r c : list nat) : mem := {| hp := hp m; mtx := mtx m; rowi := r; coli := c; busy := busy m; edat := edat m; esz := esz m |}.
Definition set_busy (m : mem) (b : nat) : mem := {| hp := hp m; mtx := mtx m; rowi := rowi m; coli := coli m; busy := b; edat := edat m; esz := esz m |}.
Definition set_esz (m : mem) (e : nat) : mem := {| hp := hp m; mtx := mtx m; rowi := rowi m; coli := coli m; busy := busy m; edat := edat m; esz := e |}.

(** BandDenseMatrixX: number of parts, offsets in MTX and in MTXI_ROW/MTXI_COL *)
Record bx : Type := { np : nat; od : nat; os : nat }.
(** where a new matrix goes, e.g. common.h:98-99 *)
Definition fresh (m : mem) (n : nat) : bx := {| np := n; od := busy m; os := busy m + (if 0 <? busy m then 1 else 0) |}%nat.
(** view(i, j) *)
Definition vrd (h : list R) (v : nat * nat) (i j : nat) : option R := rd h (fst v + (i + snd v * j)).
(** one part as the end of an operator: view, rows 0..nr, columns 0..nc *)
Definition put_part (m : mem) (b : bx) (v : nat * nat) (nr nc : nat) : option mem :=
  do x <- wr (mtx m) (od b) v;
  do r <- wr (rowi m) (os b + 1) nr; do c <- wr (coli m) (os b + 1) nc;
  Some (set_idx (set_mtx m x) r c).
Definition put_start (m : mem) (b : bx) : option mem :=
  do r <- wr (rowi m) (os b) 0%nat; do c <- wr (coli m) (os b) 0%nat; Some (set_idx m r c).
Definition fill (n o : nat) (g : nat -> R) (h : list R) : option (list R) := for_ n (fun i h => wr h (o + i) (g i)) h.

Section Apply.
Variables f q : nat.

(** common.h:92-107 InternalOp::appl, 118-124 for spaces of another dimension *)
Definition base_apply (o : op) (b : base) (m : mem) (u : nat) : option (mem * bx) :=
  do _ <- (match o with DIV | CURL => guard (b_dim b =? 3)%nat | _ => Some tt end);
  do _ <- guard (b_esz b o f q <=? esz m)%nat;
  let d := dim_op o (b_dim b) in
  do h <- fill (b_usz b o f q) u (b_junk b o) (hp m);
  do h <- fill (esz m) (edat m) (fun i => b_junk b o (b_usz b o f q + i)%nat) h;
  do h <- for_ f (fun r h => for_ (b_nfa b) (fun i h => for_ q (fun n h => for_ d (fun k h =>
      wr h (u + ((k + d * n) + q * d * (i + b_nfa b * r))) (b_val b o r n k i)) h) h) h) h;
  let m := set_hp m h in
  let res := fresh m 1 in
  do m <- put_start m res;
  do m <- put_part m res (u, q * d)%nat d (b_nfa b);
  Some (set_busy m (busy m + 1), res).

(** fem_space.cpp:505-520 realloc_rep_mtx; the copy of the indices and the following addition
    are one loop *)
Definition rep_mtx (m : mem) (b : bx) (n : nat) : option (mem * bx) :=
  do _ <- guard (0 <? n)%nat;
  do sc <- rd (coli m) (os b + np b); do sr <- rd (rowi m) (os b + np b);
  let shift (s d : nat) (l : list nat) :=
    do l <- for_ (np b) (fun i l => do x <- rd l (os b + i); wr l (os b + d * np b + i) (x + s * d))%nat l;
    wr l (os b + (d + 1) * np b) (s * (d + 1))%nat in
  do x <- for_range 1 (n - 1) (fun d x => for_ (np b) (fun i x => do v <- rd x (od b + i); wr x (od b + d * np b + i) v) x) (mtx m);
  do c <- for_range 1 (n - 1) (fun d c => shift sc d c) (coli m);
  do r <- for_range 1 (n - 1) (fun d r => shift sr d r) (rowi m);
  Some (set_busy (set_idx (set_mtx m x) r c) (busy m + (n - 1) * np b), {| np := np b * n; od := od b; os := os b |})%nat.

(** fem_space.inl:107-113: append the matrix of the next component; ec, er are endCol, endRow.
    The entry of the end may be overwritten by the start of the component and is restored. *)
Definition append (m : mem) (res lb : bx) (ec er : nat) : option (mem * bx) :=
  do ci <- for_range 1 (np lb) (fun i c => do x <- rd c (os lb + i); wr c (os res + np res + i) (ec + x))%nat (coli m);
  do ri <- for_range 1 (np lb) (fun i c => do x <- rd c (os lb + i); wr c (os res + np res + i) (er + x))%nat (rowi m);
  do ci <- wr ci (os res + np res) ec; do ri <- wr ri (os res + np res) er;
  Some (set_idx m ri ci, {| np := np res + np lb; od := od res; os := os res |})%nat.
Section Com.
Variables (A : space -> mem -> nat -> option (mem * bx)) (Q : space -> option req).
Fixpoint com_rest (l : list space) (m : mem) (u : nat) (res : bx) : option (mem * bx) :=
  match l with
  | [] => Some (m, res)
  | s :: tl =>
      do ec <- rd (coli m) (os res + np res); do er <- rd (rowi m) (os res + np res);
      do lr <- Q s;
      do p <- A s m u;
      do p1 <- append (fst p) res (snd p) ec er;
      com_rest tl (fst p1) (u + rU lr) (snd p1)
  end.
(** fem_space.inl:85-115 ComplexFemSpace::applyOP_internal *)
Definition com_apply (l : list space) (m : mem) (u : nat) : option (mem * bx) :=
  match l with
  | [] => None
  | s :: tl => do lr <- Q s; do p <- A s m u; com_rest tl (fst p) (u + rU lr) (snd p)
  end.

(** fem_space.inl:141-158 *)
Definition uni_copy (gdim nfa sh u : nat) (Vx : bx) (m : mem) : option (list R) :=
  for_ (np Vx) (fun p h =>
    do c0 <- rd (coli m) (os Vx + p); do c1 <- rd (coli m) (os Vx + p + 1);
    do r0 <- rd (rowi m) (os Vx + p); do r1 <- rd (rowi m) (os Vx + p + 1);
    do v <- rd (mtx m) (od Vx + p);
    let nc := (c1 - c0)%nat in let nr := (r1 - r0)%nat in
    for_ f (fun r h => for_ nc (fun i h => for_ q (fun n h => for_ nr (fun k h =>
      do x <- vrd h v (k + nr * n) (i + nc * r);
      wr h (u + ((k + r0 + gdim * n) + q * gdim * (sh + i + c0 + nfa * r))) x) h) h) h) h) (hp m).
Fixpoint uni_loop (l : list space) (gdim nfa sh u : nat) (m : mem) : option mem :=
  match l with
  | [] => Some m
  | s :: tl =>
      do lr <- Q s;
      do _ <- guard (rU lr <=? esz m)%nat;
      do p <- A s (set_esz m (esz m - rU lr)) (edat m + (esz m - rU lr));
      do h <- uni_copy gdim nfa sh u (snd p) (fst p);
      uni_loop tl gdim nfa (sh + snfa s) u (set_esz (set_hp (fst p) h) (esz (fst p) + rU lr))
  end%nat.
(** fem_space.inl:131-166 UnionFemSpace::applyOP_internal *)
Definition uni_apply (gdim nfa : nat) (l : list space) (m : mem) (u : nat) : option (mem * bx) :=
  let st := busy m in
  let res := fresh m 1 in
  do h <- fill (q * gdim * (f * nfa)) u (fun _ => 0) (hp m);
  do m <- uni_loop l gdim nfa 0 u (set_hp m h);
  let m := set_busy m (st + 1) in
  do m <- put_start m res;
  do m <- put_part m res (u, q * gdim)%nat gdim nfa;
  Some (m, res).
End Com.

(** Operators that first compute another operator G in the work memory *)
Definition with_work (G : mem -> nat -> option (mem * bx)) (lr : req) (m : mem) : option (mem * bx) :=
  do _ <- guard (rU lr <=? esz m)%nat;
  do p <- G (set_esz m (esz m - rU lr)) (edat m + (esz m - rU lr))%nat;
  Some (set_esz (fst p) (esz (fst p) + rU lr), snd p).

(** fem_space.cpp:543-566 VectorFemSpace::applyDIV, three copies of a scalar space *)
Definition vec_div (G : mem -> nat -> option (mem * bx)) (lr : req) (nfa : nat) (m : mem) (u : nat) : option (mem * bx) :=
  do p <- with_work G lr m;
  let m1 := fst p in let Vx := snd p in
  do _ <- guard (np Vx =? 1)%nat;
  do v <- rd (mtx m1) (od Vx);
  do h <- for_ f (fun r h => for_ nfa (fun i h => for_ q (fun n h => for_ 3 (fun k h =>
    do x <- vrd h v (k + 3 * n) (i + nfa * r);
    wr h (u + (n + q * (i + nfa * (k + 3 * r)))) x) h) h) h) (hp m1);
  do m2 <- put_part (set_hp m1 h) Vx (u, q) 1 (nfa * 3);
  Some (set_busy m2 (busy m + 1), Vx).
(** fem_space.cpp:593-635 VectorFemSpace::applyCURL; the table IJL with the signs *)
Definition ijl : list (nat * nat * nat * R) := [((1, 2, 0)%nat, 1); ((2, 1, 0)%nat, -1); ((0, 2, 1)%nat, -1); ((2, 0, 1)%nat, 1); ((0, 1, 2)%nat, 1); ((1, 0, 2)%nat, -1)].
Definition vec_curl (G : mem -> nat -> option (mem * bx)) (lr : req) (nfa : nat) (m : mem) (u : nat) : option (mem * bx) :=
  do p <- with_work G lr m;
  let m1 := fst p in let Vx := snd p in
  do h <- fill (3 * q * 3 * nfa * f) u (fun _ => 0) (hp m1);
  do _ <- guard (np Vx =? 1)%nat;
  do v <- rd (mtx m1) (od Vx);
  do h <- for_ f (fun r h => for_ q (fun n h => for_ 6 (fun e h =>
    do t <- rd ijl e;
    let '(i, j, l, sg) := t in
    for_ nfa (fun d h =>
      do x <- vrd h v (j + n * 3) (d + nfa * r);
      wr h (u + ((i + 3 * n) + 3 * q * (d + nfa * (l + 3 * r)))) (sg * x)) h) h) h) h;
  do m2 <- put_part (set_hp m1 h) Vx (u, 3 * q)%nat 3 (nfa * 3);
  Some (set_busy m2 (busy m + 1), Vx).

(** lU(i, j) += x; [add_if] only if row d belongs to the part *)
Definition add_if (r0 r1 : nat) (d : nat) (x : option R) (c : nat) (h : list R) : option (list R) :=
  if (r0 <=? d)%nat && (d <? r1)%nat then do v <- x; do y <- rd h c; wr h c (y + v) else Some h.
(** fem_space.cpp:232-269 BaseFemSpace::applyDIV.  The last row index is 3. *)
Definition def_div (G : mem -> nat -> option (mem * bx)) (lr : req) (nfa : nat) (m : mem) (u : nat) : option (mem * bx) :=
  do p <- with_work G lr m;
  let m1 := fst p in let Vx := snd p in
  do h <- fill (q * (f * nfa)) u (fun _ => 0) (hp m1);
  do h <- for_ (np Vx) (fun p h =>
    do c0 <- rd (coli m1) (os Vx + p); do c1 <- rd (coli m1) (os Vx + p + 1);
    do r0 <- rd (rowi m1) (os Vx + p); do r1 <- rd (rowi m1) (os Vx + p + 1);
    do v <- rd (mtx m1) (od Vx + p);
    let nc := (c1 - c0)%nat in let nr := (r1 - r0)%nat in
    for_ f (fun r h => for_ nc (fun i h => for_ q (fun n h => for_ 3 (fun k h =>
      add_if r0 r1 (4 * k) (vrd h v (4 * k - r0 + nr * n) (i + nc * r)) (u + (n + q * (c0 + i + nfa * r))) h) h) h) h) h) h;
  do m2 <- put_part (set_hp m1 h) Vx (u, q) 3 nfa;
  Some (set_busy m2 (busy m + 1), {| np := 1; od := od Vx; os := os Vx |})%nat.
(** fem_space.cpp:278-316 BaseFemSpace::applyCURL *)
Definition dlookup : list nat := [7; 5; 2; 6; 3; 1]%nat.
Definition def_curl (G : mem -> nat -> option (mem * bx)) (lr : req) (nfa : nat) (m : mem) (u : nat) : option (mem * bx) :=
  do p <- with_work G lr m;
  let m1 := fst p in let Vx := snd p in
  do h <- fill (q * 3 * (f * nfa)) u (fun _ => 0) (hp m1);
  do h <- for_ (np Vx) (fun p h =>
    do c0 <- rd (coli m1) (os Vx + p); do c1 <- rd (coli m1) (os Vx + p + 1);
    do r0 <- rd (rowi m1) (os Vx + p); do r1 <- rd (rowi m1) (os Vx + p + 1);
    do v <- rd (mtx m1) (od Vx + p);
    let nc := (c1 - c0)%nat in let nr := (r1 - r0)%nat in
    if ((1 <? nr) || negb ((r0 =? 0) || (r0 =? 4) || (r0 =? 8)))%nat then
    for_ f (fun r h => for_range c0 nc (fun i h => for_ q (fun n h => for_ 3 (fun k h =>
      do da <- rd dlookup (2 * k); do db <- rd dlookup (2 * k + 1);
      let c := (u + ((k + 3 * n) + q * 3 * (i + nfa * r)))%nat in
      do h <- add_if r0 r1 da (vrd h v (da - r0 + nr * n) ((i - c0) + nc * r)) c h;
      add_if r0 r1 db (option_map Ropp (vrd h v (db - r0 + nr * n) ((i - c0) + nc * r))) c h) h) h) h) h
    else Some h) h;
  do m2 <- put_part (set_hp m1 h) Vx (u, q * 3)%nat 3 nfa;
  Some (set_busy m2 (busy m + 1), {| np := 1; od := od Vx; os := os Vx |}).
(** fem_space.cpp:325-365 BaseFemSpace::applyDUDX.  The index arrays are rewritten while they
    are read. *)
Definition align_ge (k a : Z) : Z := (if a mod 3 <=? k then 3 * (a / 3) + k else 3 * (a / 3 + 1) + k)%Z.
Definition align_le (k a : Z) : Z := (if a mod 3 <? k then 3 * (a / 3) + k - 3 else 3 * (a / 3) + k)%Z.
Definition def_dudx (G : mem -> nat -> option (mem * bx)) (lr : req) (c : nat) (m : mem) (u : nat) : option (mem * bx) :=
  do p <- with_work G lr m;
  let m1 := fst p in let Vx := snd p in
  do st <- for_ (np Vx) (fun p st =>
    let '(m, up, us) := st in
    do c0 <- rd (coli m) (os Vx + p); do c1 <- rd (coli m) (os Vx + p + 1);
    do r0 <- rd (rowi m) (os Vx + p); do r1 <- rd (rowi m) (os Vx + p + 1);
    do v <- rd (mtx m) (od Vx + p);
    let dst := align_ge (Z.of_nat c) (Z.of_nat r0) in
    let dend := align_le (Z.of_nat c) (Z.of_nat r1 - 1) in
    let nd := if (dst <=? dend)%Z then (Z.to_nat ((dend - dst) / 3) + 1)%nat else 0%nat in
    let nc := (c1 - c0)%nat in let nr := (r1 - r0)%nat in
    let rsh := (Z.to_nat dst - r0)%nat in
    if (0 <? nd)%nat then
      do h <- for_ f (fun r h => for_ nc (fun i h => for_ q (fun n h => for_ nd (fun id h =>
        do x <- vrd h v (rsh + 3 * id + nr * n) (i + nc * r);
        wr h (u + us + ((id + nd * n) + q * nd * (i + nc * r))) x) h) h) h) (hp m);
      do x <- wr (mtx m) (od Vx + up) (u + us, q * nd)%nat;
      do rp <- rd (rowi m) (os Vx + up); do ri <- wr (rowi m) (os Vx + up + 1) (nd + rp)%nat;
      do cp <- rd (coli m) (os Vx + up); do ci <- wr (coli m) (os Vx + up + 1) (nc + cp)%nat;
      Some (set_idx (set_mtx (set_hp m h) x) ri ci, up + 1, us + q * nd * f * nc)%nat
    else Some st) (m1, 0%nat, 0%nat);
  let '(m2, up, _) := st in
  Some (set_busy m2 (busy m + up), {| np := up; od := od Vx; os := os Vx |}).

(** fem_space.cpp:742-771 ComplexFemSpace::applyDIV_1x1x1.  D k applies d/dx_k to component k;
    (requirement, dofs, first dof) of the components.  Nothing is marked as busy at the end, and
    the first row and column index are not written. *)
Definition div_finish (m : mem) (u nfa : nat) : option (mem * bx) :=
  let res := fresh m 1 in
  do m <- put_part m res (u, q) 1 nfa;
  Some (m, res).
Definition copy_scalar (nfa sh lnfa u : nat) (v : nat * nat) (h : list R) : option (list R) :=
  for_ f (fun r h => for_ lnfa (fun i h => for_ q (fun n h =>
    do x <- vrd h v n (i + lnfa * r);
    wr h (u + (n + q * (sh + i + nfa * r))) x) h) h) h.
Definition div_part (D : mem -> nat -> option (mem * bx)) (lr : req) (nfa sh lnfa u : nat) (m : mem) : option mem :=
  let st := busy m in
  do p <- with_work D lr m;
  do _ <- guard (np (snd p) =? 1)%nat;
  do v <- rd (mtx (fst p)) (od (snd p));
  do h <- copy_scalar nfa sh lnfa u v (hp (fst p));
  Some (set_busy (set_hp (fst p) h) st).
Definition div_111 (D0 D1 D2 : mem -> nat -> option (mem * bx)) (r0 r1 r2 : req) (n0 n1 n2 : nat) (m : mem) (u : nat) : option (mem * bx) :=
  let nfa := (n0 + n1 + n2)%nat in
  do m <- div_part D0 r0 nfa 0 n0 u m;
  do m <- div_part D1 r1 nfa n0 n1 u m;
  do m <- div_part D2 r2 nfa (n0 + n1) n2 u m;
  div_finish m u nfa.
(** fem_space.cpp:792-812, applyDIV_1x2: a space with two components, the first is number ds *)
Definition div_pair (G : mem -> nat -> option (mem * bx)) (lr : req) (nfa sh ds u : nat) (m : mem) : option mem :=
  let st := busy m in
  do p <- with_work G lr m;
  let m1 := fst p in let Vx := snd p in
  do h <- for_ (np Vx) (fun p h =>
    do c0 <- rd (coli m1) (os Vx + p); do c1 <- rd (coli m1) (os Vx + p + 1);
    do r0 <- rd (rowi m1) (os Vx + p); do r1 <- rd (rowi m1) (os Vx + p + 1);
    do v <- rd (mtx m1) (od Vx + p);
    let nc := (c1 - c0)%nat in let nr := (r1 - r0)%nat in
    for_ f (fun r h => for_range c0 nc (fun i h => for_ q (fun n h => for_ 2 (fun k h =>
      let d := (ds + 4 * k)%nat in
      add_if r0 r1 d (vrd h v (d - r0 + nr * n) ((i - c0) + nc * r)) (u + (n + q * (sh + i + nfa * r))) h) h) h) h) h) (hp m1);
  Some (set_busy (set_hp m1 h) st).
(** applyIDEN, applyGRAD, applyDIV, applyCURL, applyDUDX of every kind of space; u is the
    offset of U *)
Fixpoint apply (o : op) (s : space) (m : mem) (u : nat) {struct s} : option (mem * bx) :=
  match s with
  | SBase b => base_apply o b m u
  | SVec n s' =>
      match o with
      | DIV | CURL =>
          do _ <- guard (sdim s =? 3)%nat;
          if (n =? 3)%nat then
            do lr <- mreq f q GRAD s';
            match o with DIV => vec_div (apply GRAD s') lr (snfa s') m u | _ => vec_curl (apply GRAD s') lr (snfa s') m u end
          else if (n =? 1)%nat then apply o s' m u else None
      | _ => do p <- apply o s' m u; rep_mtx (fst p) (snd p) n
      end
  | SCom l =>
      match o with
      | DIV =>
          do _ <- guard (sdim s =? 3)%nat;
          match l with
          | [s0] => apply DIV s0 m u
          | [s0; s1; s2] =>
              do r0 <- mreq f q (DUDX 0) s0; do r1 <- mreq f q (DUDX 1) s1; do r2 <- mreq f q (DUDX 2) s2;
              div_111 (apply (DUDX 0) s0) (apply (DUDX 1) s1) (apply (DUDX 2) s2) r0 r1 r2 (snfa s0) (snfa s1) (snfa s2) m u
          | [s0; s1] =>
              (* 772-819 applyDIV_1x2 *)
              do h <- fill (q * (f * snfa s)) u (fun _ => 0) (hp m);
              do m <- (if (sdim s0 =? 1)%nat then do r <- mreq f q (DUDX 0) s0; div_part (apply (DUDX 0) s0) r (snfa s) 0 (snfa s0) u (set_hp m h)
                       else do r <- mreq f q GRAD s0; div_pair (apply GRAD s0) r (snfa s) 0 0 u (set_hp m h));
              let ds := sdim s0 in
              do m <- (if (sdim s1 =? 1)%nat then do r <- mreq f q (DUDX ds) s1; div_part (apply (DUDX ds) s1) r (snfa s) (snfa s0) (snfa s1) u m
                       else do r <- mreq f q GRAD s1; div_pair (apply GRAD s1) r (snfa s) (snfa s0) ds u m);
              div_finish m u (snfa s)
          | _ => None
          end
      | CURL =>
          do _ <- guard (sdim s =? 3)%nat;
          do lr <- mreq f q GRAD s;
          def_curl (com_apply (fun s => apply GRAD s) (mreq f q GRAD) l) lr (snfa s) m u
      | _ => com_apply (fun s => apply o s) (mreq f q o) l m u
      end
  | SUni l => uni_apply (fun s => apply o s) (mreq f q o) (odim o s) (snfa s) l m u
  | SUser s' =>
      match o with
      | IDEN | GRAD => apply o s' m u
      | DIV => do _ <- guard (sdim s =? 3)%nat; do lr <- mreq f q GRAD s'; def_div (apply GRAD s') lr (snfa s) m u
      | CURL => do _ <- guard (sdim s =? 3)%nat; do lr <- mreq f q GRAD s'; def_curl (apply GRAD s') lr (snfa s) m u
      | DUDX c => do lr <- mreq f q GRAD s'; def_dudx (apply GRAD s') lr c m u
      end
  end.
End Apply.

(** *** Equality: common.h:42-49, fem_space.cpp:405-409, 690-699, 935-944.  A null pointer is not
    modelled; equal pointers are equal spaces.  b_id is the family and the polynomial order. *)
Fixpoint all2 {A} (e : A -> A -> bool) (l l' : list A) : bool :=
  match l, l' with [], [] => true | x :: t, y :: t' => e x y && all2 e t t' | _, _ => false end.
Fixpoint space_eq (s t : space) : bool :=
  match s, t with
  | SBase a, SBase b => (b_id a =? b_id b)%nat
  | SVec _ a, SVec _ b => space_eq a b
  | SCom l, SCom l' => (fix go l l' := match l, l' with [], [] => true | x :: t, y :: t' => space_eq x y && go t t' | _, _ => false end) l l'
  | SUni l, SUni l' => (fix go l l' := match l, l' with [], [] => true | x :: t, y :: t' => space_eq x y && go t t' | _, _ => false end) l l'
  | _, _ => false
  end.
