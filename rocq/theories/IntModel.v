(** Interpolation on composite spaces: fem/fem_space.cpp:125-224 (region, after the assembly),
    373-386, 417-504 (Vector), 710-741 (Complex), 946-1006 and 1026-1159 (Union).
    The arrays udofs[r] are lists; a view moved by o entries is the tail of the list.
    The user function is a function of the point; its memory is not modelled, only the number of
    doubles that are requested and taken.  [None] is an access out of range, a failed assertion or
    an exception. *)
From Verif Require Import Prelude RSum GeoModel DenseModel BasModel.
Local Open Scope R_scope.

(** GenSpace, VectorFemSpace, ComplexFemSpace, UnionFemSpace; W is m_orth_coefs *)
Inductive isp : Type := IB (s : fem) | IV (n : nat) (s : isp) | IC (l : list isp) | IU (l : list isp) (W : list R).
(** dim(): fem_space.h:287, fem_space.cpp:898, 1009 *)
Fixpoint idim (s : isp) : nat :=
  match s with
  | IB s => fdim s
  | IV n s => n * idim s
  | IC l => list_sum (map idim l)
  | IU l _ => match l with [] => 0 | s :: _ => idim s end
  end%nat.
(** m_order.NumDofOnTet() *)
Fixpoint infa (s : isp) : nat :=
  match s with
  | IB s => nfa s
  | IV n s => n * infa s
  | IC l => list_sum (map infa l)
  | IU l _ => list_sum (map infa l)
  end%nat.
(** tetdofmap.cpp:787-792 ComplexDofMap::ComponentID: (part, index in the part) *)
Definition comp_of (sizes : list nat) (i : nat) : option (nat * nat) :=
  do _ <- guard (i <? list_sum sizes)%nat;
  let v := (upper_bound (prefix sizes) i - 1)%nat in
  do s <- rd (prefix sizes) v; Some (v, i - s)%nat.

(** *** interpolateOnDOF_mem_req, dSize *)
Definition is_nil {A} (l : list A) : bool := match l with [] => true | _ => false end.
(* 951-961 and 972-978: over the dofs j of the subsets with nonzero weight in row i *)
Definition over_row {S} (W : list R) (nf i : nat) (sizes : list nat) (body : nat -> nat -> R -> S -> option S) (s : S) : option S :=
  for_ nf (fun j s =>
    do w <- rd W (i + nf * j);
    if Req_EM_T w 0 then Some s else
      do (c, k) <- comp_of sizes j;
      body c k w s) s.
Definition max_row (W : list R) (nf i : nat) (sizes : list nat) : option nat :=
  over_row W nf i sizes (fun c _ _ a => do sz <- rd sizes c; Some (Nat.max a sz)) 0%nat.
Fixpoint imem (s : isp) (i fusion : nat) : option nat :=
  match s with
  | IB s => Some (fusion * fdim s)%nat                                         (* spaces/common.h:77-82 *)
  | IV n s =>                                                                  (* 417-426 *)
      do _ <- guard (0 <? infa s)%nat;
      do m <- imem s (i mod infa s) fusion; Some (m + fusion * n * idim s)%nat
  | IC l =>                                                                    (* 710-716 *)
      do (c, k) <- comp_of (map infa l) i;
      do r <- rd (map (fun s => imem s k fusion) l) c;
      do m <- r; Some (m + fusion * list_sum (map idim l))%nat
  | IU l W =>                                                                  (* 946-964 *)
      if (is_nil l || is_nil W)%bool then Some 0%nat else
      let sizes := map infa l in
      let nf := list_sum sizes in
      let subs := map (fun s k => imem s k fusion) l in
      do m <- over_row W nf i sizes (fun c k _ a => do f <- rd subs c; do b <- f k; Some (Nat.max a b)) 0%nat;
      do mx <- max_row W nf i sizes;
      Some (m + fusion * mx)%nat
  end.

(** *** interpolateOnDOF *)
(** The views of the first arrays are moved by o entries for the call and restored afterwards *)
Definition on_tail (fusion o : nat) (f : list (list R) -> option (list (list R))) (ud : list (list R)) : option (list (list R)) :=
  do _ <- guard ((fusion <=? length ud) && forallb (fun a => o <=? length a) (firstn fusion ud))%nat;
  let us := firstn fusion ud in
  do ts <- f (map (skipn o) us);
  Some (map (fun at_ => firstn o (fst at_) ++ snd at_) (List.combine us ts) ++ skipn fusion ud).
(** The lambda "narrowing": entries sh .. sh + ldim of every fused function *)
Definition narrow (gdim sh ldim : nat) (F : vec -> nat -> R) : vec -> nat -> R :=
  fun X c => F X (sh + c mod ldim + gdim * (c / ldim))%nat.
(** m is mem.dSize *)
Fixpoint interp (s : isp) (Q : quads) (x : nat -> vec) (m : nat) (F : vec -> nat -> R) (fusion i : nat) (ud : list (list R)) : option (list (list R)) :=
  match s with
  | IB s =>                                                                    (* spaces/common.h:83-87 *)
      do _ <- guard (fusion * fdim s <=? m)%nat;
      interpolate s Q x F fusion i ud
  | IV n s' =>                                                                 (* 427-449 *)
      do rq <- imem (IV n s') i fusion;
      do _ <- guard (rq <=? m)%nat;
      let lnfa := infa s' in let ldim := idim s' in
      let nvar := (i / lnfa)%nat in let ldof := (i mod lnfa)%nat in
      on_tail fusion (nvar * lnfa) (interp s' Q x (m - fusion * n * ldim) (narrow (n * ldim) (nvar * ldim) ldim F) fusion ldof) ud
  | IC l =>                                                                    (* 717-741 *)
      do rq <- imem (IC l) i fusion;
      do _ <- guard (rq <=? m)%nat;
      do (nvar, ldof) <- comp_of (map infa l) i;
      let gdim := list_sum (map idim l) in
      do ldim <- rd (map idim l) nvar;
      let sh := list_sum (firstn nvar (map idim l)) in
      do g <- rd (map (fun s' ud => interp s' Q x (m - fusion * gdim) (narrow gdim sh ldim F) fusion ldof ud) l) nvar;
      on_tail fusion (i - ldof) g ud
  | IU l W =>                                                                  (* 965-1006 *)
      do rq <- imem (IU l W) i fusion;
      do _ <- guard (rq <=? m)%nat;
      if (is_nil l || is_nil W)%bool then Some ud else
      let sizes := map infa l in
      let nf := list_sum sizes in
      do mx <- max_row W nf i sizes;
      if (mx =? 0)%nat then Some ud else
      let subs := map (fun s' k ud => interp s' Q x (m - fusion * mx) F fusion k ud) l in
      do acc <- over_row W nf i sizes (fun c k w acc =>
        do g <- rd subs c;
        do t <- g k (repeat (repeat 0 mx) fusion);
        for_ fusion (fun r acc => do a <- rd t r; do v <- rd a k; do y <- rd acc r; wr acc r (y + w * v)) acc) (repeat 0 fusion);
      for_ fusion (fun r ud => do v <- rd acc r; do a <- rd ud r; do a <- wr a i v; wr ud r a) ud
  end.

(** *** interpolateByDOFs: ids are the dofs that the sparsity iterator visits *)
(** 373-376 *)
Fixpoint by_dofs (s : isp) (Q : quads) (x : nat -> vec) (m : nat) (F : vec -> nat -> R) (ids : list nat) (u : list R) : option (list R) :=
  match ids with
  | [] => Some u
  | i :: r => do ud <- interp s Q x m F 1 i [u]; do u <- rd ud 0; by_dofs s Q x m F r u
  end.
(** 377-386 and 87-93: the largest request for one function over some dofs *)
Definition max_mem (s : isp) (fusion : nat) (ids : list nat) : option nat :=
  fold_right (fun i a => do m <- imem s i fusion; do b <- a; Some (Nat.max m b)) (Some 0%nat) ids.
(** 450-466 VectorFemSpace::interpolateByDOFs_mem_req, dSize; mSize is 1 or more if n > 0 *)
Definition vec_by_dofs_mem (n : nat) (s : isp) : option nat :=
  do m <- max_mem s n (seq 0 (infa s)); Some (m + n * idim s)%nat.
(** 467-503 VectorFemSpace::interpolateByDOFs; here ids are dofs of the base.  The views are
    consecutive parts of u *)
Fixpoint chunks (n k : nat) (u : list R) : list (list R) :=
  match n with O => [] | S n => firstn k u :: chunks n k (skipn k u) end.
Fixpoint fused_dofs (s : isp) (Q : quads) (x : nat -> vec) (m : nat) (F : vec -> nat -> R) (fusion : nat) (ids : list nat) (ud : list (list R)) : option (list (list R)) :=
  match ids with
  | [] => Some ud
  | i :: r => do ud <- interp s Q x m F fusion i ud; fused_dofs s Q x m F fusion r ud
  end.
Definition vec_by_dofs (n : nat) (s : isp) (Q : quads) (x : nat -> vec) (m : nat) (F : vec -> nat -> R) (ids : list nat) (u : list R) : option (list R) :=
  do rq <- vec_by_dofs_mem n s;
  do _ <- guard ((rq <=? m) && (n * infa s <=? length u))%nat;
  do ud <- fused_dofs s Q x m F n ids (chunks n (infa s) u);
  Some (concat ud ++ skipn (n * infa s) u).

(** *** UnionFemSpace::setupInterpolation 1026-1159.
    phi s X holds component d of basis function i of s on the reference tetrahedron at d + dim i:
    what eval_basis_functions (1072-1086) reads from the matrix of IDEN.  eps is the tolerance of
    fullPivLU; nfshi, nfshj are prefix sums. *)
Definition ref_vtx (k : nat) : vec := match k with 0%nat => (0, 0, 0) | 1%nat => (1, 0, 0) | 2%nat => (0, 1, 0) | _ => (0, 0, 1) end.
(* 1046-1055 *)
Definition setup_mem (l : list isp) (mx : nat) : option nat :=
  fold_right (fun s a => do m <- max_mem s mx (seq 0 (infa s)); do b <- a; Some (Nat.max m b)) (Some 0%nat) l.
(* 1092-1119: the matrix B and the rows of m_orth_coefs that serve as scratch *)
Definition setup_gram (Q : quads) (phi : isp -> vec -> nat -> R) (l : list isp) : option (list R) :=
  let sizes := map infa l in
  let nf := list_sum sizes in
  let mx := fold_right Nat.max 0%nat sizes in
  do m <- setup_mem l mx;
  do st <- for_ (length l) (fun si st =>
    do s <- rd l si; do shi <- rd (prefix sizes) si;
    do B <- for_ (infa s) (fun k B => wr B ((k + shi) + nf * (k + shi)) 1) (fst st);
    for_ (length l) (fun sj st =>
      if (sj =? si)%nat then Some st else
      do s' <- rd l sj; do shj <- rd (prefix sizes) sj;
      for_ (infa s) (fun k st =>
        do ud <- interp s Q ref_vtx m (phi s') (infa s') k (snd st);
        do B <- for_ (infa s') (fun t B => do a <- rd ud t; do v <- rd a k; wr B ((shi + k) + nf * (shj + t)) v) (fst st);
        Some (B, ud)) st) (B, snd st)) (repeat 0 (nf * nf), repeat (repeat 0 nf) mx);
  Some (fst st).
(* 1127-1143 *)
Definition setup_check (nf : nat) (A B : list R) : option (R * R) :=
  for_ nf (fun i st => for_ nf (fun k st =>
    do s <- for_ nf (fun j s => do a <- rd A (i + nf * j); do b <- rd B (j + nf * k); Some (s + a * b)) 0;
    do b <- rd B (i + nf * k);
    Some (Rmax (fst st) (Rabs (s - (if (i =? k)%nat then 1 else 0))), Rmax (snd st) (Rabs b))) st) (0, 0).
(* 1145-1148 *)
Definition setup_clean (nf : nat) (A : list R) : option (list R) :=
  for_ nf (fun i A =>
    do m <- for_ nf (fun j m => do a <- rd A (i * nf + j); Some (Rmax m (Rabs a))) 0;
    for_ nf (fun j A => do a <- rd A (i * nf + j); wr A (i * nf + j) (if Rlt_dec (m * (1 / 10 ^ 7)) (Rabs a) then a else 0)) A) A.
Definition setup_union (eps : R) (Q : quads) (phi : isp -> vec -> nat -> R) (l : list isp) : option (list R) :=
  let nf := list_sum (map infa l) in
  if (nf =? 0)%nat then Some [] else
  if (length l <=? 1)%nat then for_ nf (fun i A => wr A (i + nf * i) 1) (repeat 0 (nf * nf)) else
  do B <- setup_gram Q phi l;
  do A <- full_piv_lu_inverse eps nf false B (repeat 0 (nf * nf));
  do e <- setup_check nf A B;
  if Rlt_dec (1 / 10 ^ 8 * (1 + snd e)) (fst e) then None else setup_clean nf A.

(** *** BaseFemSpace::interpolateOnRegion 125-224 *)
(* 83-95: for a node the request is the largest one over its dofs, for one function; ids0 are the dofs of node 0 *)
Definition node_region_mem (s : isp) (ids0 : list nat) : option nat := max_mem s 1 ids0.
(* 158-180: coordinates of the points; xyl is the old content of the memory *)
Definition edge_points (ielem : nat) (fm : formula) (xyl : list R) : option (list R) :=
  for_ (length fm) (fun i xyl =>
    do pw <- rd fm i;
    do a <- rd lookup (2 * ielem); do b <- rd lookup (2 * ielem + 1);
    do p0 <- rd (fst pw) 0; do p1 <- rd (fst pw) 1;
    do xyl <- wr xyl (4 * i + a) p0; wr xyl (4 * i + b) p1) xyl.
Definition face_points (ielem : nat) (fm : formula) (xyl : list R) : option (list R) :=
  for_ (length fm) (fun i xyl =>
    do pw <- rd fm i;
    do p0 <- rd (fst pw) 0; do p1 <- rd (fst pw) 1; do p2 <- rd (fst pw) 2;
    do xyl <- wr xyl (4 * i + (ielem + 0) mod 4) p0;
    do xyl <- wr xyl (4 * i + (ielem + 1) mod 4) p1;
    wr xyl (4 * i + (ielem + 2) mod 4) p2) xyl.
(* 211-215: in place; A is nfa x nfa before and nids x nids after *)
Definition compact (nf : nat) (ids : list nat) (A F : list R) : option (list R * list R) :=
  do F <- for_ (length ids) (fun k F => do i <- rd ids k; do v <- rd F i; wr F k v) F;
  do A <- for_ (length ids) (fun j A => for_ (length ids) (fun i A =>
    do a <- rd ids i; do b <- rd ids j; do v <- rd A (a + nf * b); wr A (i + j * length ids) v) A) A;
  Some (A, F).
(* 206-223; ids are the sorted dofs of the region, mem the rest of the work memory; cholesky_solve
   throws when the matrix is not positive definite (inner [None]) *)
Definition region_solve (nf : nat) (ids : list nat) (A F mem u : list R) : option (list R) :=
  if is_nil ids then Some u else
  do (A, F) <- compact nf ids A F;
  do _ <- guard (nf * (nf + 1) / 2 <=? length mem)%nat;
  let n := length ids in
  do r <- cholesky_solve n 1 false true (firstn (n * n) A) (firstn n F) (firstn n F) mem;
  do X <- (match r with Some (X, _) => Some X | None => None end);
  for_ n (fun k u => do i <- rd ids k; do v <- rd X k; wr u i v) u.
