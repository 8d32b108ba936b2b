(** Work memory: carving typed blocks out of raw buffers, the chunked pool, the
    pool of pools shared by threads, the static partition of parallel loops and
    the layout of the arrays used to integrate over an element.
    Sources: fem/fem_memory.h (h), fem/fem_memory_parallel.h (par),
    fem/mutex_type.h (mtx), fem/operations/core.inl (core). *)
From Verif Require Import Prelude.

(** *** Carving: PlainMemory and PlainMemoryX (h:265-402)
    Addresses and sizes are natural numbers of bytes; a pointer is an address or
    nullptr ([None]); wrap-around of addresses is not modelled. *)

(* std::align: smallest aligned address >= p such that the block still fits in
   the [remain] bytes that start at p *)
Definition pad (a p : nat) : nat := (a - p mod a) mod a.
Definition std_align (a sz p remain : nat) : option nat :=
  if pad a p + sz <=? remain then Some (p + pad a p) else None.

(* sizeof and alignof of an element type *)
Record ctype := CType { ct_size : nat; ct_align : nat }.

(* h:266-269 *)
Record PlainMemory := PM { pm_d : option nat; pm_i : option nat; pm_dsize : nat; pm_isize : nat }.

(* h:271-292 allocateFromRaw with explicit sizes: the returned pointer and the new object *)
Definition pm_allocate (S I : ctype) (m : PlainMemory) (mem_in mem_sz dsize isize : nat) : option nat * PlainMemory :=
  let dstep :=
    if 0 <? dsize then
      match std_align (ct_align S) (ct_size S * dsize) mem_in (mem_in + mem_sz - mem_in) with
      | None => None
      | Some a => Some (Some a, a + ct_size S * dsize)
      end
    else Some (pm_d m, mem_in) in
  match dstep with
  | None => (None, PM None (pm_i m) (pm_dsize m) (pm_isize m))
  | Some (dd, p) =>
      let istep :=
        if 0 <? isize then
          match std_align (ct_align I) (ct_size I * isize) p (mem_in + mem_sz - p) with
          | None => None
          | Some a => Some (Some a, a + ct_size I * isize)
          end
        else Some (pm_i m, p) in
      match istep with
      | None => (None, PM (if 0 <? dsize then None else dd) None (pm_dsize m) (pm_isize m))
      | Some (ii, p') =>
          (Some p', PM dd ii (if 0 <? dsize then dsize else pm_dsize m) (if 0 <? isize then isize else pm_isize m))
      end
  end.
(* h:293 *)
Definition pm_allocate_own (S I : ctype) (m : PlainMemory) (mem_in mem_sz : nat) : option nat * PlainMemory :=
  pm_allocate S I m mem_in mem_sz (pm_dsize m) (pm_isize m).
(* h:294-303 *)
Definition pm_enough (S I : ctype) (m : PlainMemory) : nat :=
  if (pm_isize m =? 0) && (pm_dsize m =? 0) then 0
  else (if 0 <? pm_dsize m then (ct_align S - 1) + pm_dsize m * ct_size S else 0)
     + (if 0 <? pm_isize m then (ct_align I - 1) + pm_isize m * ct_size I else 0).
(* h:304-306 *)
Definition pm_ge (m o : PlainMemory) : bool := (pm_dsize o <=? pm_dsize m) && (pm_isize o <=? pm_isize m).
Definition pm_extend (m o : PlainMemory) : PlainMemory :=
  PM (pm_d m) (pm_i m) (Nat.max (pm_dsize o) (pm_dsize m)) (Nat.max (pm_isize o) (pm_isize m)).
Definition pm_append (m o : PlainMemory) : PlainMemory :=
  PM (pm_d m) (pm_i m) (pm_dsize m + pm_dsize o) (pm_isize m + pm_isize o).

(* h:310-314 *)
Record PlainMemoryX := PMX { px_d : option nat; px_i : option nat; px_m : option nat;
                             px_dsize : nat; px_isize : nat; px_msize : nat }.
(* h:316-338 allocateFromPlainMemory; M is DenseMatrix<ScalarType> *)
Definition px_from_plain (S I M : ctype) (m : PlainMemoryX) (d_in d_sz i_in i_sz dsize isize msize : nat)
    (from_scalars : bool) : bool * PlainMemoryX :=
  if (i_sz <? isize) || (d_sz <? dsize) then (false, m)
  else
    let mstep :=
      if 0 <? msize then
        let st := if from_scalars then d_in + ct_size S * dsize else i_in + ct_size I * isize in
        let remain := if from_scalars then (d_sz - dsize) * ct_size S else (i_sz - isize) * ct_size I in
        match std_align (ct_align M) (msize * ct_size M) st remain with
        | None => None
        | Some a => Some (Some a)
        end
      else Some (px_m m) in
    match mstep with
    | None => (false, m)
    | Some mm =>
        (true, PMX (if 0 <? dsize then Some d_in else px_d m) (if 0 <? isize then Some i_in else px_i m) mm
                   (if 0 <? dsize then dsize else px_dsize m) (if 0 <? isize then isize else px_isize m)
                   (if 0 <? msize then msize else px_msize m))
    end.
(* h:340-354 enoughPlainMemory: the sizes (reals, integers) a donor must have *)
Definition px_enough_plain (S I M : ctype) (m : PlainMemoryX) (from_scalars : bool) : nat * nat :=
  if 0 <? px_msize m then
    let ad := ct_align M in
    let ab := if from_scalars then ct_align S else ct_align I in
    let sd := px_msize m * ct_size M in
    let sb := if from_scalars then ct_size S else ct_size I in
    let al_add := if ab <? ad then ad / ab - 1 + (if ad mod ab =? 0 then 0 else 1) else 0 in
    let add := al_add + sd / sb + (if sd mod sb =? 0 then 0 else 1) in
    if from_scalars then (px_dsize m + add, px_isize m) else (px_dsize m, px_isize m + add)
  else (px_dsize m, px_isize m).

(* h:355-382 allocateFromRaw.  [order] is the result of std::sort by alignment:
   some permutation of the block numbers 0 = matrices, 1 = reals, 2 = integers. *)
Definition px_carve (types : list ctype) (sizes : list nat) (mem_in mem_sz : nat) (i : nat)
    (st : nat * list (option nat)) : option (nat * list (option nat)) :=
  let '(p, out) := st in
  do sz <- rd sizes i; do t <- rd types i;
  if 0 <? sz then
    do a <- std_align (ct_align t) (ct_size t * sz) p (mem_in + mem_sz - p);
    do out' <- wr out i (Some a);
    Some (a + ct_size t * sz, out')
  else Some st.
Fixpoint px_carve_all (types : list ctype) (sizes : list nat) (mem_in mem_sz : nat) (order : list nat)
    (st : nat * list (option nat)) : option (nat * list (option nat)) :=
  match order with
  | [] => Some st
  | i :: r => do st' <- px_carve types sizes mem_in mem_sz i st; px_carve_all types sizes mem_in mem_sz r st'
  end.
Definition px_allocate (S I M : ctype) (order : list nat) (m : PlainMemoryX) (mem_in mem_sz dsize isize msize : nat)
    : option nat * PlainMemoryX :=
  match px_carve_all [M; S; I] [msize; dsize; isize] mem_in mem_sz order (mem_in, [None; None; None]) with
  | None => (None, m)
  | Some (p, out) =>
      (Some p, PMX (nth 1 out None) (nth 2 out None) (nth 0 out None)
                   (if 0 <? dsize then dsize else px_dsize m) (if 0 <? isize then isize else px_isize m)
                   (if 0 <? msize then msize else px_msize m))
  end.
(* h:384-395 *)
Definition px_enough_raw (S I M : ctype) (m : PlainMemoryX) : nat :=
  if (px_isize m =? 0) && (px_dsize m =? 0) && (px_msize m =? 0) then 0
  else (if 0 <? px_msize m then (ct_align M - 1) + px_msize m * ct_size M else 0)
     + (if 0 <? px_dsize m then (ct_align S - 1) + px_dsize m * ct_size S else 0)
     + (if 0 <? px_isize m then (ct_align I - 1) + px_isize m * ct_size I else 0).

(** *** DynMem (h:404-520)
    A chunk has three growable vectors (reals, integers, matrix descriptors).
    A vector is its size, the number of its busy cells and the identity of the
    heap block behind it: every growing resize takes a fresh identity, because
    the standard allows it to move the data. *)
Inductive kind := KR | KI | KM.
Record pool := Pool { p_size : nat; p_busy : nat; p_heap : nat }.
Record chunk := Chunk { ck_pool : kind -> pool; ck_parts : nat }.
Record dynmem := DynMem { dm_chunks : list chunk; dm_next : nat }.

(* a block of a part: heap block, offset, length *)
Record piece := Piece { pc_heap : nat; pc_off : nat; pc_len : nat }.
(* h:414-417 MemPart; moving it moves the whole record, its clear/destructor call clearChunk once *)
Record part := Part { pt_chunk : nat; pt_id : nat; pt_piece : kind -> option piece; pt_size : kind -> nat }.

Definition empty_chunk : chunk := Chunk (fun _ => Pool 0 0 0) 0.
Definition dm_init : dynmem := DynMem [] 1.

(* h:460-462: does a pool accept [n] more cells *)
Definition pool_fits (p : pool) (n : nat) : bool := (p_busy p =? 0) || (p_busy p + n <=? p_size p).
Definition chunk_fits (want : kind -> nat) (c : chunk) : bool :=
  pool_fits (ck_pool c KR) (want KR) && pool_fits (ck_pool c KI) (want KI) && pool_fits (ck_pool c KM) (want KM).
(* h:457-466: the first chunk that fits *)
Fixpoint find_chunk (want : kind -> nat) (cs : list chunk) : option nat :=
  match cs with
  | [] => None
  | c :: r => if chunk_fits want c then Some 0 else do i <- find_chunk want r; Some (S i)
  end.
(* h:476-487: serve one pool *)
Definition pool_take (fresh : nat) (p : pool) (n : nat) : option piece * pool :=
  if 0 <? n then
    let p' := if (p_busy p =? 0) && (p_size p <? n) then Pool n (p_busy p) fresh else p in
    (Some (Piece (p_heap p') (p_busy p') n), Pool (p_size p') (p_busy p' + n) (p_heap p'))
  else (None, p).
(* h:453-491 alloc *)
Definition dm_alloc (want : kind -> nat) (s : dynmem) : option (part * dynmem) :=
  let '(cs, id) :=
    match find_chunk want (dm_chunks s) with
    | Some i => (dm_chunks s, i)
    | None => (dm_chunks s ++ [empty_chunk], length (dm_chunks s))
    end in
  do c <- rd cs id;
  let take k := pool_take (dm_next s) (ck_pool c k) (want k) in
  do cs' <- wr cs id (Chunk (fun k => snd (take k)) (S (ck_parts c)));
  Some (Part id (ck_parts c) (fun k => fst (take k)) want, DynMem cs' (S (dm_next s))).
(* h:509-516 clearChunk; [None]: bad chunk number or an unsigned counter would wrap *)
Definition dm_release (x : part) (s : dynmem) : option dynmem :=
  do c <- rd (dm_chunks s) (pt_chunk x);
  do _ <- guard (0 <? ck_parts c);
  let n := ck_parts c - 1 in
  let sub k := if n =? pt_id x then p_busy (ck_pool c k) - pt_size x k else p_busy (ck_pool c k) in
  do _ <- guard (negb (n =? pt_id x) ||
                 ((pt_size x KR <=? p_busy (ck_pool c KR)) && (pt_size x KI <=? p_busy (ck_pool c KI))
                  && (pt_size x KM <=? p_busy (ck_pool c KM))));
  let busy k := if n =? 0 then 0 else sub k in
  do cs' <- wr (dm_chunks s) (pt_chunk x)
              (Chunk (fun k => Pool (p_size (ck_pool c k)) (busy k) (p_heap (ck_pool c k))) n);
  Some (DynMem cs' (dm_next s)).
(* h:492-507 defragment: the new pool, and whether it threw (then nothing changed) *)
Definition dm_defragment (s : dynmem) : dynmem * bool :=
  if length (dm_chunks s) <=? 1 then (s, false)
  else if existsb (fun c => negb (ck_parts c =? 0)) (dm_chunks s) then (s, true)
  else (DynMem [Chunk (fun k => Pool (list_sum (map (fun c => p_size (ck_pool c k)) (dm_chunks s))) 0 (dm_next s)) 0]
               (S (dm_next s)), false).

(** *** DynMemParallel (par:17-84)
    A slot holds the identity of its pool object.  [None] = nullptr. *)
Record parmem := ParMem { pr_mem : list (option nat); pr_unused : list nat; pr_next : nat }.
Definition par_init : parmem := ParMem [] [] 0.
(* par:22-32 alloc *)
Definition par_alloc (s : parmem) : nat * parmem :=
  match rev (pr_unused s) with
  | [] => (length (pr_mem s), ParMem (pr_mem s ++ [Some (pr_next s)]) (pr_unused s) (S (pr_next s)))
  | id :: _ => (id, ParMem (pr_mem s) (removelast (pr_unused s)) (pr_next s))
  end.
(* par:34-37 release *)
Definition par_release (id : nat) (s : parmem) : parmem := ParMem (pr_mem s) (pr_unused s ++ [id]) (pr_next s).
(* std::vector::resize on a vector of unique_ptr *)
Definition resize_ptrs (m : list (option nat)) (n : nat) : list (option nat) :=
  firstn n m ++ repeat None (n - length m).
(* par:52-55: make every missing object of the range *)
Definition par_fill (st n : nat) (m : list (option nat)) (next : nat) : option (list (option nat) * nat) :=
  for_range st n (fun i '(m, nx) =>
    do x <- rd m i;
    match x with
    | Some _ => Some (m, nx)
    | None => do m' <- wr m i (Some nx); Some (m', S nx)
    end) (m, next).
(* par:43-57 alloc_range *)
Definition par_alloc_range (n : nat) (s : parmem) : option ((nat * nat) * parmem) :=
  let reuse := length (pr_unused s) =? length (pr_mem s) in
  let st := if reuse then 0 else length (pr_mem s) in
  do mn <- par_fill st n (resize_ptrs (pr_mem s) (st + n)) (pr_next s);
  Some ((st, st + n), ParMem (fst mn) (if reuse then [] else pr_unused s) (snd mn)).
(* par:62-69 release_range *)
Definition par_release_range (lo hi : nat) (s : parmem) : parmem :=
  ParMem (pr_mem s) (pr_unused s ++ map (fun i => hi - i - 1) (seq 0 (hi - lo))) (pr_next s).
(* par:71-77 release_all *)
Definition par_release_all (s : parmem) : parmem :=
  let sz := length (pr_mem s) in ParMem (pr_mem s) (map (fun i => sz - 1 - i) (seq 0 sz)) (pr_next s).
(* par:78-82 clear *)
Definition par_clear (s : parmem) : parmem := ParMem [] [] (pr_next s).
(* par:83 get *)
Definition par_get (id : nat) (s : parmem) : option nat := do x <- rd (pr_mem s) id; x.

(** *** ParallelFor<STD>::perform (mtx:109-131)
    Offsets of the iterator ranges relative to [beg]; products of the 32-bit
    unsigned batch size are reduced modulo 2^32 as in the code.  The code as
    written does not compile when instantiated (std::thread is given the name of
    a function template and the loop body is not passed); the partition it
    computes is modelled. *)
Local Open Scope Z_scope.
Definition u32 (x : Z) : Z := x mod 2 ^ 32.
(* the range of worker thread i+1, mtx:119-126 *)
Definition worker_range (niters n i : Z) : Z * Z :=
  let batch := u32 (niters / n) in
  let rem := u32 (niters mod n) in
  (u32 (batch * i) + (if i <? rem then i else rem),
   u32 (batch * (i + 1)) + (if i + 1 <? rem then i + 1 else rem)).
(* the range of the calling thread, number 0, mtx:128 *)
Definition main_range (niters n : Z) : Z * Z :=
  let batch := u32 (niters / n) in
  let rem := u32 (niters mod n) in
  (u32 (batch * (n - 1)) + rem, niters).
(* range executed by thread t, 0 <= t < n; one thread: mtx:113-116 *)
Definition thread_range (niters n t : Z) : Z * Z :=
  if n =? 1 then (0, niters)
  else if t =? 0 then main_range niters n
  else worker_range niters n (t - 1).
Local Close Scope Z_scope.

(** *** Layout of the work arrays of an element
    (core:139-215 compile-time operators, core:581-783 run-time operators) *)

(* fem_memory.h:560-567 OpMemoryRequirements *)
Record opreq := OpReq { rq_U : nat; rq_R : nat; rq_I : nat; rq_parts : nat }.
Record shape := Shape { sh_dim : nat; sh_nfa : nat }.
(* an ArrayView: offset and length; nullptr views are empty *)
Definition view := (nat * nat)%type.
Definition null : view := (0, 0).

(* the arrays of AniMemoryX, and the memory given to the tensor function *)
Record animem := AniMem {
  v_XYG : view; v_XYP : view; v_PSI : view; v_DET : view; v_MES : view; v_NRM : view; v_XYL : view; v_WG : view;
  v_DU : view; v_DIFF : view; v_U : view; v_V : view; v_extraR : view; v_Dfn : view;
  v_extraI : view; v_ROW : view; v_COL : view;
  v_MTX : view }.
Record memreq := MemReq { mr_d : nat; mr_i : nat; mr_m : nat }.

(* core:581-605 fem3D_memory_requirements_base (run-time); [same] is
   applyOpU == applyOpV, [dfn] the memory of the tensor function *)
Definition joinreq (same : bool) (rU rV : opreq) : opreq * nat :=
  if same then (rU, rq_parts rU)
  else (OpReq (rq_U rU + rq_U rV) (Nat.max (rq_R rU) (rq_R rV)) (Nat.max (rq_I rU) (rq_I rV)) (rq_parts rU + rq_parts rV),
        rq_parts rV).
Definition req_tet (same : bool) (rU rV : opreq) (U V : shape) (dfn q f : nat) (normal copyquad : bool) : memreq :=
  let '(r, vparts) := joinreq same rU rV in
  let extraR := Nat.max (rq_R r) (sh_nfa U * sh_nfa V * f) in
  let nD := if normal then 3 else 1 in
  let DU := sh_dim V * nD * q * sh_nfa U * f in
  let DIFF := sh_dim V * Nat.max (sh_dim U * nD) (sh_nfa U) * q * f in
  let XYG := 3 * q * f in let XYP := 3 * 4 * f in let PSI := 3 * 3 * f in let DET := f in let MES := f in
  let NRM := if normal then 3 * f else 0 in
  let XYL := if copyquad then 4 * q else 0 in let WG := if copyquad then q else 0 in
  MemReq (rq_U r + DU + DIFF + XYG + XYP + PSI + DET + MES + NRM + extraR + XYL + WG + dfn)
         (rq_I r + (4 + 2 * rq_parts r))
         (rq_parts r + (if 1 <? vparts then 2 * vparts else 0)).
(* core:606-660 fem3D_init_animem_from_plain_memory; [None]: "Not enough memory" *)
Definition init_tet (same : bool) (rU rV : opreq) (U V : shape) (dfn q f : nat) (normal copyquad : bool) (mem : memreq)
    : option animem :=
  let req := req_tet same rU rV U V dfn q f normal copyquad in
  do _ <- guard (negb ((mr_m mem <? mr_m req) || (mr_d mem <? mr_d req) || (mr_i mem <? mr_i req)));
  let pr := 0 in let pi := 0 in let pm := 0 in
  let xyg := (pr, 3 * q * f) in let pr := pr + 3 * q * f in
  let xyp := (pr, 3 * 4 * f) in let pr := pr + 3 * 4 * f in
  let psi := (pr, 3 * 3 * f) in let pr := pr + 3 * 3 * f in
  let det := (pr, f) in let pr := pr + f in
  let mes := (pr, f) in let pr := pr + f in
  let '(nrm, pr) := if normal then ((pr, 3 * f), pr + 3 * f) else (null, pr) in
  let '(xyl, pr) := if copyquad then ((pr, 4 * q), pr + 4 * q) else (null, pr) in
  let '(wg, pr) := if copyquad then ((pr, q), pr + q) else (null, pr) in
  let nD := if normal then 3 else 1 in
  let csz := sh_dim V * nD * q * sh_nfa U * f in
  let du := (pr, csz) in let pr := pr + csz in
  let csz := sh_dim V * Nat.max (sh_dim U * nD) (sh_nfa U) * q * f in
  let diff := (pr, csz) in let pr := pr + csz in
  let u := (pr, rq_U rU) in let pr := pr + rq_U rU in
  let '(v, pr) := if same then (null, pr) else ((pr, rq_U rV), pr + rq_U rV) in
  let '(r, vparts) := joinreq same rU rV in
  let extraR := (pr, rq_R r) in let pr := pr + rq_R r in
  let extraI := (pi, rq_I r) in let pi := pi + rq_I r in
  let row := (pi, 2 + rq_parts r) in let pi := pi + (2 + rq_parts r) in
  let col := (pi, 2 + rq_parts r) in let pi := pi + (2 + rq_parts r) in
  let mtx := (pm, rq_parts r + (if 1 <? vparts then 2 * vparts else 0)) in
  let dfnv := (pr, dfn) in
  Some (AniMem xyg xyp psi det mes nrm xyl wg du diff u v extraR dfnv extraI row col mtx).

(* core:185-215 requirements and core:139-183 layout, compile-time operators.
   [same] is std::is_same<OpA, OpB>. *)
Definition req_tet_ct (same : bool) (rA rB : opreq) (A B : shape) (q f : nat) (normal copyquad : bool) : memreq :=
  let Usz := rq_U rA in let Vsz := if same then 0 else rq_U rB in
  let extraR := if same then rq_R rA else Nat.max (rq_R rA) (rq_R rB) in
  let extraI := if same then rq_I rA else Nat.max (rq_I rA) (rq_I rB) in
  let extraR := Nat.max extraR (sh_nfa B * sh_nfa A * f) in
  let nD := if normal then 3 else 1 in
  let DU := sh_dim B * nD * q * sh_nfa A * f in
  let DIFF := sh_dim B * Nat.max (sh_dim A * nD) (sh_nfa A) * q * f in
  let XYG := 3 * q * f in let XYP := 3 * 4 * f in let PSI := 3 * 3 * f in let DET := f in let MES := f in
  let NRM := if normal then 3 * f else 0 in
  let XYL := if copyquad then 4 * q else 0 in let WG := if copyquad then q else 0 in
  MemReq (Usz + Vsz + DU + DIFF + XYG + XYP + PSI + DET + MES + NRM + extraR + XYL + WG) extraI 0.
Definition init_tet_ct (same : bool) (rA rB : opreq) (A B : shape) (q f : nat) (normal copyquad : bool) (isize : nat) : animem :=
  let p := 0 in
  let xyg := (p, 3 * q * f) in let p := p + 3 * q * f in
  let xyp := (p, 3 * 4 * f) in let p := p + 3 * 4 * f in
  let psi := (p, 3 * 3 * f) in let p := p + 3 * 3 * f in
  let mes := (p, f) in let p := p + f in
  let '(nrm, p) := if normal then ((p, 3 * f), p + 3 * f) else (null, p) in
  let det := (p, f) in let p := p + f in
  let '(xyl, p) := if copyquad then ((p, 4 * q), p + 4 * q) else (null, p) in
  let '(wg, p) := if copyquad then ((p, q), p + q) else (null, p) in
  let Usz := rq_U rA in let Vsz := if same then 0 else rq_U rB in
  let extraR := if same then rq_R rA else Nat.max (rq_R rA) (rq_R rB) in
  let extraI := if same then rq_I rA else Nat.max (rq_I rA) (rq_I rB) in
  let nD := if normal then 3 else 1 in
  let DU_sz := nD * sh_dim B * q * sh_nfa A * f in
  let DIFF_sz := sh_dim B * Nat.max (nD * sh_dim A) (sh_nfa A) * q * f in
  let u := (p, Usz) in let p := p + Usz in
  let v := if 0 <? Vsz then (p, Vsz) else null in let p := p + (if 0 <? Vsz then Vsz else 0) in
  let du := (p, DU_sz) in let p := p + DU_sz in
  let diff := (p, DIFF_sz) in let p := p + DIFF_sz in
  let xr := (p, extraR) in
  let xi := if 0 <? extraI then (0, isize) else null in
  AniMem xyg xyp psi det mes nrm xyl wg du diff u v xr null xi null null null.

(* core:662-683 and core:684-725: applying a tensor to an operator of a function;
   [d1] is Ddim1.  The quadrature rule is always copied. *)
Definition req_applyD (rU : opreq) (U : shape) (d1 dfn q f : nat) (normal : bool) : memreq :=
  let V := sh_dim U * q * f in
  let extraR := Nat.max (rq_R rU) (sh_nfa U * 1 * f) in
  let extraR := if (1 <? rq_parts rU) && (1 <? q) then Nat.max extraR V else extraR in
  let DU := d1 * q * 1 * f in
  let DIFF := d1 * sh_dim U * q * f in
  let NRM := if normal then 3 * f else 0 in
  MemReq (rq_U rU + V + DU + DIFF + 3 * q * f + 3 * 4 * f + 3 * 3 * f + f + f + NRM + extraR + 4 * q + q + dfn)
         (rq_I rU + (4 + 2 * rq_parts rU)) (rq_parts rU).
Definition init_applyD (rU : opreq) (U : shape) (d1 dfn q f : nat) (normal : bool) (mem : memreq) : option animem :=
  let req := req_applyD rU U d1 dfn q f normal in
  do _ <- guard (negb ((mr_m mem <? mr_m req) || (mr_d mem <? mr_d req) || (mr_i mem <? mr_i req)));
  let pr := 0 in let pi := 0 in
  let xyg := (pr, 3 * q * f) in let pr := pr + 3 * q * f in
  let xyp := (pr, 3 * 4 * f) in let pr := pr + 3 * 4 * f in
  let psi := (pr, 3 * 3 * f) in let pr := pr + 3 * 3 * f in
  let det := (pr, f) in let pr := pr + f in
  let mes := (pr, f) in let pr := pr + f in
  let '(nrm, pr) := if normal then ((pr, 3 * f), pr + 3 * f) else (null, pr) in
  let xyl := (pr, 4 * q) in let pr := pr + 4 * q in
  let wg := (pr, q) in let pr := pr + q in
  let du := (pr, d1 * q * 1 * f) in let pr := pr + d1 * q * 1 * f in
  let diff := (pr, d1 * sh_dim U * q * f) in let pr := pr + d1 * sh_dim U * q * f in
  let u := (pr, rq_U rU) in let pr := pr + rq_U rU in
  let v := (pr, sh_dim U * q * f) in let pr := pr + sh_dim U * q * f in
  let extraR := (pr, rq_R rU) in let pr := pr + rq_R rU in
  let extraI := (pi, rq_I rU) in let pi := pi + rq_I rU in
  let row := (pi, 2 + rq_parts rU) in let pi := pi + (2 + rq_parts rU) in
  let col := (pi, 2 + rq_parts rU) in let pi := pi + (2 + rq_parts rU) in
  Some (AniMem xyg xyp psi det mes nrm xyl wg du diff u v extraR (pr, dfn) extraI row col (0, rq_parts rU)).

(* core:727-743 and core:744-783: the operator alone *)
Definition req_applyND (rU : opreq) (U : shape) (q f : nat) (copyquad : bool) : memreq :=
  let extraR := if rq_R rU <? sh_nfa U * 1 * f then sh_nfa U * 1 * f else rq_R rU in
  let extraR := if (1 <? rq_parts rU) && (1 <? q) then Nat.max extraR (sh_dim U * q * f) else extraR in
  let XYL := if copyquad then 4 * q else 0 in
  MemReq (rq_U rU + 3 * q * f + 3 * 4 * f + 3 * 3 * f + f + f + extraR + XYL + 0)
         (rq_I rU + (4 + 2 * rq_parts rU)) (rq_parts rU).
Definition init_applyND (rU : opreq) (U : shape) (q f : nat) (copyquad : bool) (mem : memreq) : option animem :=
  let req := req_applyND rU U q f copyquad in
  do _ <- guard (negb ((mr_m mem <? mr_m req) || (mr_d mem <? mr_d req) || (mr_i mem <? mr_i req)));
  let pr := 0 in let pi := 0 in
  let xyg := (pr, 3 * q * f) in let pr := pr + 3 * q * f in
  let xyp := (pr, 3 * 4 * f) in let pr := pr + 3 * 4 * f in
  let psi := (pr, 3 * 3 * f) in let pr := pr + 3 * 3 * f in
  let det := (pr, f) in let pr := pr + f in
  let mes := (pr, f) in let pr := pr + f in
  let '(xyl, pr) := if copyquad then ((pr, 4 * q), pr + 4 * q) else (null, pr) in
  let u := (pr, rq_U rU) in let pr := pr + rq_U rU in
  let extraR := (pr, rq_R rU) in let pr := pr + rq_R rU in
  let extraI := (pi, rq_I rU) in let pi := pi + rq_I rU in
  let row := (pi, 2 + rq_parts rU) in let pi := pi + (2 + rq_parts rU) in
  let col := (pi, 2 + rq_parts rU) in let pi := pi + (2 + rq_parts rU) in
  Some (AniMem xyg xyp psi det mes null xyl null null null u null extraR null extraI row col (0, rq_parts rU)).
