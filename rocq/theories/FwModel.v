(** Elemental functions with sparse results: conversion between compressed columns
    and dense arrays, the computation on one element, functions combined from a
    matrix function and a right-hand side function, and their work memory
    (anifem++/inmost_interface/func_wrap.{h,inl}, elemental_assembler.cpp,
    assembler.{h,inl}).  The numbers are of any type; [None] is undefined behaviour. *)
From Verif Require Import Prelude MemModel.
From Coq Require Import ZArith.
Open Scope nat_scope.

(** for (i = n - 1; i >= 0; --i) body *)
Fixpoint for_down {S} (n : nat) (body : nat -> S -> option S) (s : S) : option S :=
  match n with
  | O => Some s
  | S m => do s' <- body m s ; for_down m body s'
  end.

(** std::copy(from, from + n, to) for different arrays *)
Definition copy_n {V} (n : nat) (from to : list V) : option (list V) :=
  for_ n (fun i t => do x <- rd from i ; wr t i x) to.
(** std::fill(to, to + n, x) *)
Definition fill_n {V} (n : nat) (x : V) (to : list V) : option (list V) := for_ n (fun i t => wr t i x) to.

(** Access through a pointer with a signed index *)
Definition wrz {V} (m : list V) (i : Z) (x : V) : option (list V) :=
  if (i <? 0)%Z then None else wr m (Z.to_nat i) x.

(** *** MatSparsityView: func_wrap.h:17-49 *)
Inductive sptype := DENSE | SPARSE_CSC.
Record view := mkView {
  v_tp : sptype;
  v_nnz : nat;
  v_sz1 : nat;
  v_sz2 : nat;
  v_colind : list nat;
  v_row : list nat }.
(** func_wrap.h:47 *)
Definition make_as_dense (sz1 sz2 : nat) : view := mkView DENSE (sz1 * sz2) sz1 sz2 [] [].
(** func_wrap.h:48: the argument nnz is not used. *)
Definition view_make_as_sparse (nnz sz1 sz2 : nat) (colind row : list nat) : view :=
  mkView SPARSE_CSC (sz1 * sz2) sz1 sz2 colind row.
(** MatSparsity::make_as_sparse and getView: func_wrap.h:65-66, 82-83 *)
Definition make_as_sparse (nnz sz1 sz2 : nat) (colind row : list nat) : view :=
  mkView SPARSE_CSC nnz sz1 sz2 colind row.
Definition is_full (v : view) : bool :=
  match v_tp v with DENSE => true | SPARSE_CSC => v_nnz v =? v_sz1 v * v_sz2 v end.

(** *** densify: func_wrap.inl:11-31

    [src to j] is from[j]: another array, or the array [to] itself when the
    conversion is in place. *)
(** for (; k > low; --k) to[base + k] = fill, [n] times *)
Fixpoint fill_run {V} (n : nat) (base k : Z) (fill : V) (to : list V) : option (list V) :=
  match n with
  | O => Some to
  | S m => do to' <- wrz to (base + k)%Z fill ; fill_run m base (k - 1)%Z fill to'
  end.
Definition densify_entry {V} (v : view) (src : list V -> nat -> option V) (fill : V) (i j : nat) (s : list V * Z) : option (list V * Z) :=
  let (to, k) := s in
  let base := Z.of_nat (i * v_sz1 v) in
  do r <- rd (v_row v) j ;
  let low := Z.of_nat r in
  do to1 <- fill_run (Z.to_nat (k - low)) base k fill to ;
  do x <- src to1 j ;
  do to2 <- wrz to1 (base + low)%Z x ;
  Some (to2, (Z.min k low - 1)%Z).
Definition densify_column {V} (v : view) (src : list V -> nat -> option V) (fill : V) (i : nat) (to : list V) : option (list V) :=
  do a <- rd (v_colind v) i ;
  do b <- rd (v_colind v) (S i) ;
  do s <- for_down (b - a) (fun t => densify_entry v src fill i (a + t)) (to, (Z.of_nat (v_sz1 v) - 1)%Z) ;
  let (to1, k) := s in
  fill_run (Z.to_nat (k + 1)) (Z.of_nat (i * v_sz1 v)) k fill to1.
Definition densify {V} (v : view) (from to : list V) (fill : V) : option (list V) :=
  if is_full v then copy_n (v_nnz v) from to
  else for_down (v_sz2 v) (densify_column v (fun _ j => rd from j) fill) to.
Definition densify_in {V} (v : view) (buf : list V) (fill : V) : option (list V) :=
  if is_full v then Some buf else for_down (v_sz2 v) (densify_column v rd fill) buf.

(** *** sparsify: func_wrap.inl:33-46 *)
Definition sparsify_loop {V} (v : view) (src : list V -> nat -> option V) (to : list V) : option (list V) :=
  for_ (v_sz2 v) (fun i to =>
    do a <- rd (v_colind v) i ;
    do b <- rd (v_colind v) (S i) ;
    for_range a (b - a) (fun j to =>
      do r <- rd (v_row v) j ;
      do x <- src to (i * v_sz1 v + r) ;
      wr to j x) to) to.
Definition sparsify {V} (v : view) (from to : list V) : option (list V) :=
  if is_full v then copy_n (v_nnz v) from to else sparsify_loop v (fun _ j => rd from j) to.

(** *** copyCSC: func_wrap.inl:48-59 *)
Definition copy_csc (v : view) (colind row : list nat) : option (list nat * list nat) :=
  match v_tp v with
  | DENSE =>
      do ci <- for_ (v_sz2 v + 1) (fun i c => wr c i (i * v_sz1 v)) colind ;
      do r1 <- (if 0 <? v_sz2 v then for_ (v_sz1 v) (fun i r => wr r i i) row else Some row) ;
      do r2 <- for_range 1 (v_sz2 v - 1) (fun i r =>
                 for_ (v_sz1 v) (fun k r => do x <- rd r k ; wr r (v_sz1 v * i + k) x) r) r1 ;
      Some (ci, r2)
  | SPARSE_CSC =>
      do ci <- copy_n (v_sz2 v + 1) (v_colind v) colind ;
      do r <- copy_n (v_nnz v) (v_row v) row ;
      Some (ci, r)
  end.

(** *** fillTemplate: func_wrap.inl:61-72 *)
Definition fill_template (v : view) (beg : list bool) : option (list bool) :=
  match v_tp v with
  | DENSE => fill_n (v_sz1 v * v_sz2 v) true beg
  | SPARSE_CSC =>
      do b <- fill_n (v_sz1 v * v_sz2 v) false beg ;
      for_ (v_sz2 v) (fun i b =>
        do lo <- rd (v_colind v) i ;
        do hi <- rd (v_colind v) (S i) ;
        for_range lo (hi - lo) (fun j b =>
          do r <- rd (v_row v) j ; wr b (i * v_sz1 v + r) true) b) b
  end.

(** *** One element: update (elemental_assembler.cpp:103-116), the call of the
    function and densify_result (18-38, 80-101).

    The function finds the array after update and leaves there its numbers, the
    first [v_nnz] elements, as some function of what it found. *)
Definition run_func {V} (v : view) (f : list V -> list V) (buf : list V) : option (list V) :=
  do _ <- guard (v_nnz v <=? length buf) ;
  do _ <- guard (length (f (firstn (v_nnz v) buf)) =? v_nnz v) ;
  Some (f (firstn (v_nnz v) buf) ++ skipn (v_nnz v) buf).
Definition compute_mat {V} (zero : V) (v : view) (f : list V -> list V) (A : list V) (Ab : list bool) : option (list V * list bool) :=
  do a0 <- fill_n (v_nnz v) zero A ;
  do a1 <- run_func v f a0 ;
  do a2 <- densify_in v a1 zero ;
  do b <- fill_template v Ab ;
  Some (a2, b).
Definition compute_rhs {V} (zero : V) (v : view) (f : list V -> list V) (F : list V) : option (list V) :=
  do f0 <- fill_n (v_nnz v) zero F ;
  do f1 <- run_func v f f0 ;
  densify_in v f1 zero.

(** *** Sparsity kept by the assembler: PrepareProblem, assembler.inl:222-244

    [mat], [rhs]: result 0 of the functions given for the matrix and for the
    right-hand side; [sys]: results 0 and 1 of the function for both. *)
Record kept := mkKept { colindA : list nat; rowA : list nat; colindF : list nat; rowF : list nat }.
Definition is_sparse (v : view) : bool := negb (v_nnz v =? v_sz1 v * v_sz2 v).
Definition out_csc (v : view) : option (list nat * list nat) :=
  copy_csc v (repeat 0 (v_sz2 v + 1)) (repeat 0 (v_nnz v)).
Definition prepare_sparsity (mat rhs : option view) (sys : option (view * view)) : option kept :=
  match sys with
  | None =>
      do ca <- match mat with Some v => if is_sparse v then out_csc v else Some ([], []) | None => Some ([], []) end ;
      do cf <- match rhs with Some v => if is_sparse v then out_csc v else Some ([], []) | None => Some ([], []) end ;
      Some (mkKept (fst ca) (snd ca) (fst cf) (snd cf))
  | Some (vm, vr) =>
      if is_sparse vm then
        do ca <- out_csc vm ; do cf <- out_csc vr ;
        Some (mkKept (fst ca) (snd ca) (fst cf) (snd cf))
      else Some (mkKept [] [] [] [])
  end.
(** The view the element gets: assembler.inl:370-375, 542-545, 762-764 *)
Definition used_view (v : view) (colind row : list nat) : view :=
  mkView (if is_sparse v then SPARSE_CSC else DENSE) (v_nnz v) (v_sz1 v) (v_sz2 v) colind row.

(** *** Functions called through an array of result pointers

    [heap]: the arrays; a pointer is the number of an array or null.  A function is
    given by the numbers it computes for the current arguments, one list per result;
    [f_null]: whether it skips a result whose pointer is null. *)
Record func V := mkFunc { f_outs : list (list V); f_null : bool }.
Arguments mkFunc {V}. Arguments f_outs {V}. Arguments f_null {V}.
Definition call {V} (f : func V) (res : list (option nat)) (h : list (list V)) : option (list (list V)) :=
  for_ (length (f_outs f)) (fun o h =>
    do out <- rd (f_outs f) o ;
    do p <- rd res o ;
    match p with
    | None => if f_null f then Some h else None
    | Some b => do buf <- rd h b ; do buf' <- copy_n (length out) out buf ; wr h b buf'
    end) h.
(** SystemFromMatRhsFWrap::operator(): assembler.inl:970-981 *)
Definition call_system {V} (mat rhs : func V) (res : list (option nat)) (h : list (list V)) : option (list (list V)) :=
  do h1 <- call mat res h ; call rhs (tl res) h1.
(** RhsFromSystemFWrap::operator() with is_rhs_func = false: assembler.inl:1074-1079.
    The pointers are exchanged after the call. *)
Definition swap01 (res : list (option nat)) : list (option nat) :=
  match res with a :: b :: r => b :: a :: r | r => r end.
Definition call_rhs_of_system {V} (sys : func V) (res : list (option nat)) (h : list (list V)) : option (list (list V) * list (option nat)) :=
  do h1 <- call sys res h ; Some (h1, swap01 res).
(** The calls as the assembler makes them, elemental_assembler.cpp:9-16: array 0
    is the element matrix, array 1 the element vector, [other] the second pointer left
    from before (null at the beginning). *)
Definition element_system {V} (mat rhs : func V) (h : list (list V)) := call_system mat rhs [Some 0; Some 1] h.
Definition element_mat_of_system {V} (sys : func V) (other : option nat) (h : list (list V)) := call sys [Some 0; other] h.
Definition element_rhs_of_system {V} (sys : func V) (other : option nat) (h : list (list V)) : option (list (list V)) :=
  do r <- call_rhs_of_system sys [Some 1; other] h ; Some (fst r).

(** *** Work memory of functions: MatFuncWrapDynamic, func_wrap.h:253-270 *)
Record fmem := mkFmem { m_required : bool; m_mem : parmem }.
Definition setup_range (n : nat) (f : fmem) : option ((Z * Z) * fmem) :=
  if m_required f then
    do r <- par_alloc_range n (m_mem f) ;
    Some ((Z.of_nat (fst (fst r)), Z.of_nat (snd (fst r))), mkFmem true (snd r))
  else Some ((- Z.of_nat n, 0)%Z, f).
Definition release_range (lo hi : Z) (f : fmem) : option fmem :=
  if m_required f then
    do _ <- guard ((0 <=? lo) && (lo <=? hi))%Z ;
    Some (mkFmem true (par_release_range (Z.to_nat lo) (Z.to_nat hi) (m_mem f)))
  else Some f.
(** operator(): the pool handed to the function, if it asks for one *)
Definition pool_of (id : nat) (f : fmem) : option (option nat) :=
  if m_required f then do o <- par_get id (m_mem f) ; Some (Some o) else Some None.
(** SystemFromMatRhsFWrap: assembler.h:178-179, assembler.inl:1021-1040 *)
Definition encode_id (id1 id2 : Z) : Z := (id1 + Z.shiftl id2 16)%Z.
Definition decode_id (e : Z) : Z * Z := (Z.land e 65535, Z.shiftr e 16)%Z.
Definition system_setup_range (n : nat) (fm fr : fmem) : option ((Z * Z) * (fmem * fmem)) :=
  do r1 <- setup_range n fm ;
  let '((l1, h1), fm1) := r1 in
  if ((0 <=? l1) && (0 <=? h1))%Z then
    do r2 <- setup_range n fr ;
    let '((l2, h2), fr1) := r2 in
    if ((l2 <? 0) || (h2 <? 0))%Z then
      do fm2 <- release_range l1 h1 fm1 ; Some ((l2, h2), (fm2, fr1))
    else Some ((encode_id l1 l2, encode_id h1 h2), (fm1, fr1))
  else Some ((encode_id l1 0, encode_id h1 0), (fm1, fr)).
Definition system_release_range (lo hi : Z) (fm fr : fmem) : option (fmem * fmem) :=
  do fm1 <- release_range (fst (decode_id lo)) (fst (decode_id hi)) fm ;
  do fr1 <- release_range (snd (decode_id lo)) (snd (decode_id hi)) fr ;
  Some (fm1, fr1).
(** What thread number [t] uses during assembly: assembler.inl:369, 975-979 *)
Definition system_pools (t : nat) (fm fr : fmem) : option (option nat * option nat) :=
  do a <- pool_of t fm ; do b <- pool_of t fr ; Some (a, b).

(** defragment_memory: func_wrap.h:269, assembler.inl:1014-1020, called with the
    number of the thread (assembler.inl:382) *)
Definition defragmented (id : Z) (f : fmem) : option (option nat) :=
  if m_required f && (0 <=? id)%Z then do o <- par_get (Z.to_nat id) (m_mem f) ; Some (Some o) else Some None.
Definition system_defragmented (t : nat) (fm fr : fmem) : option (option nat * option nat) :=
  do a <- defragmented (fst (decode_id (Z.of_nat t))) fm ;
  do b <- defragmented (snd (decode_id (Z.of_nat t))) fr ;
  Some (a, b).

(** *** Copies of a function: func_wrap.h:292-295 and func_wrap.inl:111-119
    (the sizes of the work arrays). *)
Record sizes := mkSizes { sz_w : nat; sz_iw : nat }.
Definition copy_construct (a : sizes) : sizes := mkSizes (sz_w a) (sz_iw a).
Definition copy_assign (this a : sizes) : sizes :=
  let s1 := mkSizes (sz_w a) (sz_iw this) in mkSizes (sz_iw a) (sz_iw s1).
