(** Values of operators of discrete functions at given points: fem/operations/eval.inl and the evaluation with a
    tensor in core.inl:520-575.  The operators are those of the library spaces; an operator of a composite space is a
    band matrix ([apply_tensor], and [fem3Dapply] in CoreModel.v).  The variants differ in where the work memory comes from:
    it is an input here, its layout is C16. *)
From Verif Require Import Prelude RSum GeoModel SpModel BasModel CoreModel FiModel.
Local Open Scope R_scope.

(** core.inl:520-575 internalFem3DApply with a tensor of d rows, without normals (eval.inl passes false at 194, 234).
    The values of the operator are stored in mem.V (537, 539, 554), which is then the matrix of one function *)
Definition apply_tensor (F : functor) (constant : bool) (sp : sparsity) (q f dim nf d : nat) (U : band)
    (dofs EX V w mes XYG DIFF DU opU : list R) : option (list R) :=
  do V <- fem3Dapply q f dim nf U dofs EX V;
  do DU <- apply_DU F constant sp q f d dim 1 (one_part dim q 1 V) w mes XYG DIFF DU;
  copy (d * q * f) DU opU.

(** The geometry, the points and the matrix of the operator: internalFem3DtetGeomInit, then applyOpU(mem, mem.U) *)
Definition prepare (q f : nat) (s : fem) (o : op) (XY0 XY1 XY2 XY3 : nat -> nat -> R) (xyl : list R) (w : work) : option (geom * list R * list R * list R) :=
  do g <- geom_init_tet f XY0 XY1 XY2 XY3 (w_geom w);
  do xyg <- geom_init_xyg q f XY0 xyl (g_xyp g) (w_xyg w);
  do ue <- apply_op s o f q {| XYL := xyl; PSI := g_psi g; XYP := g_xyp g; DET := g_det g |} (w_u w) (w_ex w);
  Some (g, xyg, fst ue, snd ue).
Definition eval_op (q f : nat) (s : fem) (o : op) (XY0 XY1 XY2 XY3 : nat -> nat -> R) (xyl dofs : list R) (w : work) (opU : list R) : option (list R) :=
  do p <- prepare q f s o XY0 XY1 XY2 XY3 xyl w;
  let '(_, _, U, EX) := p in
  fem3Dapply q f (odims s o) (nfa s) (one_part (odims s o) q (nfa s) U) dofs EX opU.
(** eval.inl:191-193, 231-233: weights and measures are 1 *)
Definition ones (n : nat) (l : list R) : option (list R) := for_ n (fun i l => wr l i 1) l.
Definition eval_tensor (F : functor) (constant : bool) (sp : sparsity) (d q f : nat) (s : fem) (o : op) (XY0 XY1 XY2 XY3 : nat -> nat -> R) (xyl dofs : list R) (w : work) (A : list R) : option (list R) :=
  do wg <- ones q (w_wg w);
  do p <- prepare q f s o XY0 XY1 XY2 XY3 xyl w;
  let '(g, xyg, U, EX) := p in
  do mes <- ones f (g_mes g);
  apply_tensor F constant sp q f (odims s o) (nfa s) d (one_part (odims s o) q (nfa s) U) dofs EX (w_v w) wg mes xyg (w_diff w) (w_du w) A.

(** The operator is a template parameter (memory on the stack or plain memory) or chosen at run time *)
Inductive variant := Typed | Dynamic.
(** eval.inl:24-40: dofs has nfa rows and f columns *)
Definition check_apply (f q nfa dim : nat) (dofs opU : list R) : bool :=
  ((length dofs =? nfa * f) && (0 <? f) && (dim * q * f <=? length opU))%nat.
(** eval.inl:42-54 *)
Definition check_static (fusion maxpnt f q nfa dim : nat) (dofs opU : list R) : bool :=
  (check_apply f q nfa dim dofs opU && (f <=? fusion) && (q <=? maxpnt * 4))%nat%bool.
(** eval.inl:83-100, 154-174, 200-214 fem3DapplyL *)
Definition fem3DapplyL (v : variant) (f : nat) (s : fem) (o : op) (XY0 XY1 XY2 XY3 : nat -> nat -> R) (xyl dofs : list R) (w : work) (opU : list R) : option (list R) :=
  let q := (length xyl / 4)%nat in
  match v with
  | Typed => do _ <- guard (check_apply f q (nfa s) (odims s o) dofs opU); eval_op q f s o XY0 XY1 XY2 XY3 xyl dofs w opU
  | Dynamic =>
      if (f =? 0)%nat then Some opU else
      do _ <- guard (odims s o * q * f <=? length opU)%nat; eval_op q f s o XY0 XY1 XY2 XY3 xyl dofs w opU
  end.
(** eval.inl:102-125, 127-152, 240-256 fem3DapplyX, one element.  The view of the coordinates has 4 * X.size / 3 cells in the
    typed variants and 4 * q cells in the other one; 254 prepares the geometry once more.
    Simplified: [eval_op] prepares the geometry, from the same memory, once more *)
Definition coords (l : list R) : nat -> nat -> R := fun i _ => nth i l 0.
Definition bary_of (v : variant) (XY0 XY1 XY2 XY3 X : list R) (w : work) : option (list R) :=
  let n := match v with Typed => 4 * length X / 3 | Dynamic => 4 * (length X / 3) end%nat in
  do g <- geom_init_tet 1 (coords XY0) (coords XY1) (coords XY2) (coords XY3) (w_geom w);
  do _ <- guard (n <=? length (w_xyl w))%nat;
  bary_coord_psi XY0 X (firstn n (w_xyl w)) (g_psi g).
Definition fem3DapplyX (v : variant) (s : fem) (o : op) (XY0 XY1 XY2 XY3 X dofs : list R) (w : work) (opU : list R) : option (list R) :=
  let q := (length X / 3)%nat in
  do _ <- guard (match v with Typed => check_apply 1 q (nfa s) (odims s o) dofs opU | Dynamic => odims s o * q * 1 <=? length opU end)%nat;
  do xyl <- bary_of v XY0 XY1 XY2 XY3 X w;
  eval_op q 1 s o (coords XY0) (coords XY1) (coords XY2) (coords XY3) xyl dofs w opU.
(** The same with memory on the stack for maxpnt points: eval.inl:109-116 *)
Definition fem3DapplyX_static (maxpnt : nat) (s : fem) (o : op) (XY0 XY1 XY2 XY3 X dofs : list R) (w : work) (opU : list R) : option (list R) :=
  do _ <- guard (check_static 1 maxpnt 1 (length X / 3) (nfa s) (odims s o) dofs opU);
  fem3DapplyX Typed s o XY0 XY1 XY2 XY3 X dofs w opU.
(** eval.inl:176-195 and 215-235: D(x) Op(u)(x) *)
Definition fem3DapplyL_tensor (F : functor) (constant : bool) (sp : sparsity) (d f : nat) (s : fem) (o : op) (XY0 XY1 XY2 XY3 : nat -> nat -> R) (xyl dofs : list R) (w : work) (A : list R) : option (list R) :=
  let q := (length xyl / 4)%nat in
  if (f =? 0)%nat then Some A else
  do _ <- guard (d * q * f <=? length A)%nat; eval_tensor F constant sp d q f s o XY0 XY1 XY2 XY3 xyl dofs w A.
Definition fem3DapplyX_tensor (F : functor) (constant : bool) (sp : sparsity) (d : nat) (s : fem) (o : op) (XY0 XY1 XY2 XY3 X dofs : list R) (w : work) (A : list R) : option (list R) :=
  let q := (length X / 3)%nat in
  do _ <- guard (d * q * 1 <=? length A)%nat;
  do xyl <- bary_of Dynamic XY0 XY1 XY2 XY3 X w;
  eval_tensor F constant sp d q 1 s o (coords XY0) (coords XY1) (coords XY2) (coords XY3) xyl dofs w A.
(** fem_memory.h:223-261 MemoryLegacy<ScalarType, fusion, maxpnt>, with any contents; XYLp of eval.inl:109 has the size of XYL_d *)
Definition stack_memory (fusion maxpnt : nat) (w : work) : Prop :=
  (length (w_u w) = 9 * maxpnt * 30 * fusion /\ length (w_v w) = 9 * maxpnt * 30 * fusion /\ length (w_du w) = 9 * maxpnt * 30 * fusion /\ length (w_diff w) = 9 * maxpnt * 30 * fusion /\
   length (w_ex w) = 3 * 20 * maxpnt * fusion /\ length (w_xyg w) = 3 * maxpnt * fusion /\ length (w_xyl w) = 4 * maxpnt /\ length (w_wg w) = maxpnt /\
   length (g_xyp (w_geom w)) = 12 * fusion /\ length (g_psi (w_geom w)) = 9 * fusion /\ length (w_nrm w) = 3 * fusion /\ length (g_det (w_geom w)) = fusion /\ length (g_mes (w_geom w)) = fusion)%nat.
