(** Storage tags, integrals over the mesh, evaluation points and the printed status: utils/utils.{h,cpp,inl} and
    inmost_interface/ordering.h.  Real numbers model doubles. *)
From Coq Require Import ZArith Reals List String.
From Verif Require Import Prelude DofModel SymModel OrdModel QuadModel QuadTables QuadRules KinModel.
Import ListNotations.
Open Scope nat_scope.

(** *** Tags *)
(** tetdofmap.cpp:356-361 UniteDofMap::GetGeomMask, tetdofmap.h:640 VectorDofMap, tetdofmap.cpp:670-677
    ComplexDofMap: whether the mask has the bit of type t *)
Fixpoint geom_mask (d : dmap) (t : nat) : bool :=
  match d with
  | Unite nd _ => negb (nth (t + 1) (shiftTetDof nd) 0 - nth t (shiftTetDof nd) 0 =? 0)
  | Vector k b => if k =? 0 then false else geom_mask b t
  | Complex l => let tab := prefix (map (fun b => num_dof b t) l) in 0 <? nth (length l) tab 0 - nth 0 tab 0
  end.
(** ordering.h:13-19 GeomMaskToInmostElementType: EDGE and FACE are unions of the two types of that dimension *)
Definition elem_mask (d : dmap) (k : nat) : bool :=
  match k with
  | 0 => geom_mask d 0 | 1 => geom_mask d 1 || geom_mask d 2 | 2 => geom_mask d 3 || geom_mask d 4 | 3 => geom_mask d 5 | _ => false
  end.
(** ordering.h:21-23 DofTNumDofsToInmostNumDofs *)
Definition elem_ndofs (d : dmap) : list nat := [num_dof d 0; num_dof d 1 + num_dof d 2; num_dof d 3 + num_dof d 4; num_dof d 5].
(** utils.cpp:106-114 the common size, [None] is ENUMUNDEF *)
Fixpoint common_size (sz : nat) (l : list nat) : option nat :=
  match l with
  | [] => Some sz
  | n :: r => if n =? 0 then common_size sz r else if sz =? 0 then common_size n r else if sz =? n then common_size sz r else None
  end.
(** utils.cpp:101-117 size of the tag *)
Definition tag_size (fixed : bool) (d : dmap) : option nat :=
  let nd := elem_ndofs d in
  if fixed then Some (fold_left Nat.max nd 0) else match nd with n :: r => common_size n r | [] => None end.
(** A tag: how many numbers are stored on an element of dimension k; [None] is an element without the tag *)
Definition tag : Type := nat -> option nat.
(** utils.cpp:118-123 createFemVarTag: with a variable size every element of the mask is resized *)
Definition create_tag (fixed : bool) (d : dmap) : tag := fun k =>
  if elem_mask d k then match tag_size fixed d with Some s => Some s | None => nth_error (elem_ndofs d) k end else None.
(** The tags of a mesh by name *)
Definition tags : Type := list (string * tag).
Fixpoint find_tag (name : string) (m : tags) : option tag :=
  match m with [] => None | (s, t) :: r => if String.eqb name s then Some t else find_tag name r end.
(** utils.cpp:310-319 create_or_load_problem_tag; [None] is the exception.  createFemVarTag is called with its default
    use_fixed_size = true (utils.h:27) *)
Definition create_or_load (m : tags) (d : dmap) (name : string) (load : bool) : option (tags * tag * bool) :=
  match find_tag name m with
  | Some t => if load then Some (m, t, true) else None
  | None => let t := create_tag true d in Some ((name, t) :: m, t, false)
  end.

(** *** Integrals *)
Open Scope R_scope.
(** A cell: whether it is a ghost, coordinate k of node i in the order of HighConn, the volume *)
Record icell := ICell { ic_ghost : bool; ic_node : nat -> nat -> R; ic_vol : R }.
(** The user function: cell, points XYL (4 x q) and X (3 x q), the matrix to fill (dim x q), column by column *)
Definition user_func : Type := icell -> list R -> list R -> list R -> option (list R).
(** utils.cpp:163-232 integrate_vector_func: XY_nodes *)
Definition xy_nodes (c : icell) : option (list R) :=
  for_ 4 (fun n a => for_ 3 (fun k a => wr a (3 * n + k)%nat (ic_node c n k)) a) (repeat 0 12).
(** the physical coordinates of the points *)
Definition phys_points (f : quad) (xy X : list R) : option (list R) :=
  for_ (q_num f) (fun n X => for_ 3 (fun k X =>
    do xk <- for_ 4 (fun i s => do p <- rd (q_p f) (4 * n + i)%nat; do y <- rd xy (3 * i + k)%nat; Some (s + p * y)) 0;
    wr X (3 * n + k)%nat xk) X) X.
(** the sum over the points *)
Definition accumulate (f : quad) (dim : nat) (vol : R) (F lres : list R) : option (list R) :=
  for_ (q_num f) (fun n lres =>
    do w <- rd (q_w f) n;
    let wvol := w * vol in
    for_ dim (fun d lres => do r <- rd lres d; do v <- rd F (d + dim * n)%nat; wr lres d (r + wvol * v)) lres) lres.
(** cycle_body: [slots] are the cells by local id, [None] an invalid or hidden one; [work] is the memory returned by
    mem.alloc, with arbitrary contents; t is the number of the thread *)
Definition cycle_body (f : quad) (dim : nat) (func : user_func) (slots : list (option icell)) (work : nat -> list R)
    (lid t : nat) (local_res : list (list R)) : option (list (list R)) :=
  do s <- rd slots lid;
  match s with
  | None => Some local_res
  | Some c =>
      if ic_ghost c then Some local_res
      else
        do lres <- rd local_res t;
        do xy <- xy_nodes c;
        do X <- phys_points f xy (firstn (3 * q_num f) (work lid));
        do F <- func c (q_p f) X (skipn (3 * q_num f) (work lid));
        do lres <- accumulate f dim (ic_vol c) F lres;
        wr local_res t lres
  end.
(** parallel_for: the iterations in the order [sched] of (local id, thread).  Simplified: iterations of different
    threads touch different memory pools and results, so their interleaving is that of whole iterations *)
Fixpoint run_sched {S} (body : nat -> nat -> S -> option S) (sched : list (nat * nat)) (s : S) : option S :=
  match sched with [] => Some s | (i, t) :: r => do s <- body i t s; run_sched body r s end.
(** One process, before m->Integrate *)
Definition integrate_local (order : Z) (dim nthreads : nat) (func : user_func) (slots : list (option icell)) (work : nat -> list R)
    (sched : list (nat * nat)) : option (list R) :=
  do f <- tetrahedron_quadrature_formulas order;
  do lr <- run_sched (cycle_body f dim func slots work) sched (repeat (repeat 0 dim) nthreads);
  for_ nthreads (fun t out => for_ dim (fun d out => do l <- rd lr t; do v <- rd l d; do o <- rd out d; wr out d (o + v)) out) (repeat 0 dim).
(** m->Integrate(out, dim): the sum over the processes, entry by entry, in an unspecified order *)
Definition integrate_all (dim : nat) (outs : list (list R)) (res : list R) : Prop :=
  length res = dim /\ forall d, (d < dim)%nat -> reduced Rplus (map (fun o => nth d o 0) outs) (nth d res 0).

(** utils.inl:44-69 integrate_vector_func<N>: the template version, cells one after another, f is given the point *)
Definition point_func : Type := icell -> list R -> list R.
Definition point_at (f : quad) (c : icell) (n : nat) : option (list R) :=
  for_ 4 (fun i x => for_ 3 (fun k x => do p <- rd (q_p f) (4 * n + i)%nat; do v <- rd x k; wr x k (v + p * ic_node c i k)) x) (repeat 0 3).
Definition integrate_template (order : Z) (dim : nat) (g : point_func) (cells : list icell) : option (list R) :=
  do f <- tetrahedron_quadrature_formulas order;
  for_ (length cells) (fun e res =>
    do c <- rd cells e;
    if ic_ghost c then Some res
    else for_ (q_num f) (fun n res =>
           do x <- point_at f c n;
           let val := g c x in
           do w <- rd (q_w f) n;
           for_ dim (fun l res => do r <- rd res l; do v <- rd val l; wr res l (r + w * ic_vol c * v)) res) res) (repeat 0 dim).
(** utils.inl:70-73 integrate_scalar_func *)
Definition integrate_scalar (order : Z) (g : icell -> list R -> R) (cells : list icell) : option R :=
  do r <- integrate_template order 1 (fun c x => [g c x]) cells; rd r 0.

(** *** Points of evaluation *)
(** utils.cpp:126-161 eval_op_var_by_barycentric_points: the tetrahedron XYZ given to fem3DapplyL has the nodes after
    collectConnectivityInfo with reorder_nodes = true; the operator is applied at the points with barycentric
    coordinates XYL with respect to it.  The result is coordinate k of that point *)
Definition eval_nodes (c : icell) : nat * nat * nat * nat := reorder_nodes (ic_node c) (0, 1, 2, 3)%nat.
Definition eval_point (c : icell) (p : list R) (k : nat) : R :=
  let '(a, b, e, g) := eval_nodes c in
  nth 0 p 0 * ic_node c a k + nth 1 p 0 * ic_node c b k + nth 2 p 0 * ic_node c e k + nth 3 p 0 * ic_node c g k.

(** *** The printed number of iterations *)
Open Scope nat_scope.
(** std::to_string of a number: its decimal digits *)
Fixpoint digits_fuel (fuel n : nat) : list nat :=
  match fuel with
  | O => [n]
  | S fuel => if n <? 10 then [n] else digits_fuel fuel (n / 10) ++ [n mod 10]
  end.
Definition digits (n : nat) : list nat := digits_fuel n n.
(** A character: a blank or a digit *)
Inductive chr := Blank | Digit (d : nat).
(** utils.cpp:92-93 (print_linear_solver_status) s_its = four blanks; std::copy to s_its.begin() + 3 - size: a position before the beginning is
    outside of the string *)
Definition status_its (its : nat) : option (list chr) :=
  let s := digits its in
  for_ (length s) (fun i out => do p <- sub_chk (3 + i) (length s); do d <- rd s i; wr out p (Digit d)) (repeat Blank 4).
