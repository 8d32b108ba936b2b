(** Ready-made problems of the library (anifem++/utils/utils.cpp, h = utils.h):
    234-308 make_l2_project, 321-493 solve_stationary_diffusion, 495-502 make_laplace.
    Modelled: gathering of the boundary data of a cell, the local matrix and right-hand side, their assembly.
    The operators at the quadrature points, the points and the measures are inputs ([tables]); the contents of the work
    memory before every call is an input too ([work]).  Not modelled: the linear solver and the copy of its result
    to the tag (C53, C20 are about that copy).  Doubles are reals. *)
From Coq Require Import Reals.
From Verif Require SparsityModel.
From Verif Require Import Prelude DofModel RSum CoreModel DirModel AsmModel UtModel.
Open Scope nat_scope.

(** utils.cpp:388-414 data_gatherer: isd dim k is the answer of is_dirichlet for entity k of dimension dim of the cell,
    bnd k whether its face k carries the boundary marker.  Result: data.sp and the bits of data.is_neumann *)
Definition gather (d : dmap) (isd : nat -> nat -> bool) (bnd : nat -> bool) : SparsityModel.sparsity * N :=
  let s := SparsityModel.sp_empty_set in
  let s := if elem_mask d 0 then fold_left (fun s i => if isd 0 i then SparsityModel.set_node i s else s) (seq 0 4) s else s in
  let s := if elem_mask d 1 then fold_left (fun s i => if isd 1 i then SparsityModel.set_edge i false s else s) (seq 0 6) s else s in
  let sm := if elem_mask d 2
    then fold_left (fun sm i => if isd 2 i then (SparsityModel.set_face i false (fst sm), snd sm)
                                else if bnd i then (fst sm, N.lor (snd sm) (SparsityModel.bit i)) else sm) (seq 0 4) (s, 0%N)
    else (s, 0%N) in
  let s := if elem_mask d 3 && isd 3 0 then SparsityModel.set_cell false (fst sm) else fst sm in
  (s, snd sm).

(** What a quadrature over the cell or over one of its faces uses: number of points, weights, measure, coordinates of
    the points, values of GRAD(u), IDEN(u) and of the piecewise constant at the points *)
Record tables := mkT { t_q : nat; t_w : list R; t_mes : R; t_X : list R; t_grad : band; t_iden : band; t_one : band }.
(** The contents of PlainMemoryX before a call *)
Record work := mkW { w_diff : list R; w_ex : list R; w_du : list R; w_loc : list R }.

(** fem_memory.h DenseMatrix::SetZero *)
Definition set_zero (n : nat) (A : list R) : option (list R) := for_ n (fun i A => wr A i 0%R) A.
(** fem_memory.h DenseMatrix::operator+= *)
Definition add_to (n : nat) (F G : list R) : option (list R) := for_ n (fun i F => do x <- rd F i; do g <- rd G i; wr F i (x + g)%R) F.

(** utils.cpp:355-362 F_tensor and 368-374 G_0: one value is a scalar tensor, several are a column *)
Definition vec_tensor (dim : nat) (f : point -> list R) : functor := fun X _ => if dim =? 1 then TScalar (nth 0 (f X) 0%R) else TGen (f X).

(** One call of fem3Dtet / fem3Dface without a normal for one cell; the traits are those of DfuncTraits<>: PerPoint,
    not constant *)
Definition integrate (F : functor) (dimA dimB nfA nfB : nat) (U V : band) (T : tables) (k : work) (A : list R) : option (list R) :=
  fem3Dtet F false PerPoint false (t_q T) 1 dimA dimB nfA nfB U V (t_w T) [t_mes T] (t_X T) (repeat 0%R 3) (w_diff k) (w_ex k) (w_du k) A.

(** tetdofmap.inl:900-905 applyDirByDofs *)
Fixpoint dir_by_dofs (n : nat) (L : list LocalOrder) (dofs : list R) (s : list R * list R) : option (list R * list R) :=
  match L with
  | [] => Some s
  | lo :: r => do b <- rd dofs (lo_gid lo); do s' <- apply_dir n n (fst s) (snd s) (lo_gid lo) b; dir_by_dofs n r dofs s'
  end.
(** utils.cpp:455-460: the loop over the Dirichlet dofs; u0 lo is the value interpolateOnDOF computes from dirichlet_func
    on the mesh element of lo *)
Fixpoint dir_values (u0 : LocalOrder -> R) (L : list LocalOrder) (dofs : list R) : option (list R) :=
  match L with [] => Some dofs | lo :: r => do V <- wr dofs (lo_gid lo) (u0 lo); dir_values u0 r V end.

(** utils.cpp:416-463 local_assm; gd, id are the dimensions of GRAD(u) and IDEN(u); ws c is the work memory before call c,
    buf the unf numbers at w + shrt_req.dSize, which are both G and dof_values *)
Definition diffusion_local (d : dmap) (gd id : nat) (K : functor) (f : point -> list R) (g : nat -> point -> list R) (u0 : LocalOrder -> R)
    (T : tables) (Tf : nat -> tables) (ws : nat -> work) (buf : list R) (data : SparsityModel.sparsity * N) (A F : list R) : option (list R * list R) :=
  let n := num_dof_tet d in
  do A <- set_zero (n * n) A;
  do F <- set_zero n F;
  do A <- integrate K gd gd n n (t_grad T) (t_grad T) T (ws 0) A;
  do F <- integrate (vec_tensor id f) 1 id 1 n (t_one T) (t_iden T) T (ws 1) F;
  do FG <- for_ 4 (fun k FG =>
      if N.testbit (snd data) (N.of_nat k)
      then do G <- integrate (vec_tensor id (g k)) 1 id 1 n (t_one (Tf k)) (t_iden (Tf k)) (Tf k) (ws (2 + k)) (snd FG);
           do F <- add_to n (fst FG) G;
           Some (F, G)
      else Some FG) (F, buf);
  if SparsityModel.is_empty (fst data) then Some (A, fst FG)
  else
    do L <- SparsityModel.sp_iterate false d (fst data);
    do V <- dir_values u0 L (snd FG);
    dir_by_dofs n L V (A, fst FG).

(** utils.cpp:250-273 local_assm of make_l2_project: a null tensor of DfuncTraits<TENSOR_NULL, true>, and a fusive function
    returning TENSOR_GENERAL; f X are the values at the point X.  299-308: the function of one point *)
Definition project_local (d : dmap) (id : nat) (f : point -> list R) (T : tables) (ws : nat -> work) (A F : list R) : option (list R * list R) :=
  let n := num_dof_tet d in
  do A <- set_zero (n * n) A;
  do F <- set_zero n F;
  do A <- fem3Dtet (fun _ _ => TNull) true (Fixed KNull) false (t_q T) 1 id id n n (t_iden T) (t_iden T) (t_w T) [t_mes T] (t_X T) (repeat 0%R 3)
            (w_diff (ws 0)) (w_ex (ws 0)) (w_du (ws 0)) A;
  do F <- fem3Dtet_fusive KFull false (fun r i => f (nth (3 * (i + r * t_q T)) (t_X T) 0, nth (3 * (i + r * t_q T) + 1) (t_X T) 0, nth (3 * (i + r * t_q T) + 2) (t_X T) 0)%R)
            false false (t_q T) 1 1 id 1 n (t_one T) (t_iden T) (t_w T) [t_mes T] (repeat 0%R 3) (w_diff (ws 1)) (w_loc (ws 1)) (w_ex (ws 1)) (w_du (ws 1)) F;
  Some (A, F).

(** A cell of the mesh: global numbers and signs of its dofs, what the user's functions answer on it, its tables and memory *)
Record pcell := mkP {
  g_dof : list nat; g_flip : list bool;
  g_isd : nat -> nat -> bool; g_bnd : nat -> bool;
  g_K : functor; g_f : point -> list R; g_g : nat -> point -> list R; g_u0 : LocalOrder -> R;
  g_T : tables; g_Tf : nat -> tables; g_ws : nat -> work; g_buf : list R; g_A : list R; g_F : list R }.
(** The elemental result given to the assembler; its template is full, no number is NaN (doubles are reals here) *)
Definition elem_cell (n : nat) (c : pcell) (AF : list R * list R) : cell :=
  mkCell (g_dof c) (g_flip c) [] (map Some (fst AF)) (map Some (snd AF)) (repeat true (n * n)).
Definition diffusion_cell (d : dmap) (gd id : nat) (c : pcell) : option cell :=
  do AF <- diffusion_local d gd id (g_K c) (g_f c) (g_g c) (g_u0 c) (g_T c) (g_Tf c) (g_ws c) (g_buf c) (gather d (g_isd c) (g_bnd c)) (g_A c) (g_F c);
  Some (elem_cell (num_dof_tet d) c AF).
Definition project_cell (d : dmap) (id : nat) (c : pcell) : option cell :=
  do AF <- project_local d id (g_f c) (g_T c) (g_ws c) (g_A c) (g_F c);
  Some (elem_cell (num_dof_tet d) c AF).
Fixpoint all_cells (assm : pcell -> option cell) (l : list pcell) : option (list cell) :=
  match l with [] => Some [] | c :: r => do x <- assm c; do y <- all_cells assm r; Some (x :: y) end.

(** Which local dofs lie on ghost elements: those numbered outside the interval of this process *)
Definition with_ghosts (beg rows : nat) (e : cell) : cell :=
  mkCell (c_dof e) (c_flip e) (map (fun r => negb ((beg <=? r) && (r <? beg + rows))) (c_dof e)) (c_A e) (c_F e) (c_mask e).
(** utils.cpp:465-480, 275-290: Assemble(A, b) with fresh A and b on the cells a process stores; [Abort] also stands for
    a failure of a local assembly *)
Definition system (p : prob) (o : opts) (rows : nat) (cells : option (list cell)) : res state :=
  match cells with
  | None => Abort
  | Some l => assemble p o (map (with_ghosts (p_beg p) rows) l) (repeat [] rows, repeat 0%R rows)
  end.
Definition diffusion_system (d : dmap) (gd id : nat) (p : prob) (o : opts) (rows : nat) (here : list pcell) : res state :=
  system p o rows (all_cells (diffusion_cell d gd id) here).
Definition project_system (d : dmap) (id : nat) (p : prob) (o : opts) (rows : nat) (here : list pcell) : res state :=
  system p o rows (all_cells (project_cell d id) here).
(** utils.cpp:495-502 make_laplace *)
Definition laplace_cell (id : nat) (c : pcell) : pcell :=
  mkP (g_dof c) (g_flip c) (g_isd c) (g_bnd c) (fun _ _ => TNull) (fun _ => repeat 0%R id) (fun _ _ => repeat 0%R id) (g_u0 c)
    (g_T c) (g_Tf c) (g_ws c) (g_buf c) (g_A c) (g_F c).
Definition laplace_system (d : dmap) (gd id : nat) (p : prob) (o : opts) (rows : nat) (here : list pcell) : res state :=
  diffusion_system d gd id p o rows (map (laplace_cell id) here).
(** assembler.h:210-222 the default options *)
Definition default_opts (drop : R) : opts := mkOpts drop false false false.
