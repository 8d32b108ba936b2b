(** What a user of the ready-made problems expects: the prescribed values at the Dirichlet dofs, the Galerkin equations
    at the others. *)
From Coq Require Import Reals Permutation.
From Verif Require SparsityModel SparsitySpec.
From Verif Require Import Prelude DofModel DofSpec RSum CoreModel CoreSpec DirModel DirSpec AsmModel AsmSpec UtModel DifModel.
Open Scope R_scope.

(** *** One cell *)

(** The mesh element carrying local dof i is a Dirichlet one; the value prescribed for this dof *)
Definition on_dirichlet (d : dmap) (isd : nat -> nat -> bool) (i : nat) : bool :=
  match local_order d i with Some lo => isd (geom_dim (lo_type lo)) (lo_elem lo) | None => false end.
Definition dir_value (d : dmap) (u0 : LocalOrder -> R) (i : nat) : R := match local_order d i with Some lo => u0 lo | None => 0 end.

(** Quadrature point p and its weight times the measure *)
Definition quad_point (T : tables) (p : nat) : point := xyz (t_q T) (t_X T) 0 p.
Definition quad_weight (T : tables) (p : nat) : R := nth p (t_w T) 0 * t_mes T.

(** grad p k i: component k of the gradient of basis function i at point p; val p k i: its value.
    Quadrature sums of (K grad phi_j, grad phi_i), (f, phi_i), (phi_j, phi_i) *)
Definition stiffness (gd : nat) (K : functor) (T : tables) (grad : nat -> nat -> nat -> R) (i j : nat) : R :=
  Rsum (t_q T) (fun p => quad_weight T p *
    Rsum gd (fun k => Rsum gd (fun l => tmat (K (quad_point T p) 0%nat) gd gd k l * grad p l j) * grad p k i)).
Definition source (id : nat) (f : point -> list R) (T : tables) (val : nat -> nat -> nat -> R) (i : nat) : R :=
  Rsum (t_q T) (fun p => quad_weight T p * Rsum id (fun k => nth k (f (quad_point T p)) 0 * val p k i)).
Definition mass (id : nat) (T : tables) (val : nat -> nat -> nat -> R) (i j : nat) : R :=
  Rsum (t_q T) (fun p => quad_weight T p * Rsum id (fun k => val p k j * val p k i)).

(** A cell with the values of its basis functions: at the points of the cell, and at the points of its faces *)
Record mcell := mkM { m_c : pcell; m_grad : nat -> nat -> nat -> R; m_val : nat -> nat -> nat -> R; m_face : nat -> nat -> nat -> nat -> R }.

(** A boundary face that is not a Dirichlet one *)
Definition neumann (c : pcell) (k : nat) : bool := g_bnd c k && negb (g_isd c 2%nat k).
Definition cell_matrix (gd : nat) (m : mcell) : nat -> nat -> R := stiffness gd (g_K (m_c m)) (g_T (m_c m)) (m_grad m).
(** ... of the source and of the flux given on the Neumann faces *)
Definition cell_load (id : nat) (m : mcell) (i : nat) : R :=
  source id (g_f (m_c m)) (g_T (m_c m)) (m_val m) i +
  Rsum 4 (fun k => if neumann (m_c m) k then source id (g_g (m_c m) k) (g_Tf (m_c m) k) (m_face m k) i else 0).

(** The system with the dofs of P eliminated, their values being v *)
Definition eliminated (P : nat -> bool) (a : nat -> nat -> R) (i j : nat) : R :=
  if P i || P j then if (i =? j)%nat then 1 else 0 else a i j.
Definition eliminated_load (n : nat) (P : nat -> bool) (v : nat -> R) (a : nat -> nat -> R) (f : nat -> R) (i : nat) : R :=
  if P i then v i else f i - Rsum n (fun j => if P j then a i j * v j else 0).

(** *** Meaningful input *)
Definition work_ok (dimA dimB nfA nfB q : nat) (k : work) : Prop :=
  (dimB * Nat.max dimA nfA * q <= length (w_diff k))%nat /\ (nfA * nfB <= length (w_ex k))%nat /\ (dimB * q * nfA <= length (w_du k))%nat.
(** The stored matrices are the values at the points, [grad] only when gradients are used *)
Definition points_ok (T : tables) : Prop := (0 < t_q T)%nat /\ (t_q T <= length (t_w T))%nat /\ (3 * t_q T <= length (t_X T))%nat /\ band_of (t_one T) 1 1 (t_q T) 1 (fun _ _ _ _ => 1).
Definition values_ok (id n : nat) (T : tables) (val : nat -> nat -> nat -> R) : Prop := band_of (t_iden T) id n (t_q T) 1 (fun _ => val).
Definition gradients_ok (gd n : nat) (T : tables) (grad : nat -> nat -> nat -> R) : Prop := band_of (t_grad T) gd n (t_q T) 1 (fun _ => grad).
(** The user's function gives as many numbers as the variable has components *)
Definition field_ok (id : nat) (f : point -> list R) (T : tables) : Prop := forall p, (p < t_q T)%nat -> length (f (quad_point T p)) = id.

Definition numbering_ok (n size : nat) (c : pcell) : Prop :=
  length (g_dof c) = n /\ length (g_flip c) = n /\ NoDup (g_dof c) /\ (forall r, In r (g_dof c) -> (r < size)%nat) /\ length (g_A c) = (n * n)%nat /\ length (g_F c) = n.
Definition diffusion_ok (d : dmap) (gd id : nat) (m : mcell) : Prop :=
  let n := num_dof_tet d in let c := m_c m in let T := g_T c in
  (points_ok T /\ values_ok id n T (m_val m) /\ gradients_ok gd n T (m_grad m) /\ field_ok id (g_f c) T) /\
  (forall p, (p < t_q T)%nat -> tensor_ok gd gd n (g_K c (quad_point T p) 0%nat)) /\
  (forall k, (k < 4)%nat -> neumann c k = true -> points_ok (g_Tf c k) /\ values_ok id n (g_Tf c k) (m_face m k) /\ field_ok id (g_g c k) (g_Tf c k) /\ work_ok 1 id 1 n (t_q (g_Tf c k)) (g_ws c (2 + k)%nat)) /\
  work_ok gd gd n n (t_q T) (g_ws c 0%nat) /\ work_ok 1 id 1 n (t_q T) (g_ws c 1%nat) /\ length (g_buf c) = n.
Definition project_ok (d : dmap) (id : nat) (m : mcell) : Prop :=
  let n := num_dof_tet d in let c := m_c m in let T := g_T c in
  points_ok T /\ values_ok id n T (m_val m) /\ field_ok id (g_f c) T /\
  work_ok id id n n (t_q T) (g_ws c 0%nat) /\ work_ok 1 id 1 n (t_q T) (g_ws c 1%nat) /\ (id <= length (w_loc (g_ws c 1%nat)))%nat.
(** The iteration over the dofs on selected elements is exact (C07): for example for every space without composition *)
Definition iteration_ok (d : dmap) (c : pcell) : Prop := SparsitySpec.iter_safe (fst (gather d (g_isd c) (g_bnd c))) d.

(** *** The whole mesh *)
Definition number (m : mcell) (i : nat) : nat := nth i (g_dof (m_c m)) 0%nat.
Definition sign (m : mcell) (i : nat) : R := if nth i (g_flip (m_c m)) false then -1 else 1.
(** Coefficient of local basis function j when x are the global dofs *)
Definition local_coef (m : mcell) (x : nat -> R) (j : nat) : R := sign m j * x (number m j).

(** Residual of the Galerkin equation tested with global basis function r *)
Definition galerkin_residual (n : nat) (A : mcell -> nat -> nat -> R) (F : mcell -> nat -> R) (mesh : list mcell) (x : nat -> R) (r : nat) : R :=
  lsum (map (fun m => Rsum n (fun i => if (number m i =? r)%nat then sign m i * (Rsum n (fun j => A m i j * local_coef m x j) - F m i) else 0)) mesh).
(** Equation r of the assembled system, rows beg, beg + 1, ... of which are m, b *)
Definition equation (size beg : nat) (m : list row) (b : list R) (x : nat -> R) (r : nat) : Prop :=
  Rsum size (fun c => mat_at beg m r c * x c) = vec_at beg b r.

(** Global dofs on Dirichlet elements and their values, as seen from the cells: two cells with a common dof have the
    element carrying it in common *)
Definition dirichlet_dofs (d : dmap) (mesh : list mcell) (D : nat -> bool) (v : nat -> R) : Prop :=
  forall m i, In m mesh -> (i < num_dof_tet d)%nat -> on_dirichlet d (g_isd (m_c m)) i = D (number m i) /\
    (D (number m i) = true -> dir_value d (g_u0 (m_c m)) i = sign m i * v (number m i)).
(** Every global dof belongs to a cell *)
Definition no_idle_dof (n size : nat) (mesh : list mcell) : Prop := forall r, (r < size)%nat -> exists m i, In m mesh /\ (i < n)%nat /\ number m i = r.
(** [here] are the cells a process with rows [beg, beg + rows) stores: all that have a dof in the interval *)
Definition stored_cells (n beg rows : nat) (mesh here : list mcell) : Prop :=
  exists others, Permutation mesh (here ++ others) /\ forall m i, In m others -> (i < n)%nat -> ~ (beg <= number m i < beg + rows)%nat.
(** No entry is lost because it is small: it is zero or above the threshold *)
Definition above (drop : R) (x : R) : Prop := x = 0 \/ drop < Rabs x.

(** Value of the finite element function with global dofs x at quadrature point p of a cell *)
Definition fe_value (n : nat) (m : mcell) (x : nat -> R) (p k : nat) : R := Rsum n (fun j => local_coef m x j * m_val m p k j).
Definition fe_gradient (n : nat) (m : mcell) (x : nat -> R) (p k : nat) : R := Rsum n (fun j => local_coef m x j * m_grad m p k j).
(** Squared distance of this function from the user's one, by quadrature *)
Definition distance2 (n id : nat) (mesh : list mcell) (x : nat -> R) : R :=
  lsum (map (fun m => Rsum (t_q (g_T (m_c m))) (fun p => quad_weight (g_T (m_c m)) p *
    Rsum id (fun k => Rsqr (fe_value n m x p k - nth k (g_f (m_c m) (quad_point (g_T (m_c m)) p)) 0)))) mesh).

(** The functional minimised by the solution of the diffusion problem: half the quadrature sum of (K grad u, grad u) minus the loads *)
Definition diffusion_energy (gd id n : nat) (mesh : list mcell) (x : nat -> R) : R :=
  lsum (map (fun m => / 2 * Rsum (t_q (g_T (m_c m))) (fun p => quad_weight (g_T (m_c m)) p *
      Rsum gd (fun k => Rsum gd (fun l => tmat (g_K (m_c m) (quad_point (g_T (m_c m)) p) 0%nat) gd gd k l * fe_gradient n m x p l) * fe_gradient n m x p k))
    - Rsum n (fun i => local_coef m x i * cell_load id m i)) mesh).
(** Nonnegative weights and measure; a symmetric tensor that is nonnegative *)
Definition weights_ok (m : mcell) : Prop := forall p, (p < t_q (g_T (m_c m)))%nat -> 0 <= quad_weight (g_T (m_c m)) p.
Definition tensor_spd (gd : nat) (m : mcell) : Prop := forall p, (p < t_q (g_T (m_c m)))%nat ->
  let K := tmat (g_K (m_c m) (quad_point (g_T (m_c m)) p) 0%nat) gd gd in
  (forall k l, (k < gd)%nat -> (l < gd)%nat -> K k l = K l k) /\ (forall xi : nat -> R, 0 <= Rsum gd (fun k => Rsum gd (fun l => K k l * xi l) * xi k)).

(** *** The processes of a run *)
Record process := mkPr { r_p : prob; r_o : opts; r_rows : nat; r_here : list mcell }.
Definition owns (q : process) (r : nat) : Prop := (p_beg (r_p q) <= r < p_beg (r_p q) + r_rows q)%nat.
(** The same variable for trial and test functions, a fresh matrix, all the cells around the owned dofs, no entry lost *)
Definition process_ok (n size : nat) (A : mcell -> nat -> nat -> R) (mesh : list mcell) (q : process) : Prop :=
  p_n (r_p q) = n /\ p_size (r_p q) = size /\ p_same (r_p q) = true /\ is_mtx_include_template (r_o q) = false /\ drop_val (r_o q) < 1 /\
  (p_beg (r_p q) + r_rows q <= size)%nat /\ stored_cells n (p_beg (r_p q)) (r_rows q) mesh (r_here q) /\
  (forall m i j, In m mesh -> (i < n)%nat -> (j < n)%nat -> above (drop_val (r_o q)) (A m i j)).
Definition run_ok (n size : nat) (A : mcell -> nat -> nat -> R) (mesh : list mcell) (procs : list process) : Prop :=
  (forall q, In q procs -> process_ok n size A mesh q) /\ (forall r, (r < size)%nat -> exists q, In q procs /\ owns q r).
(** Every process assembles its rows; x solves the system they make together *)
Definition assembles (procs : list process) (sys : process -> res state) : Prop := forall q, In q procs -> exists M b, sys q = Ok (M, b).
Definition solves_system (size : nat) (procs : list process) (sys : process -> res state) (x : nat -> R) : Prop :=
  forall q M b r, In q procs -> sys q = Ok (M, b) -> owns q r -> equation size (p_beg (r_p q)) M b x r.
Definition run_diffusion (d : dmap) (gd id : nat) (q : process) : res state := diffusion_system d gd id (r_p q) (r_o q) (r_rows q) (map m_c (r_here q)).
Definition run_project (d : dmap) (id : nat) (q : process) : res state := project_system d id (r_p q) (r_o q) (r_rows q) (map m_c (r_here q)).
Definition run_laplace (d : dmap) (gd id : nat) (q : process) : res state := laplace_system d gd id (r_p q) (r_o q) (r_rows q) (map m_c (r_here q)).

(** Mass matrix and load of the projection; matrix of the Laplace operator *)
Definition cell_mass (id : nat) (m : mcell) : nat -> nat -> R := mass id (g_T (m_c m)) (m_val m).
Definition cell_source (id : nat) (m : mcell) : nat -> R := source id (g_f (m_c m)) (g_T (m_c m)) (m_val m).
Definition laplace_matrix (gd : nat) (m : mcell) (i j : nat) : R :=
  Rsum (t_q (g_T (m_c m))) (fun p => quad_weight (g_T (m_c m)) p * Rsum gd (fun k => m_grad m p k j * m_grad m p k i)).
Definition dirichlet_energy (gd n : nat) (mesh : list mcell) (x : nat -> R) : R :=
  lsum (map (fun m => / 2 * Rsum (t_q (g_T (m_c m))) (fun p => quad_weight (g_T (m_c m)) p * Rsum gd (fun k => Rsqr (fe_gradient n m x p k)))) mesh).
Definition laplace_ok (d : dmap) (gd id : nat) (m : mcell) : Prop :=
  let n := num_dof_tet d in let c := m_c m in let T := g_T c in
  (points_ok T /\ values_ok id n T (m_val m) /\ gradients_ok gd n T (m_grad m)) /\
  (forall k, (k < 4)%nat -> neumann c k = true -> points_ok (g_Tf c k) /\ values_ok id n (g_Tf c k) (m_face m k) /\ work_ok 1 id 1 n (t_q (g_Tf c k)) (g_ws c (2 + k)%nat)) /\
  work_ok gd gd n n (t_q T) (g_ws c 0%nat) /\ work_ok 1 id 1 n (t_q T) (g_ws c 1%nat) /\ length (g_buf c) = n.
