(** Generation of a tetrahedral mesh of a box by every process
    (anifem++/utils/mesh_utils.cpp).  Doubles are reals; unsigned 32-bit arithmetic is
    kept where it may wrap.  [None] is an access outside an array.  A mesh is the list of
    nodes a process creates and the list of cells, a cell being the node numbers of its
    faces as given to INMOST's CreateCell; merging the nodes that several processes create
    (ResolveShared) is not modelled. *)
From Verif Require Import Prelude.
From Coq Require Import Reals ZArith.
Open Scope nat_scope.

(** Arithmetic of unsigned (mesh_utils.cpp:91-145) *)
Definition u32 (x : Z) : Z := (x mod 2 ^ 32)%Z.

(** *** CreateNWTetElements: mesh_utils.cpp:20-48.  Faces of the six tetrahedra by the
    local numbers of the nodes of the cube. *)
(** mesh_utils.cpp:23-24 *)
Definition ne1 := [[0;1;5]; [5;1;3]; [1;0;3]; [3;0;5]].
(** mesh_utils.cpp:26-27 *)
Definition ne2 := [[0;3;5]; [0;7;3]; [5;3;7]; [0;5;7]].
(** mesh_utils.cpp:29-30 *)
Definition ne3 := [[0;7;5]; [4;5;7]; [0;5;4]; [0;4;7]].
(** mesh_utils.cpp:33-34 *)
Definition sw1 := [[0;3;7]; [2;7;3]; [0;7;2]; [0;2;3]].
(** mesh_utils.cpp:36-37 *)
Definition sw2 := [[0;7;4]; [0;2;7]; [2;4;7]; [0;4;2]].
(** mesh_utils.cpp:39-40 *)
Definition sw3 := [[4;6;2]; [6;7;2]; [4;7;6]; [4;2;7]].
(** mesh_utils.cpp:42-47, in the order of creation *)
Definition six : list (list (list nat)) := [ne1; ne2; ne3; sw1; sw2; sw3].
(** The face nodes that INMOST's CreateCell takes from [verts] (mesh_utils.cpp:42) *)
Definition create_cell (verts : list nat) (faces : list (list nat)) : option (list (list nat)) :=
  fold_right (fun f r => do r' <- r ; do f' <- fold_right (fun l q => do q' <- q ; do n <- rd verts l ; Some (n :: q')) (Some []) f ; Some (f' :: r')) (Some []) faces.
(** mesh_utils.cpp:42-47 *)
Definition create_nw_tets (verts : list nat) : option (list (list (list nat))) :=
  fold_right (fun t r => do r' <- r ; do c <- create_cell verts t ; Some (c :: r')) (Some []) six.

(** *** Processes per axis: mesh_utils.cpp:54-87 *)
(** mesh_utils.cpp:73-79: for (k = 2; k <= divsize; k++) if (divsize % k == 0) ... break:
    the first k *)
Fixpoint first_div (fuel k n : nat) : option nat :=
  match fuel with
  | O => None
  | S f => if k <=? n then if n mod k =? 0 then Some k else first_div f (S k) n else None
  end.
(** mesh_utils.cpp:69-80: while (divsize > 1) ...; [fuel] the number of rounds, at most [n] are needed. *)
Fixpoint divs (fuel n : nat) : list nat :=
  match fuel with
  | O => []
  | S f => if 1 <? n then match first_div n 2 n with Some k => k :: divs f (n / k) | None => divs f n end else []
  end.
(** unsigned[3] (mesh_utils.cpp:54) *)
Definition axes := (nat * nat * nat)%type.
(** v[d] *)
Definition axis {T} (d : nat) (s : T * T * T) : T :=
  match d with O => fst (fst s) | S O => snd (fst s) | _ => snd s end.
(** std::max_element (mesh_utils.cpp:84): the first of the largest *)
Definition max_axis (e : axes) : nat :=
  let '(a, b, c) := e in if a <? b then (if b <? c then 2 else 1) else (if a <? c then 2 else 0).
(** Update of one entry (mesh_utils.cpp:85-86) *)
Definition at_axis (d : nat) (f : nat -> nat) (e : axes) : axes :=
  let '(a, b, c) := e in match d with O => (f a, b, c) | S O => (a, f b, c) | _ => (a, b, f c) end.
(** mesh_utils.cpp:84-86 *)
Definition split_step (s : axes * axes) (k : nat) : axes * axes :=
  let d := max_axis (snd s) in (at_axis d (fun p => p * k) (fst s), at_axis d (fun e => e / k) (snd s)).
(** mesh_utils.cpp:54, 68-88: the divisors from the largest *)
Definition procs_per_axis (size : nat) (sizes : axes) : axes :=
  fst (fold_left split_step (rev (divs size size)) ((1, 1, 1), sizes)).
(** mesh_utils.cpp:91 *)
Definition proc_coords (rank : nat) (procs : axes) : axes :=
  (rank mod axis 0 procs, rank / axis 0 procs mod axis 1 procs, rank / (axis 0 procs * axis 1 procs)).

(** *** Local part of an axis: mesh_utils.cpp:93-108.  The quotient of two integers
    below 2^32 is rounded to a double by less than its distance to the next integer
    below, so ceil gives the exact value. *)
(** mesh_utils.cpp:94-99 *)
Definition avgsize (size procs : nat) : nat := (size + procs - 1) / procs.
(** mesh_utils.cpp:103 *)
Definition local_start (size procs c : nat) : Z := u32 (Z.of_nat (avgsize size procs) * Z.of_nat c).
(** mesh_utils.cpp:104-106 *)
Definition local_size (size procs c : nat) : Z :=
  if c =? procs - 1 then u32 (Z.of_nat size - Z.of_nat (avgsize size procs) * (Z.of_nat procs - 1)) else Z.of_nat (avgsize size procs).
(** mesh_utils.cpp:107 *)
Definition local_end (size procs c : nat) : Z := u32 (local_start size procs c + local_size size procs c).

(** for (unsigned i = lo; i <= hi; i++) (mesh_utils.cpp:114-116, 126-128), for hi below
    the largest unsigned *)
Definition upto (lo hi : Z) : list Z := map (fun t => (lo + Z.of_nat t)%Z) (seq 0 (Z.to_nat (hi - lo + 1))).

(** *** Nodes: mesh_utils.cpp:110-123 *)
(** std::array<double, 3> *)
Definition point := (R * R * R)%type.
(** mesh_utils.cpp:119 *)
Definition node_coord (size : nat) (A O : R) (i : Z) : R := (IZR i * (A - O) / IZR (Z.of_nat size) + O)%R.
(** mesh_utils.cpp:118-121 *)
Definition node_at (sizes : axes) (A O : point) (i j k : Z) : point :=
  (node_coord (axis 0 sizes) (axis 0 A) (axis 0 O) i, node_coord (axis 1 sizes) (axis 1 A) (axis 1 O) j, node_coord (axis 2 sizes) (axis 2 A) (axis 2 O) k).
(** localstart, localsize, localend (mesh_utils.cpp:93) *)
Record local := mkLocal { lstart : Z * Z * Z; lsize : Z * Z * Z; lend : Z * Z * Z }.
(** mesh_utils.cpp:91-108 *)
Definition local_of (rank size : nat) (sizes : axes) : local :=
  let procs := procs_per_axis size sizes in
  let c := proc_coords rank procs in
  let f (g : nat -> nat -> nat -> Z) := (g (axis 0 sizes) (axis 0 procs) (axis 0 c), g (axis 1 sizes) (axis 1 procs) (axis 1 c), g (axis 2 sizes) (axis 2 procs) (axis 2 c)) in
  mkLocal (f local_start) (f local_size) (f local_end).
(** mesh_utils.cpp:114-123 *)
Definition new_nodes (l : local) (sizes : axes) (A O : point) : list point :=
  flat_map (fun i => flat_map (fun j => map (fun k => node_at sizes A O i j k)
    (upto (axis 2 (lstart l)) (axis 2 (lend l)))) (upto (axis 1 (lstart l)) (axis 1 (lend l)))) (upto (axis 0 (lstart l)) (axis 0 (lend l))).

(** *** Cells: mesh_utils.cpp:124-145 *)
(** mesh_utils.cpp:124 *)
Definition V_ID (l : local) (x y z : Z) : Z :=
  u32 ((x - axis 0 (lstart l)) * (axis 1 (lsize l) + 1) * (axis 2 (lsize l) + 1) + (y - axis 1 (lstart l)) * (axis 2 (lsize l) + 1) + (z - axis 2 (lstart l)))%Z.
(** newverts[V_ID(x, y, z)] (mesh_utils.cpp:133) *)
Definition vert (l : local) (nodes : list point) (x y z : Z) : option nat :=
  let n := Z.to_nat (V_ID l x y z) in do _ <- guard (n <? length nodes) ; Some n.
(** mesh_utils.cpp:132-140 *)
Definition cube_verts (l : local) (nodes : list point) (i j k : Z) : option (list nat) :=
  do v0 <- vert l nodes (i - 1) (j - 1) (k - 1) ;
  do v1 <- vert l nodes i (j - 1) (k - 1) ;
  do v2 <- vert l nodes (i - 1) j (k - 1) ;
  do v3 <- vert l nodes i j (k - 1) ;
  do v4 <- vert l nodes (i - 1) (j - 1) k ;
  do v5 <- vert l nodes i (j - 1) k ;
  do v6 <- vert l nodes (i - 1) j k ;
  do v7 <- vert l nodes i j k ;
  Some [v0; v1; v2; v3; v4; v5; v6; v7].
(** mesh_utils.cpp:132-143 *)
Definition cube_cells (l : local) (nodes : list point) (i j k : Z) : option (list (list (list nat))) :=
  do v <- cube_verts l nodes i j k ; create_nw_tets v.
(** The loops mesh_utils.cpp:126-128 *)
Definition cubes (l : local) : list (Z * Z * Z) :=
  flat_map (fun i => flat_map (fun j => map (fun k => (i, j, k))
    (upto (axis 2 (lstart l) + 1) (axis 2 (lend l)))) (upto (axis 1 (lstart l) + 1) (axis 1 (lend l)))) (upto (axis 0 (lstart l) + 1) (axis 0 (lend l))).
(** mesh_utils.cpp:126-144 *)
Definition new_cells (l : local) (nodes : list point) : option (list (list (list nat))) :=
  fold_left (fun r q => do cs <- r ; do new <- cube_cells l nodes (axis 0 q) (axis 1 q) (axis 2 q) ; Some (cs ++ new)) (cubes l) (Some []).

(** *** GenerateParallelepiped: mesh_utils.cpp:52-149; GenerateCube: 153-155 *)
Definition generate (rank size : nat) (sizes : axes) (A O : point) : option (list point * list (list (list nat))) :=
  let l := local_of rank size sizes in
  let nodes := new_nodes l sizes A O in
  do cells <- new_cells l nodes ;
  Some (nodes, cells).
Definition generate_cube (rank size : nat) (sizes : axes) (len : R) :=
  generate rank size sizes (len, len, len) (0%R, 0%R, 0%R).
