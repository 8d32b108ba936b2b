(** Imposing Dirichlet values on elemental matrices.
    Sources: fem/operations/dc_on_dof.h (h), fem/operations/dc_on_dof.inl (inl),
    fem/fem_memory.h:54-75 (DenseMatrix, column-major: see [mrd], [mwr]).
    Matrices are bounds-checked arrays; double is R. *)
From Verif Require Import RSum.
Local Open Scope R_scope.

(* h:14-17 applyDirNonExists(A, k); n = A.nRow, c = A.nCol *)
Definition dir_non_exists (n c : nat) (A : list R) (k : nat) : option (list R) :=
  do A1 <- for_range (k * n) n (fun p A => wr A p 0) A;
  for_ c (fun i A => mwr A n k i 0) A1.
(* h:20-23 applyDirNonExists(A, F, k) *)
Definition dir_non_exists_rhs (n c : nat) (A F : list R) (k : nat) : option (list R * list R) :=
  do A1 <- dir_non_exists n c A k;
  do F1 <- wr F k 0;
  Some (A1, F1).
(* h:27-31 applyDirMatrix *)
Definition dir_matrix (n c : nat) (A : list R) (k : nat) : option (list R) :=
  do A1 <- for_range (k * n) n (fun p A => wr A p 0) A;
  do A2 <- for_ c (fun i A => mwr A n k i 0) A1;
  mwr A2 n k k 1.
(* h:39-45 applyDir *)
Definition apply_dir (n c : nat) (A F : list R) (k : nat) (bc : R) : option (list R * list R) :=
  do F1 <- for_ n (fun i F => do f <- rd F i; do a <- mrd A n i k; wr F i (f - a * bc)) F;
  do F2 <- wr F1 k bc;
  do A1 <- dir_matrix n c A k;
  Some (A1, F2).
(* h:50-52 applyDirResidual *)
Definition dir_residual (F : list R) (k : nat) : option (list R) := wr F k 0.

(* a caller imposing values on several dofs, one applyDir after another *)
Fixpoint dir_all (n c : nat) (l : list (nat * R)) (s : list R * list R) : option (list R * list R) :=
  match l with
  | [] => Some s
  | (k, b) :: r => do s' <- apply_dir n c (fst s) (snd s) k b; dir_all n c r s'
  end.

(* inl:3-4 get_id_base / get_id_dat; [None] is dc_orth == nullptr *)
Definition get_id (id : option (list nat)) (k : nat) : option nat :=
  match id with None => Some k | Some l => rd l k end.

(* inl:6-24 performMatrixReorthogonalization; [None] also stands for the exception *)
Definition reorth_matrix (n c dim : nat) (A : list R) (dof : list nat) (V mem : list R) : option (list R * list R) :=
  do _ <- guard (dim * Nat.max c n <=? length mem)%nat;
  do mem1 <- for_ c (fun j mem => for_ dim (fun i mem =>
      do di <- rd dof i; do a <- mrd A n di j; mwr mem dim i j a) mem) mem;
  do A1 <- for_ c (fun j A => for_ dim (fun m A =>
      do s <- for_ dim (fun p s => do r <- mrd mem1 dim p j; do v <- mrd V dim m p; Some (s + r * v)) 0;
      do dm <- rd dof m; mwr A n dm j s) A) A;
  Some (A1, mem1).
(* inl:26-38 performRhsReorthogonalization *)
Definition reorth_rhs (dim : nat) (F : list R) (dof : list nat) (V mem : list R) : option (list R * list R) :=
  do _ <- guard (dim <=? length mem)%nat;
  do mem1 <- for_ dim (fun m mem => do dm <- rd dof m; do f <- rd F dm; wr mem m f) mem;
  do F1 <- for_ dim (fun m F =>
      do dm <- rd dof m; do F0 <- wr F dm 0;
      for_ dim (fun p F => do f <- rd F dm; do r <- rd mem1 p; do v <- mrd V dim m p; wr F dm (f + r * v)) F0) F;
  Some (F1, mem1).
(* inl:40-58 setVectorDirMtxExtraCol, applyVectorDirMatrixExtCol inl:128-139 *)
Definition vector_dir_ext_col (dim : nat) (B : list R) (dof : list nat) (V mem : list R) (ndc : nat) (id : option (list nat))
    : option (list R) :=
  do mem1 <- for_ dim (fun m mem => do dm <- rd dof m; do a <- rd B dm; wr mem m a) mem;
  do B1 <- for_ dim (fun m B =>
      do s <- for_ dim (fun p s => do r <- rd mem1 p; do v <- mrd V dim m p; Some (s + r * v)) 0;
      do dm <- rd dof m; wr B dm s) B;
  for_ ndc (fun k B => do ik <- get_id id k; do dk <- rd dof ik; wr B dk 0) B1.
(* inl:59-71 setVectorDirMtxExtraRow, applyVectorDirMatrixExtRow inl:140-150 *)
Definition vector_dir_ext_row (dim : nat) (C : list R) (dof : list nat) (V : list R) (ndc : nat) (id : option (list nat))
    : option (list R) :=
  for_ ndc (fun k C =>
    do ik <- get_id id k;
    do s <- for_ dim (fun p s => do dp <- rd dof p; do a <- rd C dp; do v <- mrd V dim ik p; Some (s + a * v)) 0;
    for_ dim (fun l C => do dl <- rd dof l; do a <- rd C dl; do v <- mrd V dim ik l; wr C dl (a - s * v)) C) C.
(* inl:72-95 setVectorDirMtx; the work column is C(j, 1) of an nRow x 1 matrix,
   that is mem[j + nRow] *)
Definition set_dir_matrix (n c dim : nat) (A : list R) (dof : list nat) (V mem : list R) (ndc : nat) (id : option (list nat))
    : option (list R * list R) :=
  for_ ndc (fun k '(A, mem) =>
    do ik <- get_id id k;
    do mem1 <- for_ n (fun j mem =>
        do s <- for_ dim (fun p s => do dp <- rd dof p; do a <- mrd A n j dp; do v <- mrd V dim ik p; Some (s + a * v)) 0;
        mwr mem n j 1 s) mem;
    do A1 <- for_ dim (fun l A => for_ n (fun j A =>
        do dl <- rd dof l; do a <- mrd A n j dl; do s <- mrd mem1 n j 1; do v <- mrd V dim ik l; mwr A n j dl (a - s * v)) A) A;
    do dk <- rd dof ik;
    do A2 <- for_ c (fun j A => mwr A n dk j 0) A1;
    do A3 <- for_ dim (fun m A => do dm <- rd dof m; do v <- mrd V dim ik m; mwr A n dk dm v) A2;
    Some (A3, mem1)) (A, mem).
(* inl:96-112 setVectorDirRhs *)
Definition set_dir_rhs (n dim : nat) (A F : list R) (dof : list nat) (V bc : list R) (ndc : nat) (id : option (list nat))
    : option (list R) :=
  for_ ndc (fun k F =>
    do ik <- get_id id k;
    do b <- rd bc k;
    do F1 <- for_ dim (fun m F =>
        do dm <- rd dof m;
        for_ n (fun j F => do f <- rd F j; do a <- mrd A n j dm; do v <- mrd V dim ik m; wr F j (f - a * v * b)) F) F;
    do dk <- rd dof ik;
    wr F1 dk b) F.
(* inl:113-118 setVectorDirResidual *)
Definition set_dir_residual (F : list R) (dof : list nat) (ndc : nat) (id : option (list nat)) : option (list R) :=
  for_ ndc (fun k F => do ik <- get_id id k; do dk <- rd dof ik; wr F dk 0) F.

(* inl:121-132 applyVectorDirMatrix *)
Definition vector_dir_matrix (n c dim : nat) (A : list R) (dof : list nat) (V mem : list R) (ndc : nat) (id : option (list nat))
    : option (list R) :=
  do r <- reorth_matrix n c dim A dof V mem;
  do r2 <- set_dir_matrix n c dim (fst r) dof V (snd r) ndc id;
  Some (fst r2).
(* inl:152-168 applyVectorDir *)
Definition vector_dir (n c dim : nat) (A F : list R) (dof : list nat) (V bc mem : list R) (ndc : nat) (id : option (list nat))
    : option (list R * list R) :=
  do r <- reorth_matrix n c dim A dof V mem;
  do g <- reorth_rhs dim F dof V (snd r);
  do F2 <- set_dir_rhs n dim (fst r) (fst g) dof V bc ndc id;
  do r2 <- set_dir_matrix n c dim (fst r) dof V (snd g) ndc id;
  Some (fst r2, F2).
(* inl:170-182 applyVectorDirResidual *)
Definition vector_dir_residual (dim : nat) (F : list R) (dof : list nat) (V mem : list R) (ndc : nat) (id : option (list nat))
    : option (list R) :=
  do g <- reorth_rhs dim F dof V mem;
  set_dir_residual (fst g) dof ndc id.
