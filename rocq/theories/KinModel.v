(** Model of the interface to the nonlinear solver KINSOL:
    /repo/anifem++/kinsol_interface/SUNNonlinearSolver.cpp (vector operations
    146-606, matrix-vector product 781-795, linear solver 877-947, the class
    SUNNonlinearSolver 967-1322) and SUNNonlinearSolver.h (250-380).

    Simplifications.  Doubles are reals, division by zero is the reals' one
    (theorems about division assume non-zero denominators).  An N_Vector is the
    number of its data in the memory of the process; two N_Vectors that wrap the
    same INMOST vector are the same number.  The time measurements, the printed
    messages and allocation failures (NULL results) are not modelled. *)
From Coq Require Import Reals String Ascii Permutation.
From Verif Require Import Prelude RSum.
Open Scope R_scope.

(** ** Vectors: the memory of one process is a list of local parts. *)
Definition vmem := list (list R).
Definition vec := nat.
Definition getv (h : vmem) (x : vec) (i : nat) : option R := do l <- rd h x; rd l i.
Definition setv (h : vmem) (z : vec) (i : nat) (v : R) : option vmem :=
  do l <- rd h z; do l' <- wr l i v; wr h z l'.
(** Sparse::Vector::Size(): the local number of entries (End() - Begin()). *)
Definition vsize (h : vmem) (x : vec) : nat := match rd h x with Some l => length l | None => 0%nat end.

(** The loop "itx, ity, itz in step, until one of them ends: *itz = f( *itx, *ity)";
    every read happens before the write of the same step
    (SUNNonlinearSolver.cpp 272-297). *)
Definition loop2 (f : R -> R -> R) (x y z : vec) (h : vmem) : option vmem :=
  for_ (Nat.min (vsize h x) (Nat.min (vsize h y) (vsize h z)))
    (fun i h => do a <- getv h x i; do b <- getv h y i; setv h z i (f a b)) h.
(** The loop over two vectors (SUNNonlinearSolver.cpp 305-329, 463-467). *)
Definition loop1 (f : R -> R) (x z : vec) (h : vmem) : option vmem :=
  for_ (Nat.min (vsize h x) (vsize h z)) (fun i h => do a <- getv h x i; setv h z i (f a)) h.

(** N_VLinearSum_Inmost (272-277) *)
Definition linear_sum (a : R) (x : vec) (b : R) (y z : vec) (h : vmem) : option vmem :=
  loop2 (fun u v => a * u + b * v) x y z h.
(** N_VConst_Inmost (279-283) *)
Definition vconst (c : R) (z : vec) (h : vmem) : option vmem :=
  for_ (vsize h z) (fun i h => setv h z i c) h.
(** N_VProd_Inmost (285-290) *)
Definition vprod (x y z : vec) (h : vmem) : option vmem := loop2 (fun u v => u * v) x y z h.
(** N_VDiv_Inmost (292-297) *)
Definition vdiv (x y z : vec) (h : vmem) : option vmem := loop2 (fun u v => u / v) x y z h.
(** "for it: *it *= c" (302, 566) *)
Definition scale_in_place (c : R) (x : vec) (h : vmem) : option vmem :=
  for_ (vsize h x) (fun i h => do a <- getv h x i; setv h x i (a * c)) h.
(** N_VScale_Inmost (299-311) *)
Definition vscale (c : R) (x z : vec) (h : vmem) : option vmem :=
  if (z =? x)%nat then scale_in_place c x h
  else if Req_EM_T c 1 then loop1 (fun u => u) x z h
  else loop1 (fun u => c * u) x z h.
(** N_VAbs_Inmost (313-317) *)
Definition vabs (x z : vec) (h : vmem) : option vmem := loop1 Rabs x z h.
(** N_VInv_Inmost (319-323) *)
Definition vinv (x z : vec) (h : vmem) : option vmem := loop1 (fun u => 1 / u) x z h.
(** N_VAddConst_Inmost (325-329) *)
Definition vaddconst (x : vec) (b : R) (z : vec) (h : vmem) : option vmem := loop1 (fun u => u + b) x z h.
(** N_VCompare_Inmost (463-467) *)
Definition vcompare (c : R) (x z : vec) (h : vmem) : option vmem :=
  loop1 (fun u => if Rle_dec c (Rabs u) then 1 else 0) x z h.

(** Local reductions *)
(** N_VDotProdLocal_Inmost (331-337) *)
Definition dot_local (x y : vec) (h : vmem) : option R :=
  for_ (Nat.min (vsize h x) (vsize h y)) (fun i s => do a <- getv h x i; do b <- getv h y i; Some (s + a * b)) 0.
(** N_VMaxNormLocal_Inmost (349-355) *)
Definition max_local (x : vec) (h : vmem) : option R :=
  for_ (vsize h x) (fun i s => do a <- getv h x i; Some (Rmax (Rabs a) s)) 0.
(** N_VWSqrSumLocal_Inmost (367-375), the same loop in N_VWL2Norm_Inmost (430-436) *)
Definition wsqr_local (x w : vec) (h : vmem) : option R :=
  for_ (Nat.min (vsize h x) (vsize h w))
    (fun i s => do a <- getv h x i; do b <- getv h w i; let prod := a * b in Some (s + prod * prod)) 0.
(** N_VWSqrSumMaskLocal_Inmost (388-398) *)
Definition wsqr_mask_local (x w d : vec) (h : vmem) : option R :=
  for_ (Nat.min (vsize h x) (Nat.min (vsize h w) (vsize h d)))
    (fun i s => do a <- getv h x i; do b <- getv h w i; do m <- getv h d i;
                if Rlt_dec 0 m then let prod := a * b in Some (s + prod * prod) else Some s) 0.
(** N_VL1NormLocal_Inmost (445-451) *)
Definition l1_local (x : vec) (h : vmem) : option R :=
  for_ (vsize h x) (fun i s => do a <- getv h x i; Some (s + Rabs a)) 0.
(** N_VMinLocal_Inmost (411-418); [big] is BIG_REAL *)
Definition min_local (big : R) (x : vec) (h : vmem) : option R :=
  for_ (vsize h x) (fun i s => do a <- getv h x i; Some (Rmin a s)) big.
(** N_VMinQuotientLocal_Inmost (525-534) *)
Definition minq_local (big : R) (x y : vec) (h : vmem) : option R :=
  for_ (Nat.min (vsize h x) (vsize h y))
    (fun i s => do a <- getv h x i; do b <- getv h y i;
                if Req_EM_T b 0 then Some s else Some (Rmin s (a / b))) big.

(** N_VInvTestLocal_Inmost (469-476), the same loop in N_VInvTest_Inmost (478-483) *)
Definition invtest_local (x z : vec) (h : vmem) : option (nat * vmem) :=
  for_ (Nat.min (vsize h x) (vsize h z))
    (fun i (s : nat * vmem) => let (lval, h) := s in
       do a <- getv h x i;
       if Req_EM_T a 0 then Some (0%nat, h) else do h' <- setv h z i (1 / a); Some (lval, h')) (1%nat, h).
(** comparisons of doubles *)
Definition Rltb (a b : R) : bool := if Rlt_dec a b then true else false.
Definition Rleb (a b : R) : bool := if Rle_dec a b then true else false.
(** N_VConstrMaskLocal_Inmost (492-511): [temp] is 1 when a constraint is violated *)
Definition constr_local (c x m : vec) (h : vmem) : option (nat * vmem) :=
  for_ (Nat.min (vsize h x) (Nat.min (vsize h c) (vsize h m)))
    (fun i (s : nat * vmem) => let (temp, h) := s in
       do h1 <- setv h m i 0;
       do ci <- getv h1 c i;
       if Req_EM_T ci 0 then Some (temp, h1)
       else
         do xi <- getv h1 x i;
         let test := ((Rltb (3 / 2) (Rabs ci) && Rleb (xi * ci) 0) || (Rltb (1 / 2) (Rabs ci) && Rltb (xi * ci) 0))%bool in
         if test then do h2 <- setv h1 m i 1; Some (1%nat, h2) else Some (temp, h1)) (0%nat, h).

(** N_VLinearCombination_Inmost (552-576): the local work; -1 for nvec < 1. *)
Definition lin_comb (c : list R) (X : list vec) (z : vec) (h : vmem) : option (Z * vmem) :=
  match c, X with
  | [], [] => Some ((-1)%Z, h)
  | [c0], [x0] => do h' <- vscale c0 x0 z h; Some (0%Z, h')
  | [c0; c1], [x0; x1] => do h' <- linear_sum c0 x0 c1 x1 z h; Some (0%Z, h')
  | c0 :: _, x0 :: _ =>
      let n := vsize h x0 in
      do h1 <- (if (z =? x0)%nat then scale_in_place c0 x0 h else loop1 (fun u => c0 * u) x0 z h);
      do h2 <- for_range 1 (length X - 1) (fun i h =>
                 do ci <- rd c i; do xi <- rd X i;
                 for_ n (fun j h => do a <- getv h z j; do b <- getv h xi j; setv h z j (a + ci * b)) h) h1;
      Some (0%Z, h2)
  | _, _ => None
  end.

(** ** Reductions over the processes
    MPI_Allreduce combines the contributions in an order and a grouping that are
    not specified; every outcome it may have is one of these. *)
Inductive reduced {A} (op : A -> A -> A) : list A -> A -> Prop :=
| red_one : forall a, reduced op [a] a
| red_two : forall l l1 l2 a b, Permutation l (l1 ++ l2) ->
    reduced op l1 a -> reduced op l2 b -> reduced op l (op a b).
(** every process computes its contribution *)
Definition contributions {A} (f : vmem -> option A) (procs : list vmem) (ls : list A) : Prop :=
  Forall2 (fun h v => f h = Some v) procs ls.
Definition allreduce {A} (op : A -> A -> A) (f : vmem -> option A) (procs : list vmem) (r : A) : Prop :=
  exists ls, contributions f procs ls /\ reduced op ls r.

(** N_VDotProd_Inmost (339-347) *)
Definition dot_prod (x y : vec) (procs : list vmem) (r : R) : Prop := allreduce Rplus (dot_local x y) procs r.
(** N_VMaxNorm_Inmost (357-365) *)
Definition max_norm (x : vec) (procs : list vmem) (r : R) : Prop := allreduce Rmax (max_local x) procs r.
(** N_VMin_Inmost (420-428) *)
Definition vmin (big : R) (x : vec) (procs : list vmem) (r : R) : Prop := allreduce Rmin (min_local big x) procs r.
(** N_VL1Norm_Inmost (453-461) *)
Definition l1_norm (x : vec) (procs : list vmem) (r : R) : Prop := allreduce Rplus (l1_local x) procs r.
(** N_VWL2Norm_Inmost (430-443) *)
Definition wl2_norm (x w : vec) (procs : list vmem) (r : R) : Prop :=
  exists g, allreduce Rplus (wsqr_local x w) procs g /\ r = sqrt g.
(** N_VWrmsNorm_Inmost (377-386): the result on the process whose memory is [me];
    the sum is the global one, xv->Size() is the local size. *)
Definition wrms_norm (x w : vec) (procs : list vmem) (me : vmem) (r : R) : Prop :=
  exists g, allreduce Rplus (wsqr_local x w) procs g /\ r = sqrt (g / INR (vsize me x)).
(** N_VWrmsNormMask_Inmost (400-409) *)
Definition wrms_norm_mask (x w d : vec) (procs : list vmem) (me : vmem) (r : R) : Prop :=
  exists g, allreduce Rplus (wsqr_mask_local x w d) procs g /\ r = sqrt (g / INR (vsize me x)).
(** N_VMinQuotient_Inmost (536-544) *)
Definition min_quotient (big : R) (x y : vec) (procs : list vmem) (r : R) : Prop :=
  allreduce Rmin (minq_local big x y) procs r.
(** N_VGetLength_Inmost (146-148) *)
Definition get_length (x : vec) (me : vmem) : nat := vsize me x.
(** N_VInvTest_Inmost (478-490): result and the memories afterwards *)
Definition inv_test (x z : vec) (procs procs' : list vmem) (r : bool) : Prop :=
  exists ls g, Forall2 (fun h v => invtest_local x z h = Some v) procs (List.combine ls procs') /\
    length ls = length procs' /\ reduced Nat.min ls g /\ r = negb (g =? 0)%nat.
(** N_VConstrMask_Inmost (513-523): temp is 1 where the local test failed *)
Definition constr_mask (c x m : vec) (procs procs' : list vmem) (r : bool) : Prop :=
  exists ls g, Forall2 (fun h v => constr_local c x m h = Some v) procs (List.combine ls procs') /\
    length ls = length procs' /\ reduced Nat.max ls g /\ r = negb (g =? 1)%nat.
(** N_VDotProdMulti_Inmost (578-606): the local part for one Y reads both vectors
    over the whole interval of x; the reduction is per entry of dotprods. *)
Definition dot_multi_local (x y : vec) (h : vmem) : option R :=
  for_ (vsize h x) (fun i s => do a <- getv h x i; do b <- getv h y i; Some (s + a * b)) 0.
Definition dot_multi (x : vec) (Y : list vec) (procs : list vmem) (r : Z * list R) : Prop :=
  match Y with
  | [] => r = ((-1)%Z, [])
  | [y] => exists v, dot_prod x y procs v /\ r = (0%Z, [v])
  | _ => fst r = 0%Z /\ Forall2 (fun y v => allreduce Rplus (dot_multi_local x y) procs v) Y (snd r)
  end.

(** ** Matrix-vector product: SUNMatMatvec_Inmost (781-795)
    "Vector& xv = *NV_DATA_P(x), yv = *NV_DATA_P(y);" declares yv as an object,
    so it is a copy of the vector of y; MatVec(1, xv, 0, yv) overwrites the copy.
    Rows are lists of (column, value) as in INMOST::Sparse::Matrix; one process,
    square matrix. *)
Fixpoint row_times (r : list (nat * R)) (xv : list R) : option R :=
  match r with
  | [] => Some 0
  | (j, a) :: r' => do v <- rd xv j; do s <- row_times r' xv; Some (a * v + s)
  end.
(** m.MatVec(1, xv, 0, yv) (INMOST) *)
Definition mat_vec (m : list (list (nat * R))) (xv yv : list R) : option (list R) :=
  for_ (length m) (fun i yv => do r <- rd m i; do s <- row_times r xv; wr yv i (1 * s + 0)) yv.
Definition sun_matvec (m : list (list (nat * R))) (x y : vec) (h : vmem) : option vmem :=
  do xv <- rd h x;
  do yv <- rd h y;                (* the copy *)
  do yv' <- mat_vec m xv yv;
  Some h.                         (* yv' is destroyed at the end of the function *)

(** ** Linear solver: SUNLinSolSetup_Inmost (877-891), SUNLinSolSolve_Inmost (893-947)
    [updated_mat] is the flag of the content; the calls of the INMOST solver are
    recorded in the order they are made, matrices are numbers. *)
Inductive ls_call := CSetMatrix (A : nat) (modified_pattern old_preconditioner : bool) | CTol (t : R) | CSolve (b x : nat).
Record ls_state := { ls_updated : nat; ls_calls : list ls_call }.
Definition ls_new : ls_state := {| ls_updated := 0; ls_calls := [] |}.
Definition ls_setup (A : nat) (s : ls_state) : ls_state :=
  {| ls_updated := 1; ls_calls := ls_calls s ++ [CSetMatrix A true false] |}.
Definition ls_solve (A x b : nat) (tol : R) (s : ls_state) : ls_state :=
  let s1 := if (ls_updated s =? 1)%nat then s
            else {| ls_updated := 0; ls_calls := ls_calls s ++ [CSetMatrix A false true] |} in
  {| ls_updated := ls_updated s1; ls_calls := ls_calls s1 ++ [CTol tol; CSolve b x] |}.
(** The value returned by SUNLinSolSolve_Inmost from the answer of the INMOST
    solver (917-944); [norm_b] is sqrt(N_VDotProd(b, b)). *)
Inductive sunls := SUCCESS | RES_REDUCED | CONV_FAIL | PACKAGE_FAIL_UNREC | MEM_FAIL.
Definition ls_result (flag : bool) (resid tol norm_b : R) : sunls :=
  if negb flag then
    let reduce_resid := if Rle_dec resid norm_b then true else false in
    let achieve_tol := if Rle_dec resid tol then true else false in
    if reduce_resid && achieve_tol then PACKAGE_FAIL_UNREC
    else if reduce_resid && negb achieve_tol then RES_REDUCED
    else if negb reduce_resid && achieve_tol then PACKAGE_FAIL_UNREC
    else if negb reduce_resid && negb achieve_tol then CONV_FAIL
    else MEM_FAIL
  else if Rle_dec resid tol then SUCCESS
  else if Rle_dec resid norm_b then CONV_FAIL else RES_REDUCED.

(** ** Parameters: SetParameterReal/Integral/SetParameter (1194-1278)
    The setters of KINSOL that are called, with their arguments. *)
Inductive kcall :=
| KEtaConstValue (v : R) | KEtaParams (gamma alpha : R) | KResMonParams (wmin wmax : R)
| KResMonConstValue (v : R) | KMaxNewtonStep (v : R) | KFuncNormTol (v : R) | KScaledStepTol (v : R)
| KDampingAA (v : R) | KNumMaxIters (n : Z) | KNoInitSetup (b : bool) | KNoResMon (b : bool)
| KMaxSetupCalls (n : Z) | KMaxSubSetupCalls (n : Z) | KEtaForm (n : Z) | KNoMinEps (b : bool)
| KMaxBetaFails (n : Z) | KMAA (n : Z).
(** members _egamma, _ealpha, _wmin, _wmax (SUNNonlinearSolver.h 370-371) and the calls made *)
Record pstate := { p_gamma : R; p_alpha : R; p_wmin : R; p_wmax : R; p_calls : list kcall }.
Definition p_init : pstate :=
  {| p_gamma := 9 / 10; p_alpha := 2; p_wmin := 1 / 100000; p_wmax := 9 / 10; p_calls := [] |}.
Definition call (c : kcall) (s : pstate) : pstate :=
  {| p_gamma := p_gamma s; p_alpha := p_alpha s; p_wmin := p_wmin s; p_wmax := p_wmax s; p_calls := p_calls s ++ [c] |}.

Open Scope string_scope.
(** SetParameterReal (1194-1221) *)
Definition set_real (param : string) (val : R) (s : pstate) : bool * pstate :=
  if param =? "EtaConstValue" then (true, call (KEtaConstValue val) s)
  else if param =? "EtaGamma" then
    let s1 := {| p_gamma := val; p_alpha := p_alpha s; p_wmin := p_wmin s; p_wmax := p_wmax s; p_calls := p_calls s |} in
    (true, call (KEtaParams (p_gamma s1) (p_alpha s1)) s1)
  else if param =? "EtaAlpha" then
    let s1 := {| p_gamma := p_gamma s; p_alpha := val; p_wmin := p_wmin s; p_wmax := p_wmax s; p_calls := p_calls s |} in
    (true, call (KEtaParams (p_gamma s1) (p_alpha s1)) s1)
  else if param =? "ResMonWmin" then
    let s1 := {| p_gamma := p_gamma s; p_alpha := p_alpha s; p_wmin := val; p_wmax := p_wmax s; p_calls := p_calls s |} in
    (true, call (KResMonParams (p_wmin s1) (p_wmax s1)) s1)
  else if param =? "ResMonWmax" then
    let s1 := {| p_gamma := p_gamma s; p_alpha := p_alpha s; p_wmin := p_wmin s; p_wmax := val; p_calls := p_calls s |} in
    (true, call (KResMonParams (p_wmin s1) (p_wmax s1)) s1)
  else if param =? "ResMonConst" then (true, call (KResMonConstValue val) s)
  else if param =? "MaxNewtonStep" then (true, call (KMaxNewtonStep val) s)
  else if param =? "FuncNormTol" then (true, call (KFuncNormTol val) s)
  else if param =? "ScaledSteptol" then (true, call (KScaledStepTol val) s)
  else if param =? "DampingAA" then
    if Rlt_dec 1 val then (false, s) else if Rlt_dec val 0 then (false, s)
    else (true, call (KDampingAA val) s)
  else (false, s).
(** SetParameterIntegral (1223-1237); !val is [val =? 0] *)
Definition set_integral (param : string) (val : Z) (s : pstate) : bool * pstate :=
  if param =? "MaxIters" then (true, call (KNumMaxIters val) s)
  else if param =? "UseInitSetup" then (true, call (KNoInitSetup (val =? 0)%Z) s)
  else if param =? "UseResMon" then (true, call (KNoResMon (val =? 0)%Z) s)
  else if param =? "MaxSetupCalls" then (true, call (KMaxSetupCalls val) s)
  else if param =? "MaxSubSetupCalls" then (true, call (KMaxSubSetupCalls val) s)
  else if param =? "EtaForm" then
    if ((val <? 1) || (3 <? val))%Z%bool then (false, s) else (true, call (KEtaForm val) s)
  else if param =? "UseMinEps" then (true, call (KNoMinEps (val =? 0)%Z) s)
  else if param =? "MaxBetaFails" then (true, call (KMaxBetaFails val) s)
  else if param =? "MAA" then (true, call (KMAA val) s)
  else (false, s).
Inductive ptype := PREAL | PINTEGER | PBOOLEAN | PETACHOICE.
(** the map prms of SetParameter (1240-1260) *)
Definition prms : list (string * ptype) :=
  [("MaxIters", PINTEGER); ("UseInitSetup", PBOOLEAN); ("UseResMon", PBOOLEAN); ("MaxSetupCalls", PINTEGER);
   ("MaxSubSetupCalls", PINTEGER); ("EtaForm", PETACHOICE); ("EtaConstValue", PREAL); ("EtaGamma", PREAL);
   ("EtaAlpha", PREAL); ("ResMonWmin", PREAL); ("ResMonWmax", PREAL); ("ResMonConst", PREAL);
   ("UseMinEps", PBOOLEAN); ("MaxNewtonStep", PREAL); ("MaxBetaFails", PINTEGER); ("FuncNormTol", PREAL);
   ("ScaledSteptol", PREAL); ("MAA", PINTEGER); ("DampingAA", PREAL)].
(** GetAvaliableParametrs (1167-1192): names and types (descriptions and defaults omitted) *)
Definition available : list (string * ptype) :=
  [("MaxIters", PINTEGER); ("UseInitSetup", PBOOLEAN); ("UseResMon", PBOOLEAN); ("MaxSetupCalls", PINTEGER);
   ("MaxSubSetupCalls", PINTEGER); ("EtaForm", PETACHOICE); ("EtaConstValue", PREAL); ("EtaGamma", PREAL);
   ("EtaAlpha", PREAL); ("ResMonWmin", PREAL); ("ResMonWmax", PREAL); ("ResMonConst", PREAL);
   ("UseMinEps", PBOOLEAN); ("MaxNewtonStep", PREAL); ("MaxBetaFails", PINTEGER); ("FuncNormTol", PREAL);
   ("ScaledSteptol", PREAL); ("MAA", PINTEGER); ("DampingAA", PREAL)].
Fixpoint find_type (l : list (string * ptype)) (p : string) : option ptype :=
  match l with [] => None | (q, t) :: r => if p =? q then Some t else find_type r p end.
(** std::tolower in the "C" locale *)
Definition lower_char (c : ascii) : ascii :=
  let n := nat_of_ascii c in if ((65 <=? n) && (n <=? 90))%nat then ascii_of_nat (n + 32) else c.
Fixpoint lower (s : string) : string :=
  match s with EmptyString => EmptyString | String c r => String (lower_char c) (lower r) end.
(** SetParameter (1239-1278); [atof], [atoi] are the C library's *)
Definition set_parameter (atof : string -> R) (atoi : string -> Z) (param val : string) (s : pstate) : bool * pstate :=
  match find_type prms param with
  | None => (false, s)
  | Some PREAL => set_real param (atof val) s
  | Some PINTEGER => set_integral param (atoi val) s
  | Some PBOOLEAN =>
      let tmp := lower val in
      if tmp =? "true" then set_integral param 1%Z s
      else if tmp =? "false" then set_integral param 0%Z s
      else set_integral param (atoi val) s
  | Some PETACHOICE => set_integral param (atoi val) s
  end.
(** SetVerbosityLevel (1153-1158): the print level handed to KINSOL *)
Definition print_level (lvl : Z) : Z := if (lvl <=? 0)%Z then 0%Z else if (3 <=? lvl)%Z then 3%Z else lvl.
Close Scope string_scope.

(** ** User functions: assmRHS_interface, assmMAT_interface (1280-1323)
    Integers returned by the user's function on each process, [None] where no
    function was set; KIN_SYSFUNC_FAIL is -13 in KINSOL. *)
Definition KIN_SYSFUNC_FAIL : Z := (-13)%Z.
Definition rhs_interface (stat : option Z) (gmin : Z) : Z :=
  match stat with None => KIN_SYSFUNC_FAIL | Some _ => if (gmin <? 0)%Z then 1%Z else 0%Z end.
(** which function assembles the matrix: assmMAT when set, otherwise assm *)
Definition mat_interface (assm_mat assm : option Z) (gmin : Z) : Z :=
  match assm_mat with
  | Some _ => if (gmin <? 0)%Z then 1%Z else 0%Z
  | None => match assm with Some _ => if (gmin <? 0)%Z then 1%Z else 0%Z | None => KIN_SYSFUNC_FAIL end
  end.

(** ** Life of a SUNNonlinearSolver object (967-1028, 1089-1113; .h 266)
    Addresses are numbers given out in increasing order; an access to or the
    release of an address that is not alive is undefined behaviour ([None]).
    [k_ref] is what KINSOL's memory refers to after KINSetLinearSolver. *)
Open Scope nat_scope.
Record heap := { h_next : nat; h_alive : list nat; h_size : nat -> nat; h_ref : nat -> option (nat * nat) }.
Definition heap0 : heap := {| h_next := 0; h_alive := []; h_size := fun _ => 0; h_ref := fun _ => None |}.
Definition alloc (sz : nat) (m : heap) : nat * heap :=
  (h_next m, {| h_next := S (h_next m); h_alive := h_next m :: h_alive m;
                h_size := fun p => if p =? h_next m then sz else h_size m p;
                h_ref := fun p => if p =? h_next m then None else h_ref m p |}).
Definition alive (p : nat) (m : heap) : bool := existsb (Nat.eqb p) (h_alive m).
(** free of a null pointer does nothing *)
Definition release (p : option nat) (m : heap) : option heap :=
  match p with
  | None => Some m
  | Some q => if alive q m then
      Some {| h_next := h_next m; h_alive := filter (fun r => negb (r =? q)) (h_alive m);
              h_size := h_size m; h_ref := h_ref m |} else None
  end.
(** members kin, LS, A, x, u_scale *)
Record sns := { o_kin : option nat; o_ls : option nat; o_mat : option nat; o_x : option nat; o_scale : option nat }.
(** SUNNonlinearSolver(void* comm) (967-975) *)
Definition sns_new (m : heap) : sns * heap :=
  let (k, m1) := alloc 0 m in
  ({| o_kin := Some k; o_ls := None; o_mat := None; o_x := None; o_scale := None |}, m1).
(** SetMatrix (1089-1094); [n] is the size of the user's object *)
Definition set_matrix (n : nat) (st : sns * heap) : option (sns * heap) :=
  let (o, m) := st in
  do m1 <- release (o_mat o) m;
  let (p, m2) := alloc n m1 in
  Some ({| o_kin := o_kin o; o_ls := o_ls o; o_mat := Some p; o_x := o_x o; o_scale := o_scale o |}, m2).
(** SetInitialGuess (1102-1107) *)
Definition set_guess (n : nat) (st : sns * heap) : option (sns * heap) :=
  let (o, m) := st in
  do m1 <- release (o_x o) m;
  let (p, m2) := alloc n m1 in
  Some ({| o_kin := o_kin o; o_ls := o_ls o; o_mat := o_mat o; o_x := Some p; o_scale := o_scale o |}, m2).
(** SetLinearSolver (1109-1113) *)
Definition set_solver (n : nat) (st : sns * heap) : option (sns * heap) :=
  let (o, m) := st in
  do m1 <- release (o_ls o) m;
  let (p, m2) := alloc n m1 in
  Some ({| o_kin := o_kin o; o_ls := Some p; o_mat := o_mat o; o_x := o_x o; o_scale := o_scale o |}, m2).
(** Init (1005-1019).  KINInit refuses a null vector and KINSetLinearSolver a null
    solver or matrix: the function throws and the object stays as it is then. *)
Definition init (st : sns * heap) : option (sns * heap) :=
  let (o, m) := st in
  match o_kin o, o_x o with
  | Some k, Some x =>
      do _ <- guard (alive k m && alive x m);
      let '(sc, m1) := match o_scale o with
                       | Some sc => (sc, m)
                       | None => alloc (h_size m x) m      (* N_VClone_Inmost(x) *)
                       end in
      let o1 := {| o_kin := o_kin o; o_ls := o_ls o; o_mat := o_mat o; o_x := o_x o; o_scale := Some sc |} in
      match o_ls o, o_mat o with
      | Some l, Some a =>
          do _ <- guard (alive l m1 && alive a m1);
          Some (o1, {| h_next := h_next m1; h_alive := h_alive m1; h_size := h_size m1;
                       h_ref := fun p => if p =? k then Some (l, a) else h_ref m1 p |})
      | _, _ => Some (o1, m1)
      end
  | _, _ => Some (o, m)
  end.
(** Solve (1021-1028): KINSol returns an error when Init did not succeed before;
    otherwise it works with the solver and the matrix it was given by Init. *)
Definition solve (st : sns * heap) : option (sns * heap) :=
  let (o, m) := st in
  match o_kin o with
  | None => Some st
  | Some k =>
      do _ <- guard (alive k m);
      match h_ref m k, o_x o, o_scale o with
      | Some (l, a), Some x, Some sc =>
          do _ <- guard (alive l m && alive a m && alive x m && alive sc m); Some st
      | _, _, _ => Some st
      end
  end.
(** ~SUNNonlinearSolver (997-1003) *)
Definition destroy (st : sns * heap) : option heap :=
  let (o, m) := st in
  do m1 <- release (o_kin o) m;
  do m2 <- release (o_ls o) m1;
  do m3 <- release (o_mat o) m2;
  do m4 <- release (o_x o) m3;
  release (o_scale o) m4.
(** SUNNonlinearSolver(SUNNonlinearSolver&&) noexcept = default (.h 266): the
    pointers are copied; the source keeps its own. *)
Definition move_from (o : sns) : sns * sns := (o, o).

Inductive op := OMatrix (n : nat) | OGuess (n : nat) | OSolver (n : nat) | OInit | OSolve.
Definition step (c : op) (st : sns * heap) : option (sns * heap) :=
  match c with
  | OMatrix n => set_matrix n st
  | OGuess n => set_guess n st
  | OSolver n => set_solver n st
  | OInit => init st
  | OSolve => solve st
  end.
Fixpoint run (l : list op) (st : sns * heap) : option (sns * heap) :=
  match l with [] => Some st | c :: r => do st' <- step c st; run r st' end.
