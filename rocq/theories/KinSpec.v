(** Specification for C56: what KINSOL expects of vector operations, matrix
    products and linear solvers, in terms of the whole (distributed) vectors. *)
From Coq Require Import Reals String Ascii.
From Verif Require Import Prelude KinModel.
Open Scope R_scope.

(** The whole vector: the local parts of the processes one after another. *)
Definition part (x : vec) (h : vmem) : list R := nth x h [].
Definition whole (x : vec) (procs : list vmem) : list R := concat (map (part x) procs).
(** Vector [x] exists on the process / vectors [x] and [y] have equal local sizes. *)
Definition has (x : vec) (h : vmem) : Prop := (x < length h)%nat.
Definition alike (x y : vec) (h : vmem) : Prop := has x h /\ has y h /\ length (part x h) = length (part y h).
(** Only vector [z] differs between two memories, and now has the entries [l]. *)
Definition assigned (z : vec) (l : list R) (h h' : vmem) : Prop :=
  length h' = length h /\ part z h' = l /\ forall w, w <> z -> part w h' = part w h.

Definition map2 (f : R -> R -> R) (a b : list R) : list R := map (fun p => f (fst p) (snd p)) (List.combine a b).
Definition total (l : list R) : R := fold_right Rplus 0 l.

(** [r] is the largest absolute value (0 for an empty vector). *)
Definition is_max_abs (l : list R) (r : R) : Prop :=
  (forall v, In v l -> Rabs v <= r) /\ (l = [] -> r = 0) /\ (l <> [] -> exists v, In v l /\ r = Rabs v).
(** [r] is the smallest entry, or [big] when there are none. *)
Definition is_min (big : R) (l : list R) (r : R) : Prop :=
  (forall v, In v l -> r <= v) /\ (l = [] -> r = big) /\ (l <> [] -> In r l).
(** numerators and non-zero denominators *)
Definition quotients (x y : list R) : list R :=
  map (fun p => fst p / snd p) (filter (fun p => if Req_EM_T (snd p) 0 then false else true) (List.combine x y)).

(** Constraints of KINSOL (SetConstraints): 0 none, 1: x >= 0, -1: x <= 0,
    2: x > 0, -2: x < 0. *)
Definition satisfied (c x : R) : Prop :=
  (c = 1 -> 0 <= x) /\ (c = -1 -> x <= 0) /\ (c = 2 -> 0 < x) /\ (c = -2 -> x < 0).
Definition constraint (c : R) : Prop := c = 0 \/ c = 1 \/ c = -1 \/ c = 2 \/ c = -2.

(** entry [j] of c1 X1 + ... + cn Xn *)
Definition combination (c : list R) (X : list (list R)) (j : nat) : R :=
  total (map2 Rmult c (map (fun l => nth j l 0) X)).

(** Entry [i] of the matrix-vector product. *)
Definition times (m : list (list (nat * R))) (x : list R) (i : nat) : R :=
  total (map (fun e => snd e * nth (fst e) x 0) (nth i m [])).

(** What the answers of a linear solver mean to KINSOL: success, the residual was
    reduced but not below the tolerance (recoverable), no convergence. *)
Definition answer (resid tol norm_b : R) : sunls :=
  if Rle_dec resid tol then SUCCESS else if Rle_dec resid norm_b then RES_REDUCED else CONV_FAIL.

(** The matrix the INMOST solver holds after a sequence of calls. *)
Fixpoint matrix_of (l : list ls_call) (cur : option nat) : option nat :=
  match l with
  | [] => cur
  | CSetMatrix A _ _ :: r => matrix_of r (Some A)
  | _ :: r => matrix_of r cur
  end.

(** Letters that differ only in case. *)
Definition same_letter (c d : ascii) : Prop :=
  c = d \/ (97 <= nat_of_ascii d <= 122 /\ nat_of_ascii c + 32 = nat_of_ascii d)%nat.
Fixpoint same_word (s t : string) : Prop :=
  match s, t with
  | EmptyString, EmptyString => True
  | String c s', String d t' => same_letter c d /\ same_word s' t'
  | _, _ => False
  end.
(** A boolean parameter. *)
Definition truth (atoi : string -> Z) (val : string) (b : bool) : Prop :=
  (same_word val "true" /\ b = true) \/ (same_word val "false" /\ b = false) \/
  (~ same_word val "true" /\ ~ same_word val "false" /\ b = negb (atoi val =? 0)%Z).

(** The values given to a real parameter: the last one, or the default. *)
Fixpoint last_value (atof : string -> R) (name : string) (hist : list (string * string)) (def : R) : R :=
  match hist with
  | [] => def
  | (n, v) :: r => last_value atof name r (if (n =? name)%string then atof v else def)
  end.

(** What a parameter set by name does: the one setter of KINSOL that is called,
    with the value given; the pairs (gamma, alpha) and (wmin, wmax) are completed
    with the values given before ([hist]) or the documented defaults. *)
Open Scope string_scope.
Definition sets (atof : string -> R) (atoi : string -> Z) (hist : list (string * string)) (name val : string) (c : kcall) : Prop :=
  let now p d := last_value atof p (hist ++ [(name, val)]) d in
  (name = "MaxIters" /\ c = KNumMaxIters (atoi val)) \/
  (name = "UseInitSetup" /\ exists b, truth atoi val b /\ c = KNoInitSetup (negb b)) \/
  (name = "UseResMon" /\ exists b, truth atoi val b /\ c = KNoResMon (negb b)) \/
  (name = "MaxSetupCalls" /\ c = KMaxSetupCalls (atoi val)) \/
  (name = "MaxSubSetupCalls" /\ c = KMaxSubSetupCalls (atoi val)) \/
  (name = "EtaForm" /\ c = KEtaForm (atoi val)) \/
  (name = "EtaConstValue" /\ c = KEtaConstValue (atof val)) \/
  ((name = "EtaGamma" \/ name = "EtaAlpha") /\ c = KEtaParams (now "EtaGamma" (9 / 10)) (now "EtaAlpha" 2)) \/
  ((name = "ResMonWmin" \/ name = "ResMonWmax") /\ c = KResMonParams (now "ResMonWmin" (1 / 100000)) (now "ResMonWmax" (9 / 10))) \/
  (name = "ResMonConst" /\ c = KResMonConstValue (atof val)) \/
  (name = "UseMinEps" /\ exists b, truth atoi val b /\ c = KNoMinEps (negb b)) \/
  (name = "MaxNewtonStep" /\ c = KMaxNewtonStep (atof val)) \/
  (name = "MaxBetaFails" /\ c = KMaxBetaFails (atoi val)) \/
  (name = "FuncNormTol" /\ c = KFuncNormTol (atof val)) \/
  (name = "ScaledSteptol" /\ c = KScaledStepTol (atof val)) \/
  (name = "MAA" /\ c = KMAA (atoi val)) \/
  (name = "DampingAA" /\ c = KDampingAA (atof val)).
Definition admissible (atof : string -> R) (atoi : string -> Z) (name val : string) : Prop :=
  (name = "DampingAA" -> 0 <= atof val <= 1) /\ (name = "EtaForm" -> (1 <= atoi val <= 3)%Z).
Close Scope string_scope.

(** Histories of calls in which no Solve happens between a SetMatrix or a
    SetLinearSolver that follows an Init and the next Init. *)
Fixpoint reinitialised (inited stale : bool) (l : list op) : Prop :=
  match l with
  | [] => True
  | OMatrix _ :: r | OSolver _ :: r => reinitialised inited inited r
  | OGuess _ :: r => reinitialised inited stale r
  | OInit :: r => reinitialised true false r
  | OSolve :: r => stale = false /\ reinitialised inited stale r
  end.
