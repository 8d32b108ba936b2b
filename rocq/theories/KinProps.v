(** C56: the vectors, matrices, linear solvers and parameters handed to KINSOL. *)
From Coq Require Import Reals String Ascii Permutation Lra.
From Verif Require Import Prelude RSum KinModel KinSpec KinProofs KinProofs2 KinProofs3.
Open Scope R_scope.

(** Element by element operations: for vectors of equal local sizes, also when the
    result is one of the arguments, the result vector gets the stated entries
    computed from the entries before the call, and no other vector changes. *)
Theorem C56_elementwise : forall h x y z a b, alike x y h -> alike x z h ->
  let lx := part x h in let ly := part y h in
  (exists h', linear_sum a x b y z h = Some h' /\ assigned z (map2 (fun u v => a * u + b * v) lx ly) h h') /\
  (exists h', vprod x y z h = Some h' /\ assigned z (map2 (fun u v => u * v) lx ly) h h') /\
  (exists h', vdiv x y z h = Some h' /\ assigned z (map2 (fun u v => u / v) lx ly) h h') /\
  (exists h', vscale a x z h = Some h' /\ assigned z (map (fun u => a * u) lx) h h') /\
  (exists h', vabs x z h = Some h' /\ assigned z (map Rabs lx) h h') /\
  (exists h', vinv x z h = Some h' /\ assigned z (map (fun u => 1 / u) lx) h h') /\
  (exists h', vaddconst x b z h = Some h' /\ assigned z (map (fun u => u + b) lx) h h') /\
  (exists h', vcompare a x z h = Some h' /\ assigned z (map (fun u => if Rle_dec a (Rabs u) then 1 else 0) lx) h h') /\
  (exists h', vconst a z h = Some h' /\ assigned z (map (fun _ => a) lx) h h').
Proof.
  intros h x y z a b Axy Axz lx ly.
  split; [now apply loop2_ok|]. split; [now apply loop2_ok|]. split; [now apply loop2_ok|].
  split; [now apply vscale_ok|]. split; [now apply loop1_ok|]. split; [now apply loop1_ok|].
  split; [now apply loop1_ok|]. split; [now apply loop1_ok|].
  destruct (vconst_ok a z h) as (h' & E & A); [apply Axz|]. exists h'. split; [exact E|].
  replace (map (fun _ => a) lx) with (map (fun _ => a) (part z h)); [exact A|].
  destruct Axz as (_ & _ & L). unfold lx. clear - L. revert L. generalize (part z h). induction (part x h) as [|u l IH]; intros [|v k] L; cbn in *; try lia; [reflexivity|].
  f_equal. apply IH. lia.
Qed.
Print Assumptions C56_elementwise.

(** z := 2 x + 3 z with z an argument *)
Example C56_elementwise_case :
  let h := [[1; 2]; [10; 20]] in
  alike 0%nat 1%nat h /\ alike 0%nat 1%nat h /\ map2 (fun u v => 2 * u + 3 * v) (part 0%nat h) (part 1%nat h) = [32; 64].
Proof. cbv zeta. split; [|split]; [unfold alike, has, part; cbn; lia..|]. unfold map2, part. cbn. repeat f_equal; ring. Qed.

Lemma reduced_some : forall {A} (op : A -> A -> A) (ls : list A), ls <> [] -> exists r, reduced op ls r.
Proof.
  intros A op ls. induction ls as [|a ls IH]; intros N; [congruence|]. destruct ls as [|b ls].
  - exists a. constructor.
  - destruct IH as (r & Hr); [discriminate|]. exists (op a r).
    apply (red_two op (a :: b :: ls) [a] (b :: ls) a r); [apply Permutation_refl|constructor|exact Hr].
Qed.
Lemma allreduce_some : forall {A} (op : A -> A -> A) f procs, procs <> [] -> (forall h, In h procs -> exists v, f h = Some v) ->
  exists r : A, allreduce op f procs r.
Proof.
  intros A op f procs N F.
  assert (C : exists ls, contributions f procs ls).
  { clear N. induction procs as [|h procs IH]; [exists []; constructor|].
    destruct (F h (or_introl eq_refl)) as (v & E). destruct IH as (ls & C); [intros h' I; apply F; now right|].
    exists (v :: ls). constructor; assumption. }
  destruct C as (ls & C). destruct (reduced_some op ls) as (r & Hr).
  - intros ->. inversion C. congruence.
  - exists r, ls. auto.
Qed.

(** Sums over the processes: whatever the distribution of the vectors and the
    order in which the contributions are combined, the result is the sum over the
    whole vectors; it is computed by every non-empty set of processes. *)
Theorem C56_sums : forall procs x y, Forall (alike x y) procs ->
  (procs <> [] -> exists r, dot_prod x y procs r) /\
  (forall r, dot_prod x y procs r -> r = total (map2 Rmult (whole x procs) (whole y procs))) /\
  (forall r, l1_norm x procs r -> r = total (map Rabs (whole x procs))) /\
  (forall r, wl2_norm x y procs r -> r = sqrt (total (map2 (fun u w => (u * w) ^ 2) (whole x procs) (whole y procs)))) /\
  (forall Y, Forall (fun y => Forall (alike x y) procs) Y -> forall r, dot_multi x Y procs r -> Y <> [] ->
     fst r = 0%Z /\ snd r = map (fun y => total (map2 Rmult (whole x procs) (whole y procs))) Y).
Proof.
  intros procs x y F. split; [|split; [|split; [|split]]].
  - intros N. apply allreduce_some; [exact N|]. intros h I. eexists. apply dot_local_ok. now apply (alike_in x y procs).
  - intros r. now apply dot_prod_ok.
  - intros r. apply l1_ok. rewrite Forall_forall in *. intros h I. apply F. exact I.
  - intros r (g & Rd & ->). f_equal. now apply wsqr_ok.
  - intros Y FY r D N. destruct Y as [|y0 [|y1 Y]]; [congruence| |].
    + destruct D as (v & Dv & ->). split; [reflexivity|]. cbn. f_equal. inversion FY; subst. now apply dot_prod_ok.
    + destruct D as (Z & D). split; [exact Z|]. clear Z N. revert FY D. generalize (y0 :: y1 :: Y) as L, (snd r) as vs.
      intros L vs FY D. induction D as [|q v L vs E D IH]; [reflexivity|]. inversion FY; subst. cbn [map]. f_equal.
      * now apply dot_multi_local_whole.
      * now apply IH.
Qed.
Print Assumptions C56_sums.

(** two processes with different local sizes *)
Example C56_sums_case :
  let procs := [[[1; 2]; [3; 4]]; [[5]; [6]]] in
  Forall (alike 0%nat 1%nat) procs /\ total (map2 Rmult (whole 0%nat procs) (whole 1%nat procs)) = 41 /\ dot_prod 0%nat 1%nat procs 41.
Proof.
  cbv zeta. split; [repeat constructor|]. split; [unfold total, map2, whole, part; cbn; ring|].
  exists [11; 30]. split.
  - constructor; [|constructor; [|constructor]]; cbn; f_equal; ring.
  - replace 41 with (30 + 11) by ring. apply (red_two Rplus [11; 30] [30] [11]); [apply perm_swap|constructor|constructor].
Qed.

(** Largest absolute value, smallest entry and smallest quotient over the
    whole vectors ([big] is the largest number). *)
Theorem C56_extrema : forall procs x y big, Forall (alike x y) procs ->
  (forall r, max_norm x procs r -> is_max_abs (whole x procs) r) /\
  (forall r, Forall (fun v => v <= big) (whole x procs) -> vmin big x procs r -> is_min big (whole x procs) r) /\
  (forall r, Forall (fun v => v <= big) (quotients (whole x procs) (whole y procs)) -> min_quotient big x y procs r ->
     is_min big (quotients (whole x procs) (whole y procs)) r).
Proof.
  intros procs x y big F. assert (Fx : Forall (has x) procs) by (rewrite Forall_forall in *; intros h I; apply F; exact I).
  split; [|split].
  - intros r. now apply max_norm_ok.
  - intros r B. now apply vmin_ok.
  - intros r B. now apply min_quotient_ok.
Qed.
Print Assumptions C56_extrema.
Example C56_extrema_case :
  let procs := [[[1; -7]; [2; 0]]; [[]; []]] in
  Forall (alike 0%nat 1%nat) procs /\ Forall (fun v => v <= 100) (quotients (whole 0%nat procs) (whole 1%nat procs)) /\
  quotients (whole 0%nat procs) (whole 1%nat procs) = [1 / 2].
Proof.
  cbv zeta. split; [repeat constructor|]. unfold quotients, whole, part. cbn.
  destruct (Req_EM_T 2 0); [lra|]. destruct (Req_EM_T 0 0); [|lra]. cbn. split; [|reflexivity]. constructor; [lra|constructor].
Qed.

(** Weighted root mean square norms: on one process they are the square root of
    the mean.  Missing: several processes (see the refutation). *)
Theorem C56_wrms_partial : forall h x w d r, alike x w h -> alike x d h ->
  (wrms_norm x w [h] h r ->
     r = sqrt (total (map2 (fun u v => (u * v) ^ 2) (part x h) (part w h)) / INR (length (part x h)))) /\
  (wrms_norm_mask x w d [h] h r ->
     r = sqrt (total (masked (part x h) (part w h) (part d h)) / INR (length (part x h)))) /\
  get_length x h = length (whole x [h]).
Proof.
  intros h x w d r A B. assert (W : forall q, whole q [h] = part q h) by (intros q; unfold whole; cbn; apply app_nil_r).
  split; [|split].
  - intros (g & Rd & ->). rewrite vsize_part by apply A. apply wsqr_ok in Rd; [|constructor; [exact A|constructor]].
    rewrite !W in Rd. now rewrite Rd.
  - intros (g & Rd & ->). rewrite vsize_part by apply A. apply wsqr_mask_ok in Rd; [|constructor; [assumption|constructor]..].
    rewrite !W in Rd. now rewrite Rd.
  - rewrite W. apply vsize_part. apply A.
Qed.
Print Assumptions C56_wrms_partial.

(** Finding: the global sum is divided by the local number of entries
    (SUNNonlinearSolver.cpp 385, 408; the length reported at 146-148 is local too),
    so on two processes the norm of a vector of ones is not 1. *)
Theorem C56_wrms_refuted : exists procs me x w r, In me procs /\ Forall (alike x w) procs /\ wrms_norm x w procs me r /\
  r <> sqrt (total (map2 (fun u v => (u * v) ^ 2) (whole x procs) (whole w procs)) / INR (length (whole x procs))) /\
  get_length x me <> length (whole x procs).
Proof.
  exists [[[1]; [1]]; [[1]; [1]]], [[1]; [1]], 0%nat, 1%nat, (sqrt 2).
  split; [now left|]. split; [repeat constructor|]. split; [|split].
  - exists 2. split.
    + exists [1; 1]. split; [constructor; [|constructor; [|constructor]]; cbn; f_equal; ring|].
      replace 2 with (1 + 1) by ring. apply (red_two Rplus [1; 1] [1] [1]); [apply Permutation_refl|constructor|constructor].
    + f_equal. cbn. field.
  - unfold total, map2, whole, part. cbn. replace ((1 * 1 * (1 * 1 * 1) + (1 * 1 * (1 * 1 * 1) + 0)) / (1 + 1)) with 1 by field.
    rewrite sqrt_1. intros E. assert (sqrt 2 * sqrt 2 = 2) by (apply sqrt_sqrt; lra). rewrite E in *. lra.
  - cbn. discriminate.
Qed.
Print Assumptions C56_wrms_refuted.

(** Inverses with a test: entries with x_i <> 0 are inverted, the others of the
    result stay as they were; true is returned on all processes exactly when no
    entry of the whole vector is zero. *)
Theorem C56_inverse_test : forall procs procs' x z r, Forall (alike x z) procs -> inv_test x z procs procs' r ->
  Forall2 (fun h h' => assigned z (map2 (fun xi zi => if Req_EM_T xi 0 then zi else 1 / xi) (part x h) (part z h)) h h') procs procs' /\
  (r = true <-> forall u, In u (whole x procs) -> u <> 0).
Proof. intros procs procs' x z r. apply inv_test_ok. Qed.
Print Assumptions C56_inverse_test.
Example C56_inverse_test_case : inv_test 0%nat 1%nat [[[2]; [9]]; [[0]; [9]]] [[[2]; [1 / 2]]; [[0]; [9]]] false.
Proof.
  exists [1%nat; 0%nat], 0%nat. split; [|split; [reflexivity|split; [|reflexivity]]].
  - constructor; [|constructor; [|constructor]]; cbn.
    + destruct (Req_EM_T 2 0); [lra|]. reflexivity.
    + destruct (Req_EM_T 0 0); [|lra]. reflexivity.
  - apply (red_two Nat.min [1%nat; 0%nat] [1%nat] [0%nat] 1%nat 0%nat); [apply Permutation_refl|constructor|constructor].
Qed.

(** Constraints: for every vector of constraints 0, 1, -1, 2, -2, the mask is 1
    exactly at the violated ones, and true is returned on all processes exactly
    when the whole vector satisfies all of them. *)
Theorem C56_constraints : forall procs procs' c x m r, Forall (alike x c) procs -> Forall (alike x m) procs ->
  m <> c -> m <> x -> Forall constraint (whole c procs) -> constr_mask c x m procs procs' r ->
  Forall2 (fun h h' => exists l, assigned m l h h' /\ length l = length (part x h) /\
     forall i, (i < length (part x h))%nat ->
       (satisfied (nth i (part c h) 0) (nth i (part x h) 0) -> nth i l 2 = 0) /\
       (~ satisfied (nth i (part c h) 0) (nth i (part x h) 0) -> nth i l 2 = 1)) procs procs' /\
  (r = true <-> forall p, In p (List.combine (whole c procs) (whole x procs)) -> satisfied (fst p) (snd p)).
Proof.
  intros procs procs' c x m r Fc Fm Dc Dx K Cm.
  destruct (constr_mask_ok c x m procs procs' r Fc Fm Dc Dx Cm) as (C1 & C2). rewrite Forall_forall in K.
  assert (Kp : forall h i, In h procs -> (i < length (part c h))%nat -> constraint (nth i (part c h) 0)).
  { intros h i Ih Hi. apply K. apply in_whole. exists h. split; [exact Ih|now apply nth_In]. }
  assert (Dec : forall ci xi, constraint ci -> (violatedb ci xi = false <-> satisfied ci xi)).
  { intros ci xi Kc. pose proof (violated_ok ci xi Kc) as V. split.
    - intros E. destruct (violatedb ci xi) eqn:B; [discriminate|]. unfold satisfied.
      assert (S : ~ ~ satisfied ci xi) by (intros N; apply V in N; congruence). unfold satisfied in S.
      split; [intros Q; apply Rnot_lt_le; intros L; apply S; intros (A & _); specialize (A Q); lra|].
      split; [intros Q; apply Rnot_lt_le; intros L; apply S; intros (_ & A & _); specialize (A Q); lra|].
      split; [intros Q; apply Rnot_le_lt; intros L; apply S; intros (_ & _ & A & _); specialize (A Q); lra|].
      intros Q; apply Rnot_le_lt; intros L; apply S; intros (_ & _ & _ & A); specialize (A Q); lra.
    - intros S. destruct (violatedb ci xi); [|reflexivity]. exfalso. now apply V. }
  split.
  - clear C2 Cm K. rewrite Forall_forall in Fc. induction C1 as [|h h' procs procs' A C1 IH]; constructor.
    + exists (map2 mask_entry (part c h) (part x h)). split; [exact A|].
      destruct (Fc h (or_introl eq_refl)) as (_ & _ & L). split; [rewrite map2_length; congruence|].
      intros i Hi. rewrite (nth_error_nth _ _ 2 (map2_nth mask_entry (part c h) (part x h) i ltac:(congruence) ltac:(lia))).
      pose proof (Kp h i (or_introl eq_refl) ltac:(lia)) as Ki. unfold mask_entry.
      rewrite <- (Dec _ _ Ki). destruct (violatedb _ _); split; congruence.
    + apply IH; first [ now inversion Fm | intros h2 I; apply Fc; now right | intros h2 i I; apply Kp; now right ].
  - rewrite C2. split; intros H p Ip; specialize (H p Ip);
      (assert (Kc : constraint (fst p)) by (destruct p as (u, v); apply K; exact (in_combine_l _ _ _ _ Ip))); now apply (Dec _ _ Kc).
Qed.
Print Assumptions C56_constraints.
Example C56_constraints_case : Forall constraint [1; -1; 2; -2; 0] /\ satisfied 1 0 /\ ~ satisfied 2 0 /\ satisfied 0 (-5).
Proof.
  unfold constraint, satisfied. split; [repeat constructor; lra|]. split; [|split].
  - repeat split; intros; lra.
  - intros (_ & _ & A & _). specialize (A eq_refl). lra.
  - repeat split; intros; lra.
Qed.

(** Linear combinations of any number of vectors; the result may be the first
    vector but not a later one. *)
Theorem C56_combination : forall h c X z, length c = length X -> (0 < length X)%nat ->
  (forall x, In x X -> alike z x h) -> ~ In z (tl X) ->
  exists h', lin_comb c X z h = Some (0%Z, h') /\
    assigned z (map (combination c (map (fun x => part x h) X)) (seq 0 (length (part z h)))) h h'.
Proof. intros h c X z. apply lin_comb_ok. Qed.
Print Assumptions C56_combination.
(** Finding: when the result is a later vector its entries are overwritten before
    they are used. *)
Theorem C56_combination_refuted : exists h c X z h', length c = length X /\ (forall x, In x X -> alike z x h) /\ In z (tl X) /\
  lin_comb c X z h = Some (0%Z, h') /\ part z h' <> map (combination c (map (fun x => part x h) X)) (seq 0 (length (part z h))).
Proof.
  exists [[1]; [10]; [100]], [1; 1; 1], [0; 1; 2]%nat, 1%nat. eexists.
  split; [reflexivity|]. split; [|split; [cbn; auto|split; [reflexivity|]]].
  - intros x [<-|[<-|[<-|[]]]]; unfold alike, has, part; cbn; lia.
  - unfold part, combination, total, map2. cbn. intros E. injection E as E. lra.
Qed.
Print Assumptions C56_combination_refuted.

(** Finding: the matrix-vector product handed to KINSOL is computed into a copy of
    the result vector (SUNNonlinearSolver.cpp 783: only the first declarator is a
    reference): the result vector never changes. *)
Theorem C56_matvec_refuted :
  (forall m x y h h', sun_matvec m x y h = Some h' -> part y h' = part y h) /\
  exists m x y h h', sun_matvec m x y h = Some h' /\ nth 0%nat (part y h') 0 <> times m (part x h) 0%nat.
Proof.
  split.
  - intros m x y h h' E. unfold sun_matvec in E.
    destruct (rd h x) as [xv|]; [|discriminate]. cbn [obind] in E.
    destruct (rd h y) as [yv|]; [|discriminate]. cbn [obind] in E.
    destruct (mat_vec m xv yv); [|discriminate]. cbn [obind] in E. now injection E as <-.
  - exists [[(0%nat, 2)]], 0%nat, 1%nat, [[5]; [7]]. eexists. split; [reflexivity|]. unfold part, times, total. cbn. lra.
Qed.
Print Assumptions C56_matvec_refuted.

(** The linear solver: in every history of setups and solves the system is solved
    with the matrix of the last setup (before any setup, with the matrix given to
    the solve), with the tolerance and the vectors of the call. *)
Inductive ls_op := LSetup (A : nat) | LSolve (A x b : nat) (tol : R).
Definition ls_step (s : ls_state) (o : ls_op) : ls_state :=
  match o with LSetup A => ls_setup A s | LSolve A x b tol => ls_solve A x b tol s end.
Fixpoint last_setup (l : list ls_op) (cur : option nat) : option nat :=
  match l with [] => cur | LSetup A :: r => last_setup r (Some A) | LSolve _ _ _ _ :: r => last_setup r cur end.
Theorem C56_linear_matrix : forall hist A x b tol,
  let s := fold_left ls_step hist ls_new in
  let calls := ls_calls (ls_solve A x b tol s) in
  exists before, calls = before ++ [CTol tol; CSolve b x] /\
    matrix_of before None = Some (match last_setup hist None with Some A' => A' | None => A end).
Proof.
  intros hist A x b tol s calls.
  assert (K : match last_setup hist None with
              | Some A' => ls_updated s = 1%nat /\ matrix_of (ls_calls s) None = Some A'
              | None => ls_updated s = 0%nat end).
  { subst s. clear calls. induction hist as [|o hist IH] using rev_ind; [reflexivity|].
    assert (Ls : forall l l' cur, last_setup (l ++ l') cur = last_setup l' (last_setup l cur)).
    { induction l as [|[]]; intros; cbn; auto. }
    rewrite Ls, fold_left_app. cbn [fold_left].
    set (s := fold_left ls_step hist ls_new) in *. destruct o as [B|B y d t]; cbn [last_setup ls_step].
    - split; [reflexivity|]. cbn [ls_setup ls_calls]. now rewrite matrix_of_app.
    - unfold ls_solve. cbn [ls_updated ls_calls]. destruct (last_setup hist None) as [A'|].
      + destruct IH as (U & M). rewrite U. cbn [Nat.eqb]. split; [exact U|]. rewrite matrix_of_app. exact M.
      + rewrite IH. reflexivity. }
  subst calls. unfold ls_solve. cbn [ls_calls]. destruct (last_setup hist None) as [A'|].
  - destruct K as (U & M). rewrite U. cbn [Nat.eqb]. exists (ls_calls s). auto.
  - rewrite K. cbn [Nat.eqb ls_calls]. eexists. split; [reflexivity|]. now rewrite matrix_of_app.
Qed.
Print Assumptions C56_linear_matrix.
Example C56_linear_matrix_case : last_setup [LSolve 4%nat 1%nat 2%nat 0; LSetup 7%nat; LSolve 7%nat 1%nat 2%nat 0] None = Some 7%nat.
Proof. reflexivity. Qed.

(** The answer of the linear solver.  Success is returned exactly when the INMOST
    solver succeeded and the residual is within the tolerance; when it failed with
    a residual above the tolerance the answer says whether the residual was
    reduced.  Missing: the INMOST solver reports success with a residual above
    the tolerance (see the refutation). *)
Theorem C56_linear_result_partial : forall flag resid tol norm_b,
  (ls_result flag resid tol norm_b = SUCCESS <-> flag = true /\ resid <= tol) /\
  (flag = false -> tol < resid -> ls_result flag resid tol norm_b = answer resid tol norm_b) /\
  (flag = true -> resid <= tol -> ls_result flag resid tol norm_b = answer resid tol norm_b) /\
  ls_result flag resid tol norm_b <> MEM_FAIL.
Proof.
  intros [|] resid tol norm_b; unfold ls_result, answer; cbn [negb];
    destruct (Rle_dec resid tol) as [T|T], (Rle_dec resid norm_b) as [N|N]; cbn; repeat split; intros; try tauto; try discriminate; try congruence; lra.
Qed.
Print Assumptions C56_linear_result_partial.
Example C56_linear_result_case : ls_result false (1/2) 0 1 = RES_REDUCED /\ ls_result false 2 0 1 = CONV_FAIL.
Proof.
  unfold ls_result. cbn [negb]. destruct (Rle_dec (1/2) 0), (Rle_dec (1/2) 1), (Rle_dec 2 0), (Rle_dec 2 1); try lra. split; reflexivity.
Qed.
(** Finding: in that case the two answers are exchanged (SUNNonlinearSolver.cpp
    941-942): a residual that grew is reported as reduced and the converse. *)
Theorem C56_linear_result_refuted :
  (forall resid tol norm_b, tol < resid -> resid <= norm_b -> ls_result true resid tol norm_b = CONV_FAIL /\ answer resid tol norm_b = RES_REDUCED) /\
  (forall resid tol norm_b, tol < resid -> norm_b < resid -> ls_result true resid tol norm_b = RES_REDUCED /\ answer resid tol norm_b = CONV_FAIL) /\
  exists resid tol norm_b, ls_result true resid tol norm_b <> answer resid tol norm_b.
Proof.
  unfold ls_result, answer. cbn [negb]. split; [|split].
  - intros resid tol norm_b T N. destruct (Rle_dec resid tol); [lra|]. destruct (Rle_dec resid norm_b); [auto|lra].
  - intros resid tol norm_b T N. destruct (Rle_dec resid tol); [lra|]. destruct (Rle_dec resid norm_b); [lra|auto].
  - exists 2, 1, 3. destruct (Rle_dec 2 1); [lra|]. destruct (Rle_dec 2 3); [discriminate|lra].
Qed.
Print Assumptions C56_linear_result_refuted.

(** Parameters by name: after any history of calls, a name is accepted exactly if
    it is one of the listed ones and the value is in range; then exactly the
    documented setter of KINSOL is called with the value given, and otherwise none. *)
Theorem C56_parameters : forall atof atoi hist name val,
  let s := fold_left (fun s p => snd (set_parameter atof atoi (fst p) (snd p) s)) hist p_init in
  let r := set_parameter atof atoi name val s in
  (fst r = true <-> (exists t, In (name, t) available) /\ admissible atof atoi name val) /\
  (fst r = true -> exists c, sets atof atoi hist name val c /\ p_calls (snd r) = p_calls s ++ [c]) /\
  (fst r = false -> p_calls (snd r) = p_calls s).
Proof. intros atof atoi hist name val. apply (param_ok atof atoi hist name val). Qed.
Print Assumptions C56_parameters.
Example C56_parameters_case :
  let hist := [("EtaAlpha", "1.5"); ("UseResMon", "FALSE")]%string in
  sets (fun _ => 3 / 2) (fun _ => 0%Z) hist "EtaGamma" "x" (KEtaParams (3 / 2) (3 / 2)) /\
  truth (fun _ => 7%Z) "FalsE" false.
Proof.
  cbv zeta. split.
  - unfold sets. cbv zeta. do 7 right. left. split; [auto|]. cbn. reflexivity.
  - right. left. split; [|reflexivity]. cbn. unfold same_letter. cbn. repeat split; auto; right; lia.
Qed.
(** The print level handed to KINSOL is the given one moved into 0..3. *)
Theorem C56_verbosity : forall lvl, (0 <= print_level lvl <= 3)%Z /\ ((0 <= lvl <= 3)%Z -> print_level lvl = lvl) /\
  ((lvl < 0)%Z -> print_level lvl = 0%Z) /\ ((3 < lvl)%Z -> print_level lvl = 3%Z).
Proof.
  intros lvl. unfold print_level. destruct (Z.leb_spec lvl 0), (Z.leb_spec 3 lvl); repeat split; lia.
Qed.
Print Assumptions C56_verbosity.

(** User functions: every process gets the same answer, a recoverable failure
    exactly when the function was negative on some process. *)
Theorem C56_user_functions : forall (stats : list Z) gmin, reduced Z.min stats gmin ->
  forall s, In s stats ->
    rhs_interface (Some s) gmin = (if existsb (fun v => (v <? 0)%Z) stats then 1%Z else 0%Z) /\
    (forall other, mat_interface (Some s) other gmin = rhs_interface (Some s) gmin) /\
    mat_interface None (Some s) gmin = rhs_interface (Some s) gmin.
Proof.
  intros stats gmin Rd s Is. destruct (red_sel Z.min (fun a b => (b <= a)%Z)) with (l := stats) (r := gmin) as (I & M); try (intros; lia); [exact Rd|].
  split; [|split; reflexivity]. cbn. destruct (existsb (fun v => (v <? 0)%Z) stats) eqn:E.
  - apply existsb_exists in E. destruct E as (v & Iv & Nv). apply Z.ltb_lt in Nv. specialize (M v Iv).
    destruct (Z.ltb_spec gmin 0); [reflexivity|lia].
  - destruct (Z.ltb_spec gmin 0) as [L|L]; [|reflexivity]. exfalso.
    assert (existsb (fun v => (v <? 0)%Z) stats = true); [|congruence]. apply existsb_exists. exists gmin. split; [exact I|now apply Z.ltb_lt].
Qed.
Print Assumptions C56_user_functions.
Example C56_user_functions_case : reduced Z.min [0; -2; 5]%Z (-2)%Z.
Proof.
  change (-2)%Z with (Z.min (-2) 0). apply (red_two Z.min _ [-2; 5]%Z [0%Z]).
  - apply (Permutation_app_comm [0%Z] [(-2)%Z; 5%Z]).
  - change (-2)%Z with (Z.min (-2) 5) at 2. apply (red_two Z.min _ [(-2)%Z] [5%Z]); [apply Permutation_refl|constructor|constructor].
  - constructor.
Qed.
(** Finding: the function that assembles both the matrix and the right-hand side
    (SetAssembler) is never used for the right-hand side: with it alone the
    evaluation of the right-hand side is an unrecoverable failure. *)
Theorem C56_assembler_refuted : forall s gmin, (0 <= gmin)%Z ->
  mat_interface None (Some s) gmin = 0%Z /\ rhs_interface None gmin = KIN_SYSFUNC_FAIL.
Proof.
  intros s gmin G. cbn. destruct (Z.ltb_spec gmin 0); [lia|]. split; reflexivity.
Qed.
Print Assumptions C56_assembler_refuted.

(** Life of the object: for every history of SetMatrix, SetInitialGuess,
    SetLinearSolver, Init and Solve in which Init is called again before Solve
    after a matrix or solver was replaced, followed by the destructor: nothing is
    used after its release, nothing is released twice and nothing stays allocated.
    When all the vectors given have the same size, the scaling vector has it too. *)
Theorem C56_lifecycle_partial : forall l, reinitialised false false l ->
  exists o m, run l (sns_new heap0) = Some (o, m) /\
    (exists m', destroy (o, m) = Some m' /\ h_alive m' = []) /\
    forall n x s, (forall k, In (OGuess k) l -> k = n) -> o_x o = Some x -> o_scale o = Some s ->
      h_size m x = n /\ h_size m s = n.
Proof.
  intros l Rl. destruct (run_ok l [] false false _ inv_new Rl) as ((o, m) & E & i & s & V).
  exists o, m. split; [exact E|]. split; [exact (destroy_ok _ _ _ _ V)|].
  intros n x sc G Ex Es.
  assert (K : forall k, In k (guesses l) -> k = n).
  { clear - G. induction l as [|c l IH]; [intros k []|]. intros k I. destruct c; cbn in I; try (apply IH; [intros q Q; apply G; now right|exact I]).
    destruct I as [<-|I]; [apply G; now left|apply IH; [intros q Q; apply G; now right|exact I]]. }
  split; apply K; [exact (inv_x _ _ _ _ V x Ex)|exact (inv_scale _ _ _ _ V sc Es)].
Qed.
Print Assumptions C56_lifecycle_partial.
Example C56_lifecycle_case :
  reinitialised false false [OMatrix 2%nat; OSolver 0%nat; OGuess 2%nat; OInit; OSolve; OGuess 2%nat; OSolve; OMatrix 2%nat; OInit; OSolve].
Proof. cbn. auto. Qed.

(** Finding: KINSOL keeps the matrix and the solver it was given by Init; replacing
    one and solving without another Init uses a released object. *)
Theorem C56_lifecycle_refuted :
  run [OMatrix 2%nat; OSolver 0%nat; OGuess 2%nat; OInit; OMatrix 2%nat; OSolve] (sns_new heap0) = None /\
  run [OMatrix 2%nat; OSolver 0%nat; OGuess 2%nat; OInit; OSolver 2%nat; OSolve] (sns_new heap0) = None.
Proof. split; reflexivity. Qed.
Print Assumptions C56_lifecycle_refuted.
(** Finding: a vector of another size given later leaves the scaling vector with
    the old size, although Init is called again. *)
Theorem C56_scale_refuted : exists l o m x s, reinitialised false false l /\ run l (sns_new heap0) = Some (o, m) /\
  o_x o = Some x /\ o_scale o = Some s /\ h_size m x <> h_size m s.
Proof.
  set (l := [OMatrix 2%nat; OSolver 0%nat; OGuess 2%nat; OInit; OGuess 3%nat; OInit; OSolve]).
  assert (Rl : reinitialised false false l) by (cbn; auto).
  destruct (C56_lifecycle_partial l Rl) as (o & m & E & _).
  assert (F : option_map (fun st => (o_x (fst st), o_scale (fst st),
      match o_x (fst st), o_scale (fst st) with Some x, Some s => (h_size (snd st) x, h_size (snd st) s) | _, _ => (0, 0)%nat end))
      (run l (sns_new heap0)) = Some (Some 5%nat, Some 4%nat, (3, 2)%nat)) by (vm_compute; reflexivity).
  rewrite E in F. cbn [option_map fst snd] in F.
  destruct (o_x o) as [x|] eqn:Ex; [|discriminate]. destruct (o_scale o) as [sc|] eqn:Es; [|discriminate].
  exists l, o, m, x, sc. injection F as _ _ F1 F2. rewrite F1, F2. repeat split; auto; discriminate.
Qed.
Print Assumptions C56_scale_refuted.
(** Finding: the defaulted move constructor copies the pointers; destroying both
    objects releases them twice, whatever was done before. *)
Theorem C56_move_refuted : forall l o m m', reinitialised false false l -> run l (sns_new heap0) = Some (o, m) ->
  let (dst, src) := move_from o in destroy (src, m) = Some m' -> destroy (dst, m') = None.
Proof.
  intros l o m m' Rl E. cbn. intros D.
  destruct (run_ok l [] false false _ inv_new Rl) as (st & E' & i & s & V). rewrite E in E'. injection E' as <-.
  destruct (destroy_ok _ _ _ _ V) as (m2 & D2 & A2). unfold destroy in D2. cbn [fst snd] in *.
  assert (m2 = m') as -> by congruence. pose proof (inv_kin _ _ _ _ V) as K. cbn [fst] in K.
  destruct (o_kin o) as [k|]; [|congruence]. cbn [release]. unfold alive. rewrite A2. reflexivity.
Qed.
Print Assumptions C56_move_refuted.
