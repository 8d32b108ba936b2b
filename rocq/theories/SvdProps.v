(** C59: eigenvectors by Jacobi rotations and the singular value decomposition built on them. *)
From Verif Require Import Prelude RSum DenseSpec QrSpec QrProofs SvdModel SvdSpec SvdProofs SvdProofs2 SvdProofs3 SvdProofs4 SvdProofs5.
Local Open Scope R_scope.

(** Every run on a symmetric matrix stays in the arrays and leaves orthonormal vectors; when it reports success the numbers are
    the Rayleigh quotients and a v = e v up to 10 n^2 eps.  Missing: that 50 sweeps are enough for n > 2 (see C59_stagnation_refuted). *)
Theorem C59_eigen_partial : forall eps sweeps n a e V, 0 <= eps -> symmetric n a -> length e = n -> length V = (n * n)%nat ->
  exists ok e' v, jacobi_eigen eps sweeps n (store n n a) e V = Some (ok, e', store n n v) /\ orthonormal n v /\
    (ok = true -> exists lam, e' = arr n lam /\ eigen_pairs n a (10 * INR n * INR n * eps) lam v) /\ (ok = false -> e' = e).
Proof.
  intros eps sweeps n a e V He Sy Le LV. destruct (jacobi_eigen_ok eps sweeps n a e V He Sy Le LV) as (ok & e' & a' & v & E & H & _ & _ & T & F).
  exists ok, e', v. split; [exact E|]. split; [apply H|]. split; [|exact F]. intros Hk. destruct (T Hk) as [Off Ee]. exists (fun i => a' i i). split; [exact Ee|]. apply similar_eigen; [now apply jac_tol_pos|exact H|exact Off].
Qed.
Print Assumptions C59_eigen_partial.

(** A rotation at (p, q): the vectors stay orthonormal, the matrix stays v^T a v, and the sum of squares above the diagonal
    loses exactly the square of the element. *)
Theorem C59_rotation : forall tol n p q a0 a v, 0 <= tol -> (p < q)%nat -> (q < n)%nat -> similar n a0 a v -> tol < Rabs (a p q) ->
  exists a' v', jac_rot tol n p q (store n n a, store n n v) = Some (store n n a', store n n v') /\ similar n a0 a' v' /\ a' p q = 0 /\ off_diagonal n a' = off_diagonal n a - a p q * a p q.
Proof.
  intros tol n p q a0 a v Ht Hp Hq H L. destruct (jac_rot_ok tol n p q a v Hp Hq (proj1 H) Ht) as [[Q _]|(_ & c & s & P & Z & E)]; [lra|].
  exists (rotm p q c s a), (rotc p q c s v). split; [exact E|]. split; [now apply similar_rot|]. split; [exact Z|]. apply off_rot; try assumption. apply H.
Qed.
Print Assumptions C59_rotation.

(** Up to size 2 the answer always comes. *)
Theorem C59_eigen_small : forall eps sweeps n a e V, 0 <= eps -> (n <= 2)%nat -> (2 <= sweeps)%nat -> symmetric n a -> length e = n -> length V = (n * n)%nat ->
  exists e' V', jacobi_eigen eps sweeps n (store n n a) e V = Some (true, e', V').
Proof.
  intros eps sweeps n a e V He Hn Hs Sy Le LV. destruct sweeps as [|[|k]]; try lia. unfold jacobi_eigen. rewrite jac_init_ok by assumption. cbn [obind].
  destruct (jac_loop_small (jac_tol eps n) n a identity k (jac_tol_pos eps n He) Hn Sy) as (a' & v' & E). rewrite E. cbn [obind]. rewrite jac_eval_ok by assumption. cbn [obind]. eauto.
Qed.
Print Assumptions C59_eigen_small.

(** From size 3 on it may never come: all elements are below the threshold of the rotations, their sum of squares is above
    the threshold of the exit. *)
Theorem C59_stagnation_refuted : forall eps, 0 < eps -> exists a, symmetric 3 a /\ forall sweeps e V, length e = 3%nat -> length V = 9%nat ->
  jacobi_eigen eps sweeps 3 (store 3 3 a) e V = Some (false, e, store 3 3 identity).
Proof.
  intros eps He. set (t := jac_tol eps 3). assert (Ht : 0 < t) by (unfold t, jac_tol; cbn; lra).
  set (a := fun i j => if (i =? j)%nat then 1 else 9 / 10 * t). exists a. split; [intros i j _ _; unfold a; now rewrite Nat.eqb_sym|].
  intros sweeps e V Le LV. unfold jacobi_eigen. rewrite jac_init_ok by assumption. cbn [obind]. fold t. rewrite jac_loop_stuck; [reflexivity| |].
  - intros p q Hp Hq. unfold a. destruct (Nat.eqb_spec p q); [lia|]. rewrite Rabs_pos_eq; lra.
  - unfold off_diagonal, a. cbn. assert (0 < t * t) by (now apply Rmult_lt_0_compat). lra.
Qed.
Print Assumptions C59_stagnation_refuted.

(** Sorting keeps the pairs together and orders the numbers decreasingly. *)
Theorem C59_sort : forall n e v, exists e' v', sort_desc n (arr n e, store n n v) = Some (arr n e', store n n v') /\ rearranged n e v e' v' /\ decreasing n e'.
Proof. exact sort_desc_ok. Qed.
Print Assumptions C59_sort.

(** [U], [V] are matrices or null pointers *)
Definition result (N : nat) (m : option (list R)) (u : matrix) : option (list R) := option_map (fun _ => store N N u) m.
Definition fits (N : nat) (m : option (list R)) : Prop := forall l, m = Some l -> length l = (N * N)%nat.
(** The decomposition of an N x M matrix.  The values do not depend on which of U, V is asked for.  On success the smaller set of
    vectors is orthonormal, |A v_j| = s_j in decreasing order, the A v_j are orthogonal up to 10 K^2 eps, and for s_j > eps
    u_j is the unit vector with A v_j = s_j u_j (for N < M the same with A transposed and u, v exchanged).
    If its first K columns are orthonormal, the larger set is orthogonal or one of the further columns is almost zero.
    Missing: the larger set is orthonormal (refuted below in three ways). *)
Theorem C59_svd_partial : forall eps sweeps N M a gram buf e S, 0 <= eps -> let K := Nat.min N M in
  length gram = (K * K)%nat -> length buf = (K * K)%nat -> length e = K -> length S = K ->
  exists (ok : bool) s, forall U V, fits N U -> fits M V -> exists u v U' V',
    jacobiSVD eps sweeps N M (store N M a) U S V gram buf e = Some (ok, U', s, V') /\
    (ok = true -> U' = result N U u /\ V' = result M V v /\ exists sg, s = arr K sg /\
      if (M <=? N)%nat then right_vectors N M a (10 * INR M * INR M * eps) sg v /\ (U <> None -> left_vectors N M a eps sg u v /\ completed N M eps u)
      else right_vectors M N (transposed a) (10 * INR N * INR N * eps) sg u /\ (V <> None -> left_vectors M N (transposed a) eps sg v u /\ completed M N eps v)).
Proof.
  intros eps sweeps N M a gram buf e S He K Lg Lb Le LS. unfold jacobiSVD. destruct (Nat.leb_spec M N) as [HMN|HMN].
  - assert (EK : K = M) by (unfold K; lia). rewrite EK in *. rewrite gram_ata_ok by assumption. cbn [obind].
    destruct (svd_half_ok eps sweeps M N (fun t i => mrd (store N M a) N i t) a buf e S He HMN) as (ok & s & H); try assumption; [intros; now apply mrd_store|].
    exists ok, s. intros U V HU HV. destruct (H V U) as (v & u & E & T); [destruct V; cbn; auto|destruct U; cbn; auto|]. rewrite E. cbn [obind].
    exists u, v. do 2 eexists. split; [reflexivity|]. intros ->. split; [destruct U; reflexivity|]. split; [destruct V; reflexivity|]. destruct (T eq_refl) as (sg & Es & RV & LV). exists sg. split; [exact Es|]. split; [exact RV|]. intros HU'. split; now apply LV.
  - assert (EK : K = N) by (unfold K; lia). rewrite EK in *. rewrite gram_aat_ok by assumption. cbn [obind].
    destruct (svd_half_ok eps sweeps N M (fun t i => mrd (store N M a) N t i) (transposed a) buf e S He) as (ok & s & H); try assumption; [lia|intros; unfold transposed; now apply mrd_store|].
    exists ok, s. intros U V HU HV. destruct (H U V) as (u & v & E & T); [destruct U; cbn; auto|destruct V; cbn; auto|]. unfold transposed in E. rewrite E. cbn [obind].
    exists u, v. do 2 eexists. split; [reflexivity|]. intros ->. split; [destruct U; reflexivity|]. split; [destruct V; reflexivity|]. destruct (T eq_refl) as (sg & Es & RV & LV). exists sg. split; [exact Es|]. split; [exact RV|]. intros HV'. split; now apply LV.
Qed.
Print Assumptions C59_svd_partial.

(** U S V^T is the matrix up to K eps in each element, and exactly when all the values are above eps. *)
Theorem C59_svd_product : forall eps sweeps N M a U V gram buf e S U' s V', 0 <= eps -> let K := Nat.min N M in
  length gram = (K * K)%nat -> length buf = (K * K)%nat -> length e = K -> length S = K -> length U = (N * N)%nat -> length V = (M * M)%nat ->
  jacobiSVD eps sweeps N M (store N M a) (Some U) S (Some V) gram buf e = Some (true, U', s, V') ->
  exists u v sg, U' = Some (store N N u) /\ V' = Some (store M M v) /\ s = arr K sg /\
    forall i j, (i < N)%nat -> (j < M)%nat -> Rabs (a i j - factors K u sg v i j) <= INR K * eps /\ ((forall c, (c < K)%nat -> eps < sg c) -> a i j = factors K u sg v i j).
Proof.
  intros eps sweeps N M a U V gram buf e S U' s V' He K Lg Lb Le LS LU LV. unfold jacobiSVD. destruct (Nat.leb_spec M N) as [HMN|HMN].
  - assert (EK : K = M) by (unfold K; lia). rewrite EK in *. rewrite gram_ata_ok by assumption. cbn [obind].
    destruct (svd_half_ok eps sweeps M N (fun t i => mrd (store N M a) N i t) a buf e S He HMN) as (ok & s1 & H); try assumption; [intros; now apply mrd_store|].
    destruct (H (Some V) (Some U)) as (v & u & E & T); [exact LV|exact LU|]. rewrite E. cbn [obind filled]. intros X. injection X as -> <- <- <-. destruct (T eq_refl) as (sg & Es & RV & LV'). destruct LV' as (LL & LZ & _); [discriminate|].
    exists u, v, sg. split; [reflexivity|]. split; [reflexivity|]. split; [exact Es|]. intros i j Hi Hj. exact (factors_ok N M a eps _ sg u v He RV LL LZ i j Hi Hj).
  - assert (EK : K = N) by (unfold K; lia). rewrite EK in *. rewrite gram_aat_ok by assumption. cbn [obind].
    destruct (svd_half_ok eps sweeps N M (fun t i => mrd (store N M a) N t i) (transposed a) buf e S He) as (ok & s1 & H); try assumption; [lia|intros; unfold transposed; now apply mrd_store|].
    destruct (H (Some U) (Some V)) as (u & v & E & T); [exact LU|exact LV|]. unfold transposed in E. rewrite E. cbn [obind filled]. intros X. injection X as -> <- <- <-. destruct (T eq_refl) as (sg & Es & RV & LV'). destruct LV' as (LL & LZ & _); [discriminate|].
    exists u, v, sg. split; [reflexivity|]. split; [reflexivity|]. split; [exact Es|]. intros i j Hi Hj.
    assert (F := factors_ok M N (transposed a) eps _ sg v u He RV LL LZ j i Hj Hi). assert (EF : factors N v sg u j i = factors N u sg v i j) by (unfold factors; apply Rsum_ext; intros; ring). rewrite EF in F. exact F.
Qed.
Print Assumptions C59_svd_product.

(** The completion keeps the given columns; if they are orthonormal, the result is an orthogonal matrix or one of the new
    columns came out (almost) zero. *)
Theorem C59_completion_partial : forall eps n done q, 0 <= eps -> (done <= n)%nat -> exists q', complete_cols eps n done (store n n q) = Some (store n n q') /\
  (forall i c, (i < n)%nat -> (c < done)%nat -> q' i c = q i c) /\ completed n done eps q'.
Proof.
  intros eps n done q He Hd. destruct (complete_ok eps n done q He Hd) as (q' & E & H1 & H2). exists q'. split; [exact E|]. split; [exact H1|]. intros O. apply H2. intros c d Hc Hd'. rewrite <- (O c d Hc Hd'). unfold inner, column. apply Rsum_ext. intros i Hi. rewrite !H1 by assumption. reflexivity.
Qed.
Print Assumptions C59_completion_partial.

(** *** what is not orthogonal *)
(* a singular matrix: a zero column in U *)
Theorem C59_svd_singular_refuted : forall eps, 0 < eps -> exists u v, jacobiSVD eps 50 1 1 (store 1 1 (fun _ _ => 0)) (Some [7]) [5] (Some [7]) [7] [7] [7] = Some (true, Some (store 1 1 u), [0], Some (store 1 1 v)) /\ ~ orthonormal 1 u.
Proof.
  intros eps He. exists (fun _ _ => 0), (fun _ _ => 1). split; [exact (svd_zero eps 49 He)|]. intros O. assert (C := O 0%nat 0%nat ltac:(lia) ltac:(lia)). cbn in C. lra.
Qed.
Print Assumptions C59_svd_singular_refuted.
(* the column (1, 0): both candidates for the second column of U are in the span of the first *)
Theorem C59_svd_completion_refuted : forall eps, 0 < eps < 1 -> exists u v, jacobiSVD eps 50 2 1 (store 2 1 (fun i _ => if (i =? 0)%nat then 1 else 0)) (Some [7; 7; 7; 7]) [5] (Some [7]) [7] [7] [7] = Some (true, Some (store 2 2 u), [1], Some (store 1 1 v)) /\
  (forall i, (i < 2)%nat -> u i 1%nat = 0) /\ ~ orthonormal 2 u.
Proof.
  intros eps He. exists (fun i j => if ((i =? 0) && (j =? 0))%nat then 1 else 0), (fun _ _ => 1). split; [exact (svd_column eps 49 He)|]. split; [intros i Hi; cbn; now rewrite Bool.andb_false_r|]. intros O. assert (C := O 1%nat 1%nat ltac:(lia) ltac:(lia)). cbn in C. lra.
Qed.
Print Assumptions C59_svd_completion_refuted.
(* a regular matrix with elements d, eps < d <= sqrt (40 eps): the columns of U are 45 degrees apart *)
Theorem C59_svd_tiny_refuted : forall eps d, 0 < eps < d -> d * d <= 40 * eps -> exists u v s, jacobiSVD eps 50 2 2 (store 2 2 (fun i j => if ((i =? 1) && (j =? 0))%nat then 0 else d)) (Some [7; 7; 7; 7]) [5; 5] (Some [7; 7; 7; 7]) [7; 7; 7; 7] [7; 7; 7; 7] [7; 7] = Some (true, Some (store 2 2 u), [s; d], Some (store 2 2 v)) /\
  eps < d <= s /\ inner 2 (column u 0) (column u 1) <> 0.
Proof.
  intros eps d He Hd. destruct (svd_tiny eps 49 d He Hd) as (w & E & Hw).
  exists (fun i j => if (j =? 0)%nat then w else if (i =? 0)%nat then 1 else 0), (fun i j => if (i =? j)%nat then 0 else 1), (sqrt (2 * (d * d))). split; [exact E|]. split.
  - split; [lra|]. rewrite <- (sqrt_square d) at 1 by lra. apply sqrt_le_1_alt. assert (0 < d * d) by (apply Rmult_lt_0_compat; lra). lra.
  - unfold inner, column. cbn. lra.
Qed.
Print Assumptions C59_svd_tiny_refuted.

(** *** the hypotheses are met *)
Example C59_symmetric_nontrivial : symmetric 2 (fun i j => if (i =? j)%nat then 2 else 1) /\ exists e' V', jacobi_eigen (1 / 10) 50 2 (store 2 2 (fun i j => if (i =? j)%nat then 2 else 1)) [0; 0] [0; 0; 0; 0] = Some (true, e', V').
Proof. split; [intros i j _ _; now rewrite Nat.eqb_sym|]. apply C59_eigen_small; try lra; try lia; try reflexivity. intros i j _ _; now rewrite Nat.eqb_sym. Qed.
Example C59_rotation_nontrivial : similar 2 (fun i j => if (i =? j)%nat then 2 else 1) (fun i j => if (i =? j)%nat then 2 else 1) identity /\ 0 < Rabs ((fun i j => if (i =? j)%nat then 2 else 1) 0%nat 1%nat).
Proof. split; [apply similar_init; intros i j _ _; now rewrite Nat.eqb_sym|]. cbn. rewrite Rabs_R1. lra. Qed.
Example C59_tiny_nontrivial : 0 < 1 / 100 < 1 / 10 /\ 1 / 10 * (1 / 10) <= 40 * (1 / 100).
Proof. lra. Qed.
Example C59_product_nontrivial : exists U s V, jacobiSVD (1 / 100) 50 1 1 (store 1 1 (fun _ _ => 0)) (Some [7]) [5] (Some [7]) [7] [7] [7] = Some (true, U, s, V).
Proof. do 3 eexists. apply (svd_zero (1 / 100) 49). lra. Qed.
