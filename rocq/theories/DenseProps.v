(** C29 (Cholesky) and C30 (LU with full pivoting). *)
From Verif Require Import Prelude RSum DenseModel DenseSpec DenseProofs DenseProofs2 DenseProofs3.
Local Open Scope R_scope.

(** C29.  For every symmetric A, every right-hand side and both ways of sharing memory
    (mem = A, X = B): no access is out of range; the solver throws exactly when A is not
    positive definite; otherwise A X = B; only the first N(N+1)/2 cells of the work memory
    change.  A, B are stored by columns. *)
Theorem C29_solve : forall N M (inplace same : bool) a b X mem, symmetric N a ->
  (if same then X = store N M b else length X = (N * M)%nat) ->
  (if inplace then mem = store N N a else (N * (N + 1) / 2 <= length mem)%nat) ->
  (positive_definite N a -> exists x mem', cholesky_solve N M inplace same (store N N a) (store N M b) X mem = Some (Some (store N M x, mem')) /\
     solves N M a x b /\ length mem' = length mem /\ forall p, (N * (N + 1) / 2 <= p)%nat -> rd mem' p = rd mem p) /\
  (~ positive_definite N a -> cholesky_solve N M inplace same (store N N a) (store N M b) X mem = Some None).
Proof.
  intros N M inplace same a b X mem Hs HX Hm. destruct (cholesky_solve_ok N M inplace same a b X mem Hs HX Hm) as (r & E & H). split; intros Hp.
  - destruct r as [[X' mem']|]; [|now elim H]. destruct H as (_ & (x & -> & Hx) & H2 & H3). exists x, mem'. auto.
  - destruct r as [[X' mem']|]; [destruct H as [H _]; contradiction|exact E].
Qed.
Print Assumptions C29_solve.
(** Only the lower triangle is read: the upper one may hold anything. *)
Theorem C29_lower_only : forall N M same a a' b X mem, (forall i j, (j <= i < N)%nat -> a i j = a' i j) ->
  cholesky_solve N M false same (store N N a) (store N M b) X mem = cholesky_solve N M false same (store N N a') (store N M b) X mem.
Proof.
  intros N M same a a' b X mem H. unfold cholesky_solve. replace (chol_pack N (store N N a) mem) with (chol_pack N (store N N a') mem); [reflexivity|].
  unfold chol_pack. apply GeoProofs2.for_ext. intros k s Hk. apply GeoProofs2.for_range_ext. intros i t Hi. rewrite (Nat.mul_comm k N), !store_rd by lia. now rewrite H by lia.
Qed.
Print Assumptions C29_lower_only.
Theorem C29_inverse : forall N (inplace : bool) a Inv mem, symmetric N a -> positive_definite N a -> length Inv = (N * N)%nat ->
  (if inplace then mem = store N N a else (N * (N + 1) / 2 <= length mem)%nat) ->
  exists inv mem', cholesky_inverse N inplace (store N N a) Inv mem = Some (Some (store N N inv, mem')) /\ solves N N a inv identity.
Proof.
  intros N inplace a Inv mem Hs Hp HI Hm. unfold cholesky_inverse. rewrite fill_identity_ok by assumption. cbn [obind].
  destruct (C29_solve N N inplace true a identity (store N N identity) mem Hs eq_refl Hm) as [H _]. destruct (H Hp) as (x & mem' & E & Hx & _).
  exists x, mem'. auto.
Qed.
Print Assumptions C29_inverse.
(** A matrix that is not diagonal meets the hypotheses. *)
Definition spd_ex : matrix := fun i j => if (i =? j)%nat then 2 else 1.
Example C29_ex : symmetric 2 spd_ex /\ positive_definite 2 spd_ex /\ ~ positive_definite 2 (fun i j => - spd_ex i j).
Proof.
  split; [|split].
  - intros i j _ _. unfold spd_ex. rewrite Nat.eqb_sym. reflexivity.
  - intros x (i & Hi & Hx). unfold quadratic. cbn. unfold spd_ex. cbn. pose proof (Rle_0_sqr (x 0%nat + x 1%nat)) as H. pose proof (Rle_0_sqr (x 0%nat)) as H0. pose proof (Rle_0_sqr (x 1%nat)) as H1.
    unfold Rsqr in *. destruct i as [|[|i]]; [| |lia]; apply Rsqr_pos_lt in Hx; unfold Rsqr in Hx; lra.
  - intros H. specialize (H (fun _ => 1)). unfold quadratic, spd_ex in H. cbn in H. assert (0 < 1) by lra. enough (0 < -6) by lra.
    eapply Rlt_le_trans; [apply H; exists 0%nat; split; [lia|lra]|]. lra.
Qed.

(** C30.  The model has the comparison with the rounding unit as a parameter; [eps = 0] is
    exact pivoting.  For a nonsingular matrix the factorisation never runs out of range,
    and the solver returns the exact solution x with its entries moved by the square of
    the column permutation q of the factorisation. *)
Definition column_permutation (N : nat) (a : matrix) (q : nat -> nat) : Prop :=
  exists LU p, full_piv_lu 0 N (store N N a, seq 0 N, seq 0 N) = Some (LU, p, arr N q).
Theorem C30_permuted : forall N M a b X, (0 < N)%nat -> nonsingular N a -> length X = (N * M)%nat ->
  exists q q' x, column_permutation N a q /\ bij N q q' /\ solves N M a x b /\
    full_piv_lu_solve 0 N M (store N N a) (store N M b) X = Some (store N M (fun i l => x (q (q i)) l)).
Proof.
  intros N M a b X HN Hn HX. destruct (full_piv_lu_ok N a Hn) as (lu & p & p' & q & q' & E & Hp & Hq & Hl).
  destruct (lu_solve_ok N M a lu p p' q q' b X HN HX Hp Hq Hl) as (x & Hx & Es). exists q, q', x. split; [|split; [exact Hq|split; [exact Hx|]]].
  - eexists _, _. exact E.
  - unfold full_piv_lu_solve. rewrite (copy_n_list 0) by (first [apply store_length | apply repeat_length]). cbn [obind].
    rewrite (copy_n_list 0) by (first [apply store_length | apply repeat_length]). cbn [obind]. rewrite E. cbn [obind]. exact Es.
Qed.
Print Assumptions C30_permuted.
Lemma arr_inj_perm : forall N a q1 q2, column_permutation N a q1 -> column_permutation N a q2 -> forall i, (i < N)%nat -> q1 i = q2 i.
Proof. intros N a q1 q2 (lu & p & E) (lu' & p' & E'). rewrite E in E'. apply Some_inj' in E'. assert (H : arr N q1 = arr N q2) by congruence. now apply arr_inj. Qed.
(** The answer is right for every right-hand side exactly when the column permutation is
    its own inverse. *)
Theorem C30_solve_partial : forall N M a q, (0 < N)%nat -> (0 < M)%nat -> nonsingular N a -> column_permutation N a q ->
  ((forall i, (i < N)%nat -> q (q i) = i) <->
   forall b X, length X = (N * M)%nat -> exists x, full_piv_lu_solve 0 N M (store N N a) (store N M b) X = Some (store N M x) /\ solves N M a x b).
Proof.
  intros N M a q HN HM Hn Hc. split.
  - intros Hq b X HX. destruct (C30_permuted N M a b X HN Hn HX) as (q1 & q1' & x & Hc1 & Hb & Hx & E).
    eexists. split; [exact E|]. intros i k Hi Hk. rewrite <- (Hx i k Hi Hk). apply Rsum_ext. intros j Hj.
    pose proof (arr_inj_perm N a q1 q Hc1 Hc) as Eq. destruct (Hb j Hj) as (Hj' & _). rewrite (Eq (q1 j) Hj'), (Eq j Hj), Hq by assumption. reflexivity.
  - intros H i Hi.
    set (x0 := fun j (_ : nat) => INR j). set (b := fun r k => Rsum N (fun j => a r j * x0 j k)).
    destruct (H b (repeat 0 (N * M)) (repeat_length _ _)) as (x & E & Hx).
    destruct (C30_permuted N M a b (repeat 0 (N * M)) HN Hn (repeat_length _ _)) as (q1 & q1' & x1 & Hc1 & Hb & Hx1 & E1).
    pose proof (arr_inj_perm N a q1 q Hc1 Hc) as Eq.
    rewrite E in E1. apply Some_inj' in E1. pose proof (store_inj N M _ _ E1) as Ex.
    assert (U : forall y, solves N M a y b -> forall j, (j < N)%nat -> y j 0%nat = INR j).
    { intros y Hy j Hj. apply Rminus_diag_uniq. apply (Hn (fun j => y j 0%nat - x0 j 0%nat)); [|exact Hj].
      intros r Hr. rewrite (Rsum_ext N _ (fun j => a r j * y j 0%nat - a r j * x0 j 0%nat)) by (intros; ring). rewrite Rsum_minus, (Hy r 0%nat Hr HM). unfold b. ring. }
    destruct (Hb i Hi) as (H1 & _). destruct (Hb (q1 i) H1) as (H2 & _).
    pose proof (Ex i 0%nat Hi HM) as Ei. rewrite (U x Hx i Hi), (U x1 Hx1 _ H2) in Ei. apply INR_eq in Ei.
    rewrite <- (Eq i Hi). destruct (Nat.eq_dec (q1 i) (q1 i)); [|lia]. rewrite <- (Eq (q1 i) H1). lia.
Qed.
Print Assumptions C30_solve_partial.
(** In particular systems of size one and two are solved. *)
Theorem C30_small_partial : forall N M a b X, (0 < N <= 2)%nat -> nonsingular N a -> length X = (N * M)%nat ->
  exists x, full_piv_lu_solve 0 N M (store N N a) (store N M b) X = Some (store N M x) /\ solves N M a x b.
Proof.
  intros N M a b X HN Hn HX. destruct (C30_permuted N M a b X ltac:(lia) Hn HX) as (q & q' & x & _ & Hb & Hx & E).
  eexists. split; [exact E|]. intros i k Hi Hk. rewrite <- (Hx i k Hi Hk). apply Rsum_ext. intros j Hj. f_equal. f_equal.
  destruct (Hb j Hj) as (H1 & _ & _ & H2). destruct (Hb (q j) H1) as (H3 & _ & _ & H4).
  assert (D : q j = j \/ q j <> j) by lia. destruct D as [D|D]; [now rewrite !D|].
  assert (q (q j) <> q j). { intros F. apply D. rewrite F in H4. congruence. } lia.
Qed.
Print Assumptions C30_small_partial.
(** The matrix with rows (0,3,0), (0,0,2), (1,0,0): its columns are taken in the order
    1, 2, 0, a cycle of length three. *)
Definition cyc : matrix := fun i j => nth (i + 3 * j) [0; 0; 1; 3; 0; 0; 0; 2; 0] 0.
Ltac real_if := match goal with
  | |- context [Rlt_dec ?a ?b] => destruct (Rlt_dec a b); [try (exfalso; lra)|try (exfalso; lra)]
  end.
Ltac lu_run := repeat first
  [ progress cbn [lu_step find_pivot for_range for_ Nat.sub Nat.add Nat.mul rd nth_error obind fst snd swap_cells wr swap_rows swap_cols max_below]
  | rewrite Rabs_R0 | rewrite (Rabs_right 1) by lra | rewrite (Rabs_right 2) by lra | rewrite (Rabs_right 3) by lra
  | rewrite (Rmax_left 0 0) by lra | real_if ].
Lemma cyc_lu : full_piv_lu 0 3 (store 3 3 cyc, seq 0 3, seq 0 3) = Some ([3; 0; 0; 0; 2; 0; 0; 0; 1], [0; 1; 2]%nat, [1; 2; 0]%nat).
Proof.
  replace (store 3 3 cyc) with [0; 0; 1; 3; 0; 0; 0; 2; 0] by reflexivity. unfold full_piv_lu, for_. cbn [seq for_range].
  assert (E0 : lu_step 0 3 0 ([0; 0; 1; 3; 0; 0; 0; 2; 0], [0; 1; 2]%nat, [0; 1; 2]%nat) = Some ([3; 0; 0; 0; 0; 1; 0; 2; 0], [0; 1; 2]%nat, [1; 0; 2]%nat)) by (unfold lu_step, find_pivot; lu_run; reflexivity).
  rewrite E0. cbn [obind].
  assert (E1 : lu_step 0 3 1 ([3; 0; 0; 0; 0; 1; 0; 2; 0], [0; 1; 2]%nat, [1; 0; 2]%nat) = Some ([3; 0; 0; 0; 2; 0; 0; 0; 1], [0; 1; 2]%nat, [1; 2; 0]%nat)) by (unfold lu_step, find_pivot; lu_run; reflexivity).
  rewrite E1. cbn [obind].
  assert (E2 : lu_step 0 3 2 ([3; 0; 0; 0; 2; 0; 0; 0; 1], [0; 1; 2]%nat, [1; 2; 0]%nat) = Some ([3; 0; 0; 0; 2; 0; 0; 0; 1], [0; 1; 2]%nat, [1; 2; 0]%nat)) by (unfold lu_step, find_pivot; lu_run; reflexivity).
  rewrite E2. reflexivity.
Qed.
Lemma cyc_nonsingular : nonsingular 3 cyc.
Proof.
  intros x H j Hj. pose proof (H 0%nat ltac:(lia)) as H0. pose proof (H 1%nat ltac:(lia)) as H1. pose proof (H 2%nat ltac:(lia)) as H2.
  unfold cyc in *. cbn in H0, H1, H2. destruct j as [|[|[|j]]]; [| | |lia]; lra.
Qed.
Theorem C30_solve_refuted : ~ forall N M a, (0 < N)%nat -> nonsingular N a -> forall b X, length X = (N * M)%nat ->
  exists x, full_piv_lu_solve 0 N M (store N N a) (store N M b) X = Some (store N M x) /\ solves N M a x b.
Proof.
  intros H. assert (Hc : column_permutation 3 cyc (fun i => nth i [1; 2; 0] 0)%nat) by (eexists _, _; rewrite cyc_lu; reflexivity).
  destruct (C30_solve_partial 3 1 cyc _ ltac:(lia) ltac:(lia) cyc_nonsingular Hc) as [_ Q].
  specialize (Q (H 3%nat 1%nat cyc ltac:(lia) cyc_nonsingular) 0%nat ltac:(lia)). discriminate Q.
Qed.
Print Assumptions C30_solve_refuted.
(** fullPivLU_inverse with Inv = A (allowed by its documentation) ignores A. *)
Lemma identity_nonsingular : forall N, nonsingular N identity.
Proof.
  intros N x H j Hj. rewrite <- (H j Hj). rewrite (Rsum_single N j); [unfold identity; rewrite Nat.eqb_refl; lra|exact Hj|].
  intros i _ Hi. unfold identity. destruct (Nat.eqb_spec j i); [congruence|lra].
Qed.
Theorem C30_inverse_shared_refuted : exists a Inv, nonsingular 1 a /\ Inv = store 1 1 a /\
  exists x, full_piv_lu_inverse 0 1 true Inv Inv = Some (store 1 1 x) /\ ~ solves 1 1 a x identity.
Proof.
  exists (fun _ _ => 2), (store 1 1 (fun _ _ => 2)). split; [|split; [reflexivity|]].
  - intros x H j Hj. specialize (H 0%nat ltac:(lia)). cbn in H. replace j with 0%nat by lia. lra.
  - unfold full_piv_lu_inverse. rewrite fill_identity_ok by reflexivity. cbn [obind].
    destruct (C30_small_partial 1 1 identity identity (store 1 1 identity) ltac:(lia) (identity_nonsingular 1) eq_refl) as (x & E & Hx).
    exists x. split; [exact E|]. intros F. specialize (F 0%nat 0%nat ltac:(lia) ltac:(lia)). specialize (Hx 0%nat 0%nat ltac:(lia) ltac:(lia)).
    unfold identity in *. cbn in F, Hx. lra.
Qed.
Print Assumptions C30_inverse_shared_refuted.
