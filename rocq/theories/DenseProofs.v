(** Cholesky: packed storage, factorisation, substitution. *)
From Verif Require Import Prelude RSum DenseModel DenseSpec.
Local Open Scope R_scope.

(** *** Packed index *)
Definition coff (N j : nat) : nat := ((2 * N + 1 - j) * j / 2)%nat.
Lemma coff_twice : forall N j, (j <= N)%nat -> (2 * coff N j = (2 * N + 1 - j) * j)%nat.
Proof.
  intros N j Hj. assert (H : exists c, ((2 * N + 1 - j) * j = 2 * c)%nat).
  { induction j as [|j IH]; [exists 0%nat; lia|]. destruct IH as [c Hc]; [lia|]. exists (c + (N - j))%nat. nia. }
  destruct H as [c Hc]. unfold coff. rewrite Hc, (Nat.mul_comm 2 c), Nat.div_mul by lia. lia.
Qed.
Lemma coff_S : forall N j, (j < N)%nat -> coff N (S j) = (coff N j + (N - j))%nat.
Proof. intros N j Hj. pose proof (coff_twice N j ltac:(lia)). pose proof (coff_twice N (S j) ltac:(lia)). nia. Qed.
Lemma coff_mono : forall N j k, (j <= k <= N)%nat -> (coff N j <= coff N k)%nat.
Proof.
  intros N j k [Hjk Hk]. induction Hjk as [|k Hjk IH]; [lia|]. rewrite coff_S by lia. specialize (IH ltac:(lia)). lia.
Qed.
Definition tot (N : nat) : nat := (N * (N + 1) / 2)%nat.
Lemma coff_tot : forall N, coff N N = tot N.
Proof. intros N. unfold coff, tot. f_equal. nia. Qed.
Lemma pid_coff : forall N i j, pid N i j = (i - j + coff N j)%nat.
Proof. reflexivity. Qed.
Lemma pid_lt : forall N i j, (j <= i < N)%nat -> (pid N i j < tot N)%nat.
Proof.
  intros N i j H. rewrite pid_coff, <- coff_tot. pose proof (coff_S N j ltac:(lia)). pose proof (coff_mono N (S j) N ltac:(lia)). lia.
Qed.
Lemma pid_inj : forall N i j i' j', (j <= i < N)%nat -> (j' <= i' < N)%nat -> pid N i j = pid N i' j' -> i = i' /\ j = j'.
Proof.
  intros N i j i' j' H H' E. rewrite !pid_coff in E. destruct (Nat.lt_trichotomy j j') as [Hl|[->|Hl]]; [|lia|].
  - pose proof (coff_S N j ltac:(lia)). pose proof (coff_mono N (S j) j' ltac:(lia)). lia.
  - pose proof (coff_S N j' ltac:(lia)). pose proof (coff_mono N (S j') j ltac:(lia)). lia.
Qed.

Lemma rd_ex : forall {A} (m : list A) i, (i < length m)%nat -> exists v, rd m i = Some v.
Proof. intros A m i Hi. unfold rd. destruct (nth_error m i) eqn:E; [eauto|]. apply nth_error_None in E. lia. Qed.
(** m holds the lower triangle of l in packed form, and agrees with m0 behind it *)
Definition pk (N : nat) (m0 m : list R) (l : matrix) : Prop :=
  length m = length m0 /\ (forall i j, (j <= i < N)%nat -> rd m (pid N i j) = Some (l i j)) /\
  (forall p, (tot N <= p)%nat -> rd m p = rd m0 p).
Lemma pk_ext : forall N m0 m l l', (forall i j, (j <= i < N)%nat -> l i j = l' i j) -> pk N m0 m l -> pk N m0 m l'.
Proof. intros N m0 m l l' H (H1 & H2 & H3). split; [exact H1|]. split; [|exact H3]. intros i j Hij. rewrite H2 by assumption. now rewrite H. Qed.
Lemma pk_wr : forall N m0 m l i j v, (tot N <= length m0)%nat -> pk N m0 m l -> (j <= i < N)%nat ->
  exists m', wr m (pid N i j) v = Some m' /\ pk N m0 m' (upd2 l i j v).
Proof.
  intros N m0 m l i j v Hn (H1 & H2 & H3) Hij. pose proof (pid_lt N i j Hij).
  destruct (wr_some m (pid N i j) v) as (m' & E & L & H'); [lia|]. exists m'. split; [exact E|]. split; [lia|]. split.
  - intros i' j' Hij'. rewrite H'. unfold upd2. destruct (Nat.eqb_spec (pid N i' j') (pid N i j)) as [Ep|Ep].
    + apply pid_inj in Ep; [|lia|lia]. destruct Ep as [-> ->]. now rewrite !Nat.eqb_refl.
    + destruct (Nat.eqb_spec i' i) as [->|]; [|cbn; apply H2; lia]. destruct (Nat.eqb_spec j' j) as [->|]; [congruence|cbn; apply H2; lia].
  - intros p Hp. rewrite H'. destruct (Nat.eqb_spec p (pid N i j)); [lia|]. apply H3. exact Hp.
Qed.
Lemma pk_rd : forall N m0 m l i j, pk N m0 m l -> (j <= i < N)%nat -> rd m (pid N i j) = Some (l i j).
Proof. intros N m0 m l i j (_ & H & _) Hij. now apply H. Qed.

Ltac beqs := repeat match goal with
  | |- context [(?a =? ?b)%nat] => destruct (Nat.eqb_spec a b); try subst; try lia
  | |- context [(?a <? ?b)%nat] => destruct (Nat.ltb_spec a b); try lia
  | |- context [(?a <=? ?b)%nat] => destruct (Nat.leb_spec a b); try lia
  end; cbn [andb orb]; try lia.

(** *** Packing *)
Lemma chol_pack_ok : forall N a m0, (tot N <= length m0)%nat ->
  exists m, chol_pack N (store N N a) m0 = Some m /\ pk N m0 m a.
Proof.
  intros N a m0 Hn. unfold chol_pack.
  set (g := fun m => fun i j => match rd m (pid N i j) with Some v => v | None => 0 end : R).
  destruct (for_inv (fun k m => pk N m0 m (fun i j => if (j <? k)%nat then a i j else g m0 i j)) N
     (fun k L => for_range k (N - k) (fun i L => do v <- rd (store N N a) (i + k * N); wr L (pid N i k) v) L) m0) as (m & E & H).
  - split; [reflexivity|]. split; [|reflexivity]. intros i j Hij. cbn. unfold g. pose proof (pid_lt N i j Hij). destruct (rd_ex m0 (pid N i j)) as [v E]; [lia|]. now rewrite E.
  - intros k m Hk Hm.
    destruct (for_range_inv (fun i m => pk N m0 m (fun i' j => if ((j <? k) || ((j =? k) && (i' <? i)))%nat then a i' j else g m0 i' j)) (N - k) k
      (fun i L => do v <- rd (store N N a) (i + k * N); wr L (pid N i k) v) m) as (m' & E & H).
    + eapply pk_ext; [|exact Hm]. intros i j Hij. cbn beta. beqs; reflexivity.
    + intros i m1 Hi Hm1. rewrite (Nat.mul_comm k N). change (rd (store N N a) (i + N * k)) with (mrd (store N N a) N i k). rewrite mrd_store by lia. cbn [obind].
      destruct (pk_wr N m0 m1 _ i k (a i k) Hn Hm1 ltac:(lia)) as (m2 & E2 & H2). exists m2. split; [exact E2|].
      eapply pk_ext; [|exact H2]. intros i' j' Hij. unfold upd2. cbn beta. beqs; try reflexivity.
    + exists m'. split; [exact E|]. eapply pk_ext; [|exact H]. intros i j Hij. cbn beta. beqs; reflexivity.
  - exists m. split; [exact E|]. eapply pk_ext; [|exact H]. intros i j Hij. cbn beta. beqs. reflexivity.
Qed.

Lemma pid_le : forall N i k, (k <= i < N)%nat -> (pid N i k <= i + k * N)%nat.
Proof. intros N i k H. rewrite pid_coff. pose proof (coff_twice N k ltac:(lia)). nia. Qed.
Lemma chol_pack_inplace_ok : forall N a,
  exists m, chol_pack_inplace N (store N N a) = Some m /\ pk N (store N N a) m a.
Proof.
  intros N a. set (m0 := store N N a).
  assert (Hn : (tot N <= length m0)%nat).
  { unfold m0. rewrite store_length. unfold tot. apply Nat.div_le_upper_bound; nia. }
  assert (Hr : forall i k, (i < N)%nat -> (k < N)%nat -> rd m0 (i + k * N) = Some (a i k)).
  { intros i k Hi Hk. rewrite (Nat.mul_comm k N). apply mrd_store; assumption. }
  unfold chol_pack_inplace.
  set (J := fun k i m => (length m = length m0)%nat /\ (forall i' j, (j <= i' < N)%nat -> ((j < k)%nat \/ (j = k /\ (i' < i)%nat)) -> rd m (pid N i' j) = Some (a i' j)) /\ (forall p, (i + k * N <= p)%nat -> rd m p = rd m0 p) /\ (forall p, (tot N <= p)%nat -> rd m p = rd m0 p)).
  destruct (for_inv (fun k m => J k k m) N
     (fun k L => for_range k (N - k) (fun i L => do v <- rd L (i + k * N); wr L (pid N i k) v) L) m0) as (m & E & H).
  - split; [reflexivity|]. split; [intros; lia|]. split; reflexivity.
  - intros k m Hk Hm.
    destruct (for_range_inv (fun i m => J k i m) (N - k) k (fun i L => do v <- rd L (i + k * N); wr L (pid N i k) v) m) as (m' & E & H).
    + exact Hm.
    + intros i m1 Hi (L1 & P1 & R1 & T1). rewrite R1 by lia. rewrite Hr by lia. cbn [obind].
      pose proof (pid_lt N i k ltac:(lia)). pose proof (pid_le N i k ltac:(lia)).
      destruct (wr_some m1 (pid N i k) (a i k)) as (m2 & E2 & L2 & W2); [lia|]. exists m2. split; [exact E2|]. split; [lia|]. split; [|split].
      * intros i' j Hij Hd. rewrite W2. destruct (Nat.eqb_spec (pid N i' j) (pid N i k)) as [Ep|Ep].
        -- apply pid_inj in Ep; [|lia|lia]. destruct Ep as [-> ->]. reflexivity.
        -- apply P1; [lia|]. destruct Hd as [Hd|[-> Hd]]; [now left|]. right. split; [reflexivity|]. destruct (Nat.eq_dec i' i) as [->|]; [congruence|lia].
      * intros p Hp. rewrite W2. destruct (Nat.eqb_spec p (pid N i k)); [lia|]. apply R1. lia.
      * intros p Hp. rewrite W2. destruct (Nat.eqb_spec p (pid N i k)); [lia|]. apply T1. lia.
    + exists m'. split; [exact E|]. destruct H as (L1 & P1 & R1 & T1). split; [exact L1|]. split; [|split; [|exact T1]].
      * intros i' j Hij Hd. apply P1; [lia|]. lia.
      * intros p Hp. apply R1. nia.
  - exists m. split; [exact E|]. destruct H as (L1 & P1 & R1 & T1). split; [exact L1|]. split; [|exact T1]. intros i j Hij. apply P1; lia.
Qed.

(** *** One elimination step, on functions *)
Definition fstep (k : nat) (l : matrix) : matrix := fun i j =>
  if (j <? k)%nat then l i j else if (j =? k)%nat then (if (i =? k)%nat then sqrt (l k k) else l i k / sqrt (l k k))
  else l i j - (l i k / sqrt (l k k)) * (l j k / sqrt (l k k)).
Lemma chol_step_ok : forall N m0 m l k, (tot N <= length m0)%nat -> (k < N)%nat -> pk N m0 m l ->
  exists m', chol_step N k m = Some m' /\ pk N m0 m' (fstep k l).
Proof.
  intros N m0 m l k Hn Hk Hm. unfold chol_step. rewrite (pk_rd _ _ _ _ _ _ Hm) by lia. cbn [obind].
  destruct (pk_wr N m0 m l k k (sqrt (l k k)) Hn Hm ltac:(lia)) as (m1 & E1 & H1). rewrite E1. cbn [obind]. clear E1.
  set (s := sqrt (l k k)) in *.
  destruct (for_range_inv (fun i m => pk N m0 m (fun i' j => if (j =? k)%nat then (if (i' =? k)%nat then s else if (i' <? i)%nat then l i' k / s else l i' k) else l i' j)) (N - S k) (S k)
    (fun i L => do x <- rd L (pid N i k); do y <- rd L (pid N k k); wr L (pid N i k) (x / y)) m1) as (m2 & E2 & H2).
  { eapply pk_ext; [|exact H1]. intros i j Hij. unfold upd2. cbn beta. beqs; reflexivity. }
  { intros i m2 Hi Hm2. rewrite (pk_rd _ _ _ _ _ _ Hm2), (pk_rd _ _ _ _ _ _ Hm2) by lia. cbn [obind]. cbn beta. rewrite !Nat.eqb_refl.
    destruct (Nat.eqb_spec i k); [lia|]. rewrite Nat.ltb_irrefl.
    destruct (pk_wr N m0 m2 _ i k (l i k / s) Hn Hm2 ltac:(lia)) as (m3 & E3 & H3). exists m3. split; [exact E3|].
    eapply pk_ext; [|exact H3]. intros i' j Hij. unfold upd2. cbn beta. beqs; reflexivity. }
  rewrite E2. cbn [obind]. clear E2. replace (S k + (N - S k))%nat with N in H2 by lia.
  set (c := fun i => l i k / s) in *.
  destruct (for_range_inv (fun j m => pk N m0 m (fun i j' => if (j' <? k)%nat then l i j' else if (j' =? k)%nat then (if (i =? k)%nat then s else c i) else if (j' <? j)%nat then l i j' - c i * c j' else l i j')) (N - S k) (S k)
    (fun j L => for_range j (N - j) (fun i L =>
      do x <- rd L (pid N i j); do a <- rd L (pid N i k); do b <- rd L (pid N j k); wr L (pid N i j) (x - a * b)) L) m2) as (m3 & E3 & H3).
  { eapply pk_ext; [|exact H2]. intros i j Hij. cbn beta. unfold c. beqs; reflexivity. }
  { intros j m3 Hj Hm3.
    destruct (for_range_inv (fun i0 m => pk N m0 m (fun i j' => if (j' <? k)%nat then l i j' else if (j' =? k)%nat then (if (i =? k)%nat then s else c i)
        else if ((j' <? j) || ((j' =? j) && (i <? i0)))%nat then l i j' - c i * c j' else l i j')) (N - j) j
      (fun i L => do x <- rd L (pid N i j); do a <- rd L (pid N i k); do b <- rd L (pid N j k); wr L (pid N i j) (x - a * b)) m3) as (m4 & E4 & H4).
    - eapply pk_ext; [|exact Hm3]. intros i j' Hij. cbn beta. beqs; reflexivity.
    - intros i m4 Hi Hm4. rewrite (pk_rd _ _ _ _ _ _ Hm4), (pk_rd _ _ _ _ _ _ Hm4), (pk_rd _ _ _ _ _ _ Hm4) by lia. cbn [obind]. cbn beta.
      match goal with |- context [wr m4 _ ?v] => replace v with (l i j - c i * c j) by (beqs; reflexivity) end.
      destruct (pk_wr N m0 m4 _ i j (l i j - c i * c j) Hn Hm4 ltac:(lia)) as (m5 & E5 & H5). exists m5. split; [exact E5|].
      eapply pk_ext; [|exact H5]. intros i' j' Hij. unfold upd2. cbn beta. beqs; reflexivity.
    - exists m4. split; [exact E4|]. eapply pk_ext; [|exact H4]. intros i j' Hij. cbn beta. beqs; reflexivity. }
  exists m3. split; [exact E3|]. eapply pk_ext; [|exact H3]. intros i j Hij. cbn beta. unfold fstep, c. fold s. beqs; reflexivity.
Qed.

(** *** Factorisation *)
Fixpoint fiter (k : nat) (a : matrix) : matrix := match k with O => a | S k => fstep k (fiter k a) end.
Definition pivot (a : matrix) (k : nat) : R := fiter k a k k.
Lemma chol_factor_ok : forall N m0 m a, (tot N <= length m0)%nat -> pk N m0 m a ->
  exists st, chol_factor N m = Some st /\
    match st with
    | Some m' => pk N m0 m' (fiter N a) /\ forall k, (k < N)%nat -> 0 < pivot a k
    | None => exists k, (k < N)%nat /\ pivot a k <= 0 /\ forall j, (j < k)%nat -> 0 < pivot a j
    end.
Proof.
  intros N m0 m a Hn Hm. unfold chol_factor.
  apply (for_inv (fun k st => match st with
    | Some m' => pk N m0 m' (fiter k a) /\ forall j, (j < k)%nat -> 0 < pivot a j
    | None => exists j, (j < k)%nat /\ pivot a j <= 0 /\ forall j', (j' < j)%nat -> 0 < pivot a j'
    end) N).
  - split; [exact Hm|]. intros; lia.
  - intros k [m1|] Hk H.
    + destruct H as [H Hp]. rewrite (pk_rd _ _ _ _ _ _ H) by lia. cbn [obind]. fold (pivot a k).
      destruct (Rle_dec (pivot a k) 0) as [Hl|Hl].
      * eexists. split; [reflexivity|]. exists k. split; [lia|]. split; [exact Hl|]. intros j Hj. apply Hp. lia.
      * destruct (chol_step_ok N m0 m1 _ k Hn Hk H) as (m2 & E2 & H2). rewrite E2. cbn [obind]. eexists. split; [reflexivity|].
        split; [exact H2|]. intros j Hj. destruct (Nat.eq_dec j k) as [->|]; [lra|]. apply Hp. lia.
    + destruct H as (j & Hj & H1 & H2). eexists. split; [reflexivity|]. exists j. split; [lia|]. split; [exact H1|exact H2].
Qed.

Definition Lf (a : matrix) : matrix := fun i j => if (j <=? i)%nat then fiter (S j) a i j else 0.
Lemma fiter_keep : forall k a i j, (j < k)%nat -> fiter k a i j = fiter (S j) a i j.
Proof.
  induction k as [|k IH]; intros a i j H; [lia|]. destruct (Nat.eq_dec j k) as [->|]; [reflexivity|].
  rewrite <- (IH a i j) by lia. cbn [fiter]. unfold fstep at 1. destruct (Nat.ltb_spec j k); [reflexivity|lia].
Qed.
Lemma Lf_diag : forall a k, Lf a k k = sqrt (pivot a k).
Proof. intros a k. unfold Lf. rewrite Nat.leb_refl. cbn [fiter]. unfold fstep. rewrite Nat.ltb_irrefl, !Nat.eqb_refl. reflexivity. Qed.
Lemma Lf_below : forall a i k, (k < i)%nat -> Lf a i k = fiter k a i k / Lf a k k.
Proof.
  intros a i k H. rewrite Lf_diag. unfold Lf. destruct (Nat.leb_spec k i); [|lia]. cbn [fiter]. unfold fstep, pivot. rewrite Nat.ltb_irrefl, Nat.eqb_refl.
  destruct (Nat.eqb_spec i k); [lia|reflexivity].
Qed.
Lemma Lf_above : forall a i j, (i < j)%nat -> Lf a i j = 0.
Proof. intros a i j H. unfold Lf. destruct (Nat.leb_spec j i); [lia|reflexivity]. Qed.
Lemma fiter_rest : forall k a i j, (k <= j <= i)%nat -> fiter k a i j = a i j - Rsum k (fun m => Lf a i m * Lf a j m).
Proof.
  induction k as [|k IH]; intros a i j H; [cbn; lra|]. cbn [fiter Rsum]. unfold fstep at 1.
  destruct (Nat.ltb_spec j k); [lia|]. destruct (Nat.eqb_spec j k); [lia|].
  rewrite (IH a i j) by lia. rewrite (Lf_below a i k), (Lf_below a j k) by lia. rewrite Lf_diag. unfold pivot. ring.
Qed.
Lemma Lf_diag_pos : forall a k, 0 < pivot a k -> 0 < Lf a k k.
Proof. intros a k H. rewrite Lf_diag. now apply sqrt_lt_R0. Qed.
(* one column *)
Lemma Lf_col : forall a i j, (j <= i)%nat -> 0 < pivot a j -> Lf a i j * Lf a j j = fiter j a i j.
Proof.
  intros a i j H Hp. pose proof (Lf_diag_pos a j Hp) as Hd. destruct (Nat.eq_dec j i) as [->|].
  - rewrite Lf_diag. apply sqrt_def. fold (pivot a i). lra.
  - rewrite Lf_below by lia. field. lra.
Qed.
Lemma Rsum_tail_zero : forall n k f, (k <= n)%nat -> (forall m, (k <= m < n)%nat -> f m = 0) -> Rsum n f = Rsum k f.
Proof.
  induction n as [|n IH]; intros k f Hk H; [replace k with 0%nat by lia; reflexivity|].
  destruct (Nat.eq_dec k (S n)) as [->|]; [reflexivity|]. cbn [Rsum]. rewrite (IH k f) by (try lia; intros; apply H; lia). rewrite H by lia. lra.
Qed.
(* a = L L^T, columns below n, for rows whose pivots are positive *)
Lemma chol_product_lower : forall n a i j, (j <= i)%nat -> (j < n)%nat -> 0 < pivot a j ->
  a i j = Rsum n (fun m => Lf a i m * Lf a j m).
Proof.
  intros n a i j H Hj Hp. rewrite (Rsum_tail_zero n (S j)) by (try lia; intros m Hm; rewrite (Lf_above a j m) by lia; lra).
  cbn [Rsum]. rewrite Lf_col by assumption. rewrite fiter_rest by lia. lra.
Qed.
Lemma chol_product : forall N a i j, symmetric N a -> (forall k, (k < N)%nat -> 0 < pivot a k) -> (i < N)%nat -> (j < N)%nat ->
  a i j = Rsum N (fun m => Lf a i m * Lf a j m).
Proof.
  intros N a i j Hs Hp Hi Hj. destruct (Nat.le_ge_cases j i).
  - apply chol_product_lower; auto.
  - rewrite (Hs i j Hi Hj), (chol_product_lower N a j i) by auto. apply Rsum_ext. intros m _. lra.
Qed.

(** *** Back substitution exists *)
Lemma back_exists : forall (l : matrix) k r, (forall m, (m < k)%nat -> l m m <> 0) -> (forall i j, (i < j)%nat -> l i j = 0) ->
  exists x, forall m, (m < k)%nat -> Rsum k (fun i => x i * l i m) = r m.
Proof.
  intros l k. induction k as [|k IH]; intros r Hd Hu; [exists (fun _ => 0); intros; lia|].
  set (y := r k / l k k). destruct (IH (fun m => r m - y * l k m)) as [x Hx]; [intros; apply Hd; lia|exact Hu|].
  exists (fun i => if (i =? k)%nat then y else x i). intros m Hm. cbn [Rsum]. rewrite Nat.eqb_refl.
  rewrite (Rsum_ext k _ (fun i => x i * l i m)) by (intros i Hi; destruct (Nat.eqb_spec i k); [lia|reflexivity]).
  destruct (Nat.eq_dec m k) as [->|].
  - rewrite Rsum_zero by (intros i Hi; rewrite Hu by lia; lra). unfold y. field. apply Hd. lia.
  - rewrite Hx by lia. lra.
Qed.
Lemma Rsum_sq : forall n f, Rsum n f * Rsum n f = Rsum n (fun i => Rsum n (fun j => f i * f j)).
Proof. intros n f. rewrite <- (Rsum_scal_r n (Rsum n f)). apply Rsum_ext. intros i _. symmetry. apply Rsum_scal. Qed.
Lemma Rsum_nonneg : forall n f, (forall i, (i < n)%nat -> 0 <= f i) -> 0 <= Rsum n f.
Proof. induction n as [|n IH]; intros f H; cbn; [lra|]. pose proof (H n ltac:(lia)). pose proof (IH f ltac:(intros; apply H; lia)). lra. Qed.
Lemma Rsum_nonneg_zero : forall n f, (forall i, (i < n)%nat -> 0 <= f i) -> Rsum n f = 0 -> forall i, (i < n)%nat -> f i = 0.
Proof.
  induction n as [|n IH]; intros f H E i Hi; [lia|]. cbn in E. pose proof (H n ltac:(lia)). pose proof (Rsum_nonneg n f ltac:(intros; apply H; lia)).
  destruct (Nat.eq_dec i n) as [->|]; [lra|]. apply IH; try lia; [intros; apply H; lia|lra].
Qed.
(* x^T (L L^T) x = |L^T x|^2 *)
Lemma quad_gram : forall n p (l : matrix) x,
  Rsum n (fun i => Rsum n (fun j => Rsum p (fun m => l i m * l j m) * x i * x j)) = Rsum p (fun m => Rsum n (fun i => x i * l i m) * Rsum n (fun i => x i * l i m)).
Proof.
  intros n p l x. transitivity (Rsum n (fun i => Rsum p (fun m => Rsum n (fun j => (x i * l i m) * (x j * l j m))))).
  - apply Rsum_ext. intros i _. rewrite <- Rsum_swap. apply Rsum_ext. intros j _. rewrite <- !Rsum_scal_r. apply Rsum_ext. intros m _. ring.
  - rewrite Rsum_swap. apply Rsum_ext. intros m _. rewrite Rsum_sq. reflexivity.
Qed.
Lemma pd_pivots : forall N a, symmetric N a -> positive_definite N a -> forall k, (k < N)%nat -> 0 < pivot a k.
Proof.
  intros N a Hs Hp k. induction k as [k IH] using lt_wf_ind. intros Hk.
  destruct (back_exists (Lf a) k (fun m => - Lf a k m)) as [x Hx].
  { intros m Hm. pose proof (Lf_diag_pos a m (IH m Hm ltac:(lia))). lra. }
  { intros; now apply Lf_above. }
  set (y := fun i => if (i <? k)%nat then x i else if (i =? k)%nat then 1 else 0).
  assert (Hq : 0 < quadratic N a y).
  { apply Hp. exists k. split; [exact Hk|]. unfold y. rewrite Nat.ltb_irrefl, Nat.eqb_refl. lra. }
  replace (quadratic N a y) with (pivot a k) in Hq; [exact Hq|]. symmetry. unfold quadratic.
  set (b := fun i j => Rsum k (fun m => Lf a i m * Lf a j m) + (if ((i =? k) && (j =? k))%nat then pivot a k else 0)).
  assert (Hab : forall i j, (i <= k)%nat -> (j <= k)%nat -> a i j = b i j).
  { assert (G : forall i j, (j <= i)%nat -> (i <= k)%nat -> a i j = b i j).
    - intros i j Hji Hi. unfold b. destruct (Nat.eq_dec j k) as [->|Hjk].
      + replace i with k by lia. rewrite Nat.eqb_refl. cbn [andb]. unfold pivot. rewrite (fiter_rest k a k k) by lia. lra.
      + rewrite (chol_product_lower k a i j) by (try lia; apply IH; lia). destruct (Nat.eqb_spec j k); [lia|]. rewrite Bool.andb_false_r. lra.
    - intros i j Hi Hj. destruct (Nat.le_ge_cases j i) as [H|H]; [now apply G|]. rewrite (Hs i j) by lia. rewrite G by lia. unfold b.
      rewrite Bool.andb_comm. f_equal. apply Rsum_ext. intros; ring. }
  rewrite (Rsum_tail_zero N (S k)).
  2:{ lia. }
  2:{ intros i Hi. apply Rsum_zero. intros j _. unfold y. destruct (Nat.ltb_spec i k); [lia|]. destruct (Nat.eqb_spec i k); [lia|]. lra. }
  rewrite (Rsum_ext (S k) _ (fun i => Rsum (S k) (fun j => b i j * y i * y j))).
  2:{ intros i Hi. rewrite (Rsum_tail_zero N (S k)).
      - apply Rsum_ext. intros j Hj. rewrite Hab by lia. reflexivity.
      - lia.
      - intros j Hj. unfold y at 2. destruct (Nat.ltb_spec j k); [lia|]. destruct (Nat.eqb_spec j k); [lia|]. lra. }
  unfold b.
  rewrite (Rsum_ext (S k) _ (fun i => Rsum (S k) (fun j => Rsum k (fun m => Lf a i m * Lf a j m) * y i * y j) + Rsum (S k) (fun j => (if ((i =? k) && (j =? k))%nat then pivot a k else 0) * y i * y j))) by (intros i Hi; rewrite <- Rsum_plus; apply Rsum_ext; intros; ring).
  rewrite Rsum_plus, quad_gram. rewrite Rsum_zero.
  - rewrite (Rsum_single (S k) k); [|lia|].
    + rewrite (Rsum_single (S k) k); [|lia|].
      * rewrite Nat.eqb_refl. cbn [andb]. unfold y. rewrite Nat.ltb_irrefl, Nat.eqb_refl. lra.
      * intros j _ Hj. destruct (Nat.eqb_spec j k); [lia|]. rewrite Bool.andb_false_r. lra.
    + intros i _ Hi. apply Rsum_zero. intros j _. destruct (Nat.eqb_spec i k); [lia|]. cbn [andb]. lra.
  - intros m Hm. assert (E : Rsum (S k) (fun i => y i * Lf a i m) = 0); [|rewrite E; lra].
    cbn [Rsum]. rewrite (Rsum_ext k _ (fun i => x i * Lf a i m)) by (intros i Hi; unfold y; destruct (Nat.ltb_spec i k); [reflexivity|lia]).
    rewrite Hx by assumption. unfold y. rewrite Nat.ltb_irrefl, Nat.eqb_refl. lra.
Qed.
(* the converse *)
Lemma tri_zero : forall (l : matrix) N x, (forall m, (m < N)%nat -> l m m <> 0) -> (forall i j, (i < j)%nat -> l i j = 0) ->
  (forall m, (m < N)%nat -> Rsum N (fun i => x i * l i m) = 0) -> forall i, (i < N)%nat -> x i = 0.
Proof.
  intros l N. induction N as [|N IH]; intros x Hd Hu H i Hi; [lia|].
  assert (E : x N = 0).
  { pose proof (H N ltac:(lia)) as Q. cbn [Rsum] in Q. rewrite Rsum_zero in Q by (intros j Hj; rewrite Hu by lia; lra).
    pose proof (Hd N ltac:(lia)). apply Rmult_eq_reg_r with (l N N); lra. }
  destruct (Nat.eq_dec i N) as [->|]; [exact E|]. apply (IH x); try lia; [intros; apply Hd; lia|exact Hu|].
  intros m Hm. pose proof (H m ltac:(lia)) as Q. cbn [Rsum] in Q. rewrite E in Q. lra.
Qed.
Lemma pivots_pd : forall N a, symmetric N a -> (forall k, (k < N)%nat -> 0 < pivot a k) -> positive_definite N a.
Proof.
  intros N a Hs Hp x (i & Hi & Hx). unfold quadratic.
  rewrite (Rsum_ext N _ (fun i => Rsum N (fun j => Rsum N (fun m => Lf a i m * Lf a j m) * x i * x j))) by (intros i' Hi'; apply Rsum_ext; intros j Hj; now rewrite (chol_product N a i' j)).
  rewrite quad_gram. assert (G : forall m, (m < N)%nat -> 0 <= Rsum N (fun i => x i * Lf a i m) * Rsum N (fun i => x i * Lf a i m)) by (intros m _; apply (Rle_0_sqr (Rsum N (fun i => x i * Lf a i m)))).
  destruct (Rsum_nonneg N _ G) as [Hl|He]; [exact Hl|]. exfalso. apply Hx.
  apply (tri_zero (Lf a) N x); [intros m Hm; pose proof (Lf_diag_pos a m (Hp m Hm)); lra|intros; now apply Lf_above| |exact Hi].
  intros m Hm. pose proof (Rsum_nonneg_zero N _ G (eq_sym He) m Hm) as Q. cbn beta in Q. apply Rsqr_0_uniq. exact Q.
Qed.
