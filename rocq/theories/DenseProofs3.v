(** LU with full pivoting. *)
From Verif Require GeoProofs2.
From Verif Require Import Prelude RSum DenseModel DenseSpec DenseProofs DenseProofs2.
Local Open Scope R_scope.

Lemma Rabs_zero : forall x, Rabs x <= 0 -> x = 0.
Proof. intros x H. unfold Rabs in H. destruct (Rcase_abs x); lra. Qed.
(** *** Swaps *)
Definition tr (x y i : nat) : nat := if (i =? x)%nat then y else if (i =? y)%nat then x else i.
Lemma tr_lt : forall n x y i, (x < n)%nat -> (y < n)%nat -> (i < n)%nat -> (tr x y i < n)%nat.
Proof. intros. unfold tr. beqs. Qed.
Lemma tr_tr : forall x y i, tr x y (tr x y i) = i.
Proof. intros. unfold tr. destruct (Nat.eqb_spec i x), (Nat.eqb_spec i y); beqs. Qed.
Lemma tr_low : forall k x y i, (k <= x)%nat -> (k <= y)%nat -> (i < k)%nat -> tr x y i = i.
Proof. intros. unfold tr. beqs. Qed.
Lemma tr_high : forall k x y i, (k <= x)%nat -> (k <= y)%nat -> (k <= i)%nat -> (k <= tr x y i)%nat.
Proof. intros. unfold tr. beqs. Qed.
Lemma swap_cells_arr : forall {A} n (f : nat -> A) i j, (i < n)%nat -> (j < n)%nat ->
  swap_cells (arr n f) i j = Some (arr n (fun t => f (tr i j t))).
Proof.
  intros A n f i j Hi Hj. unfold swap_cells. rewrite !rd_arr by assumption. cbn [obind]. rewrite wr_arr by assumption. cbn [obind]. rewrite wr_arr by assumption.
  apply f_equal, arr_ext. intros t Ht. unfold upd, tr. destruct (Nat.eqb_spec t i) as [->|].
  - destruct (Nat.eqb_spec i j) as [->|]; reflexivity.
  - destruct (Nat.eqb_spec t j); reflexivity.
Qed.
Lemma swap_rows_ok : forall N a k pi, (k < N)%nat -> (pi < N)%nat ->
  swap_rows N k pi (store N N a) = Some (store N N (fun i j => a (tr k pi i) j)).
Proof.
  intros N a k pi Hk Hp. unfold swap_rows.
  destruct (for_rep0 (store N N) (fun c y => forall i j, y i j = if (j <? c)%nat then a (tr k pi i) j else a i j) N (fun j A => swap_cells A (k + j * N) (pi + j * N)) a) as (y & E & H).
  - reflexivity.
  - intros c y Hc Hy. unfold swap_cells. rewrite (Nat.mul_comm c N). rewrite !store_rd by assumption. cbn [obind]. rewrite store_wr by assumption. cbn [obind]. rewrite store_wr by assumption.
    eexists. split; [reflexivity|]. intros i j. unfold upd2, tr. rewrite !Hy. rewrite Nat.ltb_irrefl.
    destruct (Nat.eqb_spec j c) as [->|].
    + rewrite !Bool.andb_true_r, Nat.ltb_irrefl. destruct (Nat.ltb_spec c (S c)); [|lia].
      destruct (Nat.eqb_spec i k) as [->|].
      * destruct (Nat.eqb_spec k pi) as [->|]; reflexivity.
      * destruct (Nat.eqb_spec i pi) as [->|]; reflexivity.
    + rewrite !Bool.andb_false_r. destruct (Nat.ltb_spec j c), (Nat.ltb_spec j (S c)); try lia; reflexivity.
  - rewrite E. apply f_equal, store_ext. intros i j Hi Hj. rewrite H. destruct (Nat.ltb_spec j N); [reflexivity|lia].
Qed.
Lemma swap_cols_ok : forall N a k pj, (k < N)%nat -> (pj < N)%nat ->
  swap_cols N k pj (store N N a) = Some (store N N (fun i j => a i (tr k pj j))).
Proof.
  intros N a k pi Hk Hp. unfold swap_cols.
  destruct (for_rep0 (store N N) (fun c y => forall i j, y i j = if (i <? c)%nat then a i (tr k pi j) else a i j) N (fun i A => swap_cells A (i + k * N) (i + pi * N)) a) as (y & E & H).
  - reflexivity.
  - intros c y Hc Hy. unfold swap_cells. rewrite !(Nat.mul_comm _ N). rewrite !store_rd by assumption. cbn [obind]. rewrite store_wr by assumption. cbn [obind]. rewrite store_wr by assumption.
    eexists. split; [reflexivity|]. intros i j. unfold upd2, tr. rewrite !Hy. rewrite Nat.ltb_irrefl.
    destruct (Nat.eqb_spec i c) as [->|]; cbn [andb].
    + rewrite Nat.ltb_irrefl. destruct (Nat.ltb_spec c (S c)); [|lia].
      destruct (Nat.eqb_spec j k) as [->|].
      * destruct (Nat.eqb_spec k pi) as [->|]; reflexivity.
      * destruct (Nat.eqb_spec j pi) as [->|]; reflexivity.
    + destruct (Nat.ltb_spec i c), (Nat.ltb_spec i (S c)); try lia; reflexivity.
  - rewrite E. apply f_equal, store_ext. intros i j Hi Hj. rewrite H. destruct (Nat.ltb_spec i N); [reflexivity|lia].
Qed.

(** *** Pivot search *)
Definition pivot_inv (N k : nat) (a : matrix) (seen : nat -> nat -> Prop) (st : R * option (nat * nat)) : Prop :=
  (forall i j, seen i j -> Rabs (a i j) <= fst st) /\
  match snd st with None => fst st = 0 | Some (i, j) => (k <= i < N)%nat /\ (k <= j < N)%nat /\ fst st = Rabs (a i j) /\ 0 < fst st end.
Lemma find_pivot_ok : forall N k a, (k <= N)%nat -> exists st, find_pivot N k (store N N a) = Some st /\
  pivot_inv N k a (fun i j => (k <= i < N)%nat /\ (k <= j < N)%nat) st.
Proof.
  intros N k a Hk. unfold find_pivot.
  match goal with |- context [for_range k (N - k) ?b (0, None)] => set (body := b) end.
  destruct (for_range_inv (fun i st => pivot_inv N k a (fun i' j' => (k <= i' < i)%nat /\ (k <= j' < N)%nat) st) (N - k) k body (0, None)) as (st & E & H).
  - split; [intros; lia|reflexivity].
  - intros i st Hi Hst. unfold body. match goal with |- context [for_range k (N - k) ?b st] => set (bd := b) end.
    destruct (for_range_inv (fun j st => pivot_inv N k a (fun i' j' => ((k <= i' < i)%nat /\ (k <= j' < N)%nat) \/ (i' = i /\ (k <= j' < j)%nat)) st) (N - k) k bd st) as (st2 & E2 & H2).
    + destruct Hst as [H1 H2]. split; [|exact H2]. intros i' j' [H|H]; [now apply H1|lia].
    + intros j st1 Hj [H1 H2]. unfold bd. rewrite (Nat.mul_comm j N), store_rd by lia. cbn [obind].
      destruct (Rlt_dec (fst st1) (Rabs (a i j))) as [Hl|Hl]; (eexists; split; [reflexivity|]).
      * split; cbn [fst snd].
        -- intros i' j' H'. destruct (Nat.eq_dec i' i) as [->|]; [destruct (Nat.eq_dec j' j) as [->|]; [lra|]|]; (apply Rle_trans with (fst st1); [|lra]; apply H1; lia).
        -- split; [lia|]. split; [lia|]. split; [reflexivity|].
           destruct (snd st1) as [[? ?]|]; [destruct H2 as (_ & _ & _ & H2); lra|lra].
      * split; [|exact H2]. intros i' j' H'. destruct (Nat.eq_dec i' i) as [->|]; [destruct (Nat.eq_dec j' j) as [->|]; [lra|]|]; apply H1; lia.
    + exists st2. split; [exact E2|]. destruct H2 as [H1 H2]. split; [|exact H2]. intros i' j' H'. apply H1. lia.
  - exists st. split; [exact E|]. destruct H as [H1 H2]. split; [|exact H2]. intros i' j' H'. apply H1. lia.
Qed.
Lemma max_below_ok : forall N k a, (k < N)%nat -> exists m, max_below N k (store N N a) = Some m /\ 0 <= m /\ forall i, (k < i < N)%nat -> Rabs (a i k) <= m.
Proof.
  intros N k a Hk. unfold max_below.
  destruct (for_range_inv (fun i m => 0 <= m /\ forall i', (k < i' < i)%nat -> Rabs (a i' k) <= m) (N - S k) (S k) (fun i m => do v <- rd (store N N a) (i + k * N); Some (Rmax m (Rabs v))) 0) as (m & E & H0 & H).
  - split; [lra|]. intros; lia.
  - intros i m Hi [H0 H1]. rewrite (Nat.mul_comm k N), store_rd by lia. cbn [obind]. eexists. split; [reflexivity|]. split.
    + apply Rle_trans with m; [exact H0|apply Rmax_l].
    + intros i' Hi'. destruct (Nat.eq_dec i' i) as [->|]; [apply Rmax_r|]. apply Rle_trans with m; [apply H1; lia|apply Rmax_l].
  - exists m. split; [exact E|]. split; [exact H0|]. intros i Hi. apply H. lia.
Qed.
Definition felim (k : nat) (a : matrix) : matrix := fun i j =>
  if (k <? i)%nat then if (j =? k)%nat then a i k / a k k else if (k <? j)%nat then a i j - a i k / a k k * a k j else a i j else a i j.
Lemma eliminate_ok : forall N k a, (k < N)%nat -> eliminate N k (store N N a) = Some (store N N (felim k a)).
Proof.
  intros N k a Hk. unfold eliminate. match goal with |- for_range _ _ ?b _ = _ => set (body := b) end.
  destruct (for_rep (store N N) (fun r y => forall i j, (j < N)%nat -> y i j = if (i <? r)%nat then felim k a i j else a i j) (N - S k) (S k) body a) as (y & E & H).
  - intros i j Hj. unfold felim. beqs; reflexivity.
  - intros i y Hi Hy. unfold body. rewrite !(Nat.mul_comm k N). rewrite !store_rd by lia. cbn [obind]. rewrite store_wr by lia. cbn [obind].
    match goal with |- context [for_range _ _ ?b (store N N ?y0)] => set (bd := b); set (y1 := y0) end.
    assert (Ei : forall j, (j < N)%nat -> y i j = a i j) by (intros j Hj; rewrite Hy, Nat.ltb_irrefl by exact Hj; reflexivity).
    assert (Ek : forall j, (j < N)%nat -> y k j = a k j) by (intros j Hj; rewrite Hy by exact Hj; unfold felim; beqs; reflexivity).
    destruct (for_rep (store N N) (fun c y => forall i' j, (j < N)%nat -> y i' j = if ((i' =? i) && ((j =? k) || ((k <? j) && (j <? c))))%nat then felim k a i j else if (i' <? i)%nat then felim k a i' j else a i' j) (N - S k) (S k) bd y1) as (y2 & E2 & H2).
    + intros i' j Hj. unfold y1, upd2. rewrite Ei, Ek, Hy by lia. unfold felim. beqs; reflexivity.
    + intros j y2 Hj Hy2. unfold bd. rewrite !(Nat.mul_comm j N), !store_rd by lia. cbn [obind]. rewrite store_wr by lia. eexists. split; [reflexivity|].
      intros i' j' Hj'. unfold upd2. rewrite Ei, Ek by lia. rewrite !Hy2 by lia. unfold felim. beqs; try reflexivity.
    + exists y2. split; [exact E2|]. intros i' j Hj. rewrite H2 by lia. unfold felim. beqs; try reflexivity.
  - rewrite E. apply f_equal, store_ext. intros i j Hi Hj. rewrite H by lia. destruct (Nat.ltb_spec i (S k + (N - S k))); [reflexivity|lia].
Qed.

(** *** Permutations with their inverse *)
Definition bij (N : nat) (p p' : nat -> nat) : Prop :=
  forall i, (i < N)%nat -> (p i < N)%nat /\ (p' i < N)%nat /\ p (p' i) = i /\ p' (p i) = i.
Lemma bij_tr : forall N p p' x y, bij N p p' -> (x < N)%nat -> (y < N)%nat -> bij N (fun i => p (tr x y i)) (fun i => tr x y (p' i)).
Proof.
  intros N p p' x y H Hx Hy i Hi. destruct (H i Hi) as (_ & H2 & H3 & _).
  destruct (H (tr x y i) (tr_lt N x y i Hx Hy Hi)) as (H5 & _ & _ & H6).
  split; [exact H5|]. split; [apply tr_lt; assumption|]. split; [now rewrite tr_tr|]. rewrite H6. apply tr_tr.
Qed.
Lemma Rsum_perm : forall N q q' f, bij N q q' -> Rsum N (fun j => f (q j)) = Rsum N f.
Proof.
  intros N q q' f H. transitivity (Rsum N (fun j => Rsum N (fun c => if (c =? q j)%nat then f c else 0))).
  - apply Rsum_ext. intros j Hj. destruct (H j Hj) as (H1 & _). rewrite (Rsum_single N (q j)); [now rewrite Nat.eqb_refl|exact H1|].
    intros i _ Hi. destruct (Nat.eqb_spec i (q j)); [contradiction|reflexivity].
  - rewrite Rsum_swap. apply Rsum_ext. intros c Hc. destruct (H c Hc) as (_ & H2 & H3 & _).
    rewrite (Rsum_single N (q' c)); [now rewrite H3, Nat.eqb_refl|exact H2|].
    intros j Hj Hne. destruct (Nat.eqb_spec c (q j)) as [->|]; [|reflexivity]. exfalso. apply Hne. symmetry. apply (H j Hj).
Qed.

(** *** The factorisation invariant *)
Definition ll (a : matrix) : matrix := fun i m => if (m <? i)%nat then a i m else if (m =? i)%nat then 1 else 0.
Definition uu (a : matrix) : matrix := fun m j => if (m <=? j)%nat then a m j else 0.
Definition partial_lu (N k : nat) (A a : matrix) (p q : nat -> nat) : Prop :=
  (forall i j, (i < N)%nat -> (j < N)%nat -> A (p i) (q j) = Rsum k (fun m => ll a i m * uu a m j) + (if ((k <=? i) && (k <=? j))%nat then a i j else 0)) /\
  forall m, (m < k)%nat -> a m m <> 0.
Lemma partial_rows : forall N k A a p q pi, (k < N)%nat -> (k <= pi < N)%nat -> partial_lu N k A a p q ->
  partial_lu N k A (fun i j => a (tr k pi i) j) (fun i => p (tr k pi i)) q.
Proof.
  intros N k A a p q pi Hk Hp [H1 H2]. split.
  - intros i j Hi Hj. rewrite H1 by (try apply tr_lt; lia). f_equal.
    + apply Rsum_ext. intros m Hm. f_equal.
      * unfold ll. destruct (Nat.lt_ge_cases i k) as [Hik|Hik]; [now rewrite (tr_low k k pi i) by lia|].
        pose proof (tr_high k k pi i ltac:(lia) ltac:(lia) Hik). beqs; reflexivity.
      * unfold uu. now rewrite (tr_low k k pi m) by lia.
    + destruct (Nat.lt_ge_cases i k) as [Hik|Hik]; [now rewrite (tr_low k k pi i) by lia|].
      pose proof (tr_high k k pi i ltac:(lia) ltac:(lia) Hik). destruct (Nat.leb_spec k i), (Nat.leb_spec k (tr k pi i)); try lia. reflexivity.
  - intros m Hm. rewrite (tr_low k k pi m) by lia. now apply H2.
Qed.
Lemma partial_cols : forall N k A a p q pj, (k < N)%nat -> (k <= pj < N)%nat -> partial_lu N k A a p q ->
  partial_lu N k A (fun i j => a i (tr k pj j)) p (fun j => q (tr k pj j)).
Proof.
  intros N k A a p q pi Hk Hp [H1 H2]. split.
  - intros i j Hi Hj. rewrite H1 by (try apply tr_lt; lia). f_equal.
    + apply Rsum_ext. intros m Hm. f_equal.
      * unfold ll. now rewrite (tr_low k k pi m) by lia.
      * unfold uu. destruct (Nat.lt_ge_cases j k) as [Hjk|Hjk]; [now rewrite (tr_low k k pi j) by lia|].
        pose proof (tr_high k k pi j ltac:(lia) ltac:(lia) Hjk). beqs; reflexivity.
    + destruct (Nat.lt_ge_cases j k) as [Hjk|Hjk]; [now rewrite (tr_low k k pi j) by lia|].
      pose proof (tr_high k k pi j ltac:(lia) ltac:(lia) Hjk). destruct (Nat.leb_spec k j), (Nat.leb_spec k (tr k pi j)); try lia. reflexivity.
  - intros m Hm. rewrite (tr_low k k pi m) by lia. now apply H2.
Qed.
Lemma partial_elim : forall N k A a p q, (k < N)%nat -> a k k <> 0 -> partial_lu N k A a p q -> partial_lu N (S k) A (felim k a) p q.
Proof.
  intros N k A a p q Hk Hd [H1 H2]. split.
  - intros i j Hi Hj. rewrite H1 by assumption. cbn [Rsum].
    rewrite (Rsum_ext k (fun m => ll (felim k a) i m * uu (felim k a) m j) (fun m => ll a i m * uu a m j)).
    2:{ intros m Hm. unfold ll, uu, felim. beqs; reflexivity. }
    rewrite Rplus_assoc. f_equal. unfold ll, uu, felim. beqs; try lra; try (field; assumption).
  - intros m Hm. unfold felim. destruct (Nat.ltb_spec k m); [lia|]. destruct (Nat.eq_dec m k) as [->|]; [exact Hd|]. apply H2. lia.
Qed.
Lemma partial_noelim : forall N k A a p q, (k < N)%nat -> a k k <> 0 -> (forall i, (k < i < N)%nat -> a i k = 0) -> partial_lu N k A a p q -> partial_lu N (S k) A a p q.
Proof.
  intros N k A a p q Hk Hd Hz H. destruct (partial_elim N k A a p q Hk Hd H) as [H1 H2].
  assert (E : forall i j, (i < N)%nat -> felim k a i j = a i j).
  { intros i j Hi. unfold felim. beqs; try reflexivity; rewrite Hz by lia; unfold Rdiv; ring. }
  split.
  - intros i j Hi Hj. rewrite H1 by assumption. f_equal.
    + apply Rsum_ext. intros m Hm. unfold ll, uu. rewrite !E by lia. reflexivity.
    + now rewrite E by assumption.
  - intros m Hm. rewrite <- (E m m) by lia. now apply H2.
Qed.
(** a zero remainder block means that the matrix is singular *)
Lemma zero_block_singular : forall N k A a p p' q q', (k < N)%nat -> bij N p p' -> bij N q q' -> partial_lu N k A a p q ->
  (forall i j, (k <= i < N)%nat -> (k <= j < N)%nat -> a i j = 0) -> ~ nonsingular N A.
Proof.
  intros N k A a p p' q q' Hk Hp Hq [H1 H2] Hz Hn.
  destruct (back_exists (fun i m => uu a m i) k (fun m => - uu a m k)) as [x Hx].
  { intros m Hm. unfold uu. rewrite Nat.leb_refl. now apply H2. }
  { intros i j Hij. unfold uu. destruct (Nat.leb_spec j i); [lia|reflexivity]. }
  set (y := fun j => if (j <? k)%nat then x j else if (j =? k)%nat then 1 else 0).
  assert (Hy : forall m, (m < k)%nat -> Rsum N (fun j => uu a m j * y j) = 0).
  { intros m Hm. rewrite (Rsum_tail_zero N (S k)); [|lia|intros j Hj; unfold y; destruct (Nat.ltb_spec j k); [lia|]; destruct (Nat.eqb_spec j k); [lia|]; lra].
    cbn [Rsum]. rewrite (Rsum_ext k _ (fun i => x i * uu a m i)) by (intros j Hj; unfold y; destruct (Nat.ltb_spec j k); [ring|lia]).
    rewrite Hx by assumption. unfold y. rewrite Nat.ltb_irrefl, Nat.eqb_refl. lra. }
  assert (Q : y (q' (q k)) = 0).
  { apply (Hn (fun c => y (q' c))); [|apply (Hq k Hk)]. intros r Hr. destruct (Hp r Hr) as (_ & Hr' & Er & _).
    rewrite <- (Rsum_perm N q q' (fun c => A r c * y (q' c)) Hq). rewrite <- Er.
    rewrite (Rsum_ext N _ (fun j => Rsum k (fun m => ll a (p' r) m * (uu a m j * y j)))).
    - rewrite Rsum_swap. apply Rsum_zero. intros m Hm. rewrite Rsum_scal, Hy by assumption. lra.
    - intros j Hj. destruct (Hq j Hj) as (_ & _ & _ & Ej). rewrite Ej, H1 by assumption.
      replace (if ((k <=? p' r) && (k <=? j))%nat then a (p' r) j else 0) with 0.
      + rewrite Rplus_0_r, <- Rsum_scal_r. apply Rsum_ext. intros; ring.
      + destruct (Nat.leb_spec k (p' r)), (Nat.leb_spec k j); cbn [andb]; try reflexivity. rewrite Hz by lia. reflexivity. }
  destruct (Hq k Hk) as (_ & _ & _ & Ek). rewrite Ek in Q. unfold y in Q. rewrite Nat.ltb_irrefl, Nat.eqb_refl in Q. lra.
Qed.

Definition lu_rep (N : nat) (t : matrix * (nat -> nat) * (nat -> nat)) : lu_state :=
  let '(a, p, q) := t in (store N N a, arr N p, arr N q).
Lemma full_piv_lu_ok : forall N A, nonsingular N A ->
  exists a p p' q q', full_piv_lu 0 N (store N N A, seq 0 N, seq 0 N) = Some (store N N a, arr N p, arr N q) /\
    bij N p p' /\ bij N q q' /\ partial_lu N N A a p q.
Proof.
  intros N A Hn. unfold full_piv_lu. replace (store N N A, seq 0 N, seq 0 N) with (lu_rep N (A, (fun i => i), (fun i => i))).
  2:{ unfold lu_rep. replace (arr N (fun i => i)) with (seq 0 N); [reflexivity|]. unfold arr. now rewrite map_id. }
  destruct (for_rep0 (lu_rep N) (fun k t => let '(a, p, q) := t in exists p' q', bij N p p' /\ bij N q q' /\ partial_lu N k A a p q) N (lu_step 0 N) (A, (fun i => i), (fun i => i))) as (((a & p) & q) & E & H).
  - exists (fun i => i), (fun i => i). split; [|split]; [intros i Hi; auto|intros i Hi; auto|]. split; [|intros; lia].
    intros i j Hi Hj. cbn. lra.
  - intros k [[a p] q] Hk (p' & q' & Hp & Hq & H). unfold lu_rep at 1, lu_step.
    destruct (find_pivot_ok N k a ltac:(lia)) as (st & E & Hst). rewrite E. cbn [obind].
    destruct st as [mx [[pi pj]|]]; cbn [fst snd obind].
    2:{ exfalso. destruct Hst as [Hb H0]. cbn in Hb, H0. apply (zero_block_singular N k A a p p' q q' Hk Hp Hq H); [|exact Hn].
        intros i j Hi Hj. pose proof (Hb i j (conj Hi Hj)). pose proof (Rabs_pos (a i j)). apply Rabs_zero. lra. }
    destruct Hst as [Hb (Hpi & Hpj & Emx & Hmx)]. cbn [fst snd] in Hb, Emx, Hmx.
    rewrite swap_cells_arr by lia. cbn [obind]. rewrite swap_rows_ok by lia. cbn [obind]. rewrite swap_cells_arr by lia. cbn [obind]. rewrite swap_cols_ok by lia. cbn [obind].
    apply (partial_rows N k A a p q pi Hk Hpi) in H. apply (partial_cols N k A _ _ q pj Hk Hpj) in H.
    pose proof (bij_tr N p p' k pi Hp Hk ltac:(lia)) as Hp2. pose proof (bij_tr N q q' k pj Hq Hk ltac:(lia)) as Hq2.
    set (a2 := fun i j => a (tr k pi i) (tr k pj j)) in *. cbn beta in H.
    assert (Ekk : a2 k k <> 0).
    { unfold a2, tr. rewrite Nat.eqb_refl. intros Z. rewrite Z, Rabs_R0 in Emx. lra. }
    destruct (max_below_ok N k a2 Hk) as (m1 & E1 & H01 & H1). change (fun i j : nat => a (tr k pi i) (tr k pj j)) with a2. rewrite E1. cbn [obind].
    destruct (Rlt_dec 0 mx) as [_|]; [|lra]. destruct (Rlt_dec 0 m1) as [Hm1|Hm1].
    + destruct (Rlt_dec 0 (m1 / mx)) as [_|Hc]; [|exfalso; apply Hc; apply Rdiv_lt_0_compat; lra].
      rewrite eliminate_ok by assumption. cbn [obind]. exists (felim k a2, (fun i => p (tr k pi i)), (fun j => q (tr k pj j))). split; [reflexivity|].
      eexists _, _. split; [exact Hp2|]. split; [exact Hq2|]. now apply partial_elim.
    + cbn [obind]. exists (a2, (fun i => p (tr k pi i)), (fun j => q (tr k pj j))). split; [reflexivity|].
      eexists _, _. split; [exact Hp2|]. split; [exact Hq2|]. apply partial_noelim; try assumption.
      intros i Hi. pose proof (H1 i Hi). pose proof (Rabs_pos (a2 i k)). apply Rabs_zero. lra.
  - destruct H as (p' & q' & Hp & Hq & H). exists a, p, p', q, q'. auto.
Qed.

(** *** Substitution *)
Lemma first_nonzero_ok : forall n N M (x : matrix) l i, (l < M)%nat -> (i + n = N)%nat -> (forall j, (j < i)%nat -> x j l = 0) ->
  exists i0, first_nonzero N l i n (store N M x) = Some i0 /\ (i0 <= N)%nat /\ forall j, (j < i0)%nat -> x j l = 0.
Proof.
  induction n as [|n IH]; intros N M x l i Hl Hi H; cbn [first_nonzero].
  - exists i. split; [reflexivity|]. split; [lia|exact H].
  - rewrite store_rd by lia. cbn [obind]. destruct (Req_EM_T (x i l) 0) as [E|E].
    + apply IH; [exact Hl|lia|]. intros j Hj. destruct (Nat.eq_dec j i) as [->|]; [exact E|]. apply H. lia.
    + exists i. split; [reflexivity|]. split; [lia|exact H].
Qed.
Lemma for_range_sub : forall n lo (f : nat -> R) body v0, (forall j v, (lo <= j < lo + n)%nat -> body j v = Some (v - f j)) ->
  for_range lo n body v0 = Some (v0 - Rsum n (fun u => f (lo + u)%nat)).
Proof.
  induction n as [|n IH]; intros lo f body v0 H; cbn [for_range Rsum]; [f_equal; lra|]. rewrite H by lia. cbn [obind].
  rewrite (IH (S lo) f) by (intros; apply H; lia). f_equal.
  pose proof (Rsum_head n (fun u => f (lo + u)%nat)) as E. cbn [Rsum] in E. rewrite E.
  rewrite (Rsum_ext n (fun u => f (S lo + u)%nat) (fun i => f (lo + S i)%nat)) by (intros; f_equal; lia). rewrite Nat.add_0_r. lra.
Qed.
Lemma lu_forward_ok : forall N M a x, exists y, lu_forward N M (store N N a) (store N M x) = Some (store N M y) /\
  forall i l, (i < N)%nat -> (l < M)%nat -> Rsum N (fun j => ll a i j * y j l) = x i l.
Proof.
  intros N M a x. unfold lu_forward. match goal with |- context [for_ M ?b _] => set (body := b) end.
  destruct (for_rep0 (store N M) (fun c y => (forall i l, (l < c)%nat -> (i < N)%nat -> Rsum N (fun j => ll a i j * y j l) = x i l) /\ (forall i l, (c <= l)%nat -> y i l = x i l)) M body x) as (y & E & H).
  - split; [intros; lia|reflexivity].
  - intros l y Hl [H1 H2]. unfold body.
    destruct (first_nonzero_ok N N M y l 0 Hl ltac:(lia) ltac:(intros; lia)) as (i0 & E0 & Hi0 & Hz). rewrite E0. cbn [obind].
    match goal with |- context [for_range i0 (N - i0) ?b _] => set (bd := b) end.
    destruct (for_rep (store N M) (fun r y' => (forall i, (i < r)%nat -> Rsum (S i) (fun j => ll a i j * y' j l) = x i l) /\ (forall i, (r <= i)%nat -> y' i l = x i l) /\ (forall i l', l' <> l -> y' i l' = y i l')) (N - i0) i0 bd y) as (y2 & E2 & H3 & H4 & H5).
    + split; [|split; [intros; apply H2; lia|reflexivity]]. intros i Hi. rewrite Rsum_zero; [rewrite <- H2 by lia; symmetry; now apply Hz|]. intros j Hj. rewrite Hz by lia. lra.
    + intros i y3 Hi (H3 & H4 & H5). unfold bd. rewrite store_rd by lia. cbn [obind].
      unfold for_ at 1. rewrite (for_range_sub i 0 (fun j => a i j * y3 j l)).
      2:{ intros j v Hj. rewrite (Nat.mul_comm j N), !store_rd by lia. reflexivity. }
      cbn [obind]. rewrite store_wr by lia. eexists. split; [reflexivity|]. split; [|split].
      * intros i' Hi'. destruct (Nat.eq_dec i' i) as [->|].
        -- cbn [Rsum]. unfold upd2 at 2. rewrite !Nat.eqb_refl. cbn [andb]. rewrite (Rsum_ext i _ (fun j => a i j * y3 j l)).
           ++ unfold ll. rewrite Nat.ltb_irrefl, Nat.eqb_refl. rewrite H4 by lia.
              rewrite (Rsum_ext i (fun u => a i (0 + u)%nat * y3 (0 + u)%nat l) (fun j => a i j * y3 j l)) by reflexivity. lra.
           ++ intros j Hj. unfold upd2, ll. beqs. reflexivity.
        -- rewrite <- (H3 i') by lia. apply Rsum_ext. intros j Hj. unfold upd2. beqs. reflexivity.
      * intros i' Hi'. unfold upd2. destruct (Nat.eqb_spec i' i); [lia|]. apply H4. lia.
      * intros i' l' Hl'. unfold upd2. destruct (Nat.eqb_spec l' l); [lia|]. rewrite Bool.andb_false_r. now apply H5.
    + exists y2. split; [exact E2|]. replace (i0 + (N - i0))%nat with N in H3, H4 by lia. split.
      * intros i l' Hl' Hi. destruct (Nat.eq_dec l' l) as [->|].
        -- rewrite <- (H3 i Hi). apply Rsum_tail_zero; [lia|]. intros j Hj. unfold ll. beqs. lra.
        -- rewrite <- (H1 i l') by lia. apply Rsum_ext. intros j Hj. now rewrite H5.
      * intros i l' Hl'. rewrite H5 by lia. apply H2. lia.
  - exists y. split; [exact E|]. intros i l Hi Hl. now apply H.
Qed.
Lemma Rsum_split : forall n k f, (k <= n)%nat -> Rsum n f = Rsum k f + Rsum (n - k) (fun u => f (k + u)%nat).
Proof.
  intros n k f H. replace n with (k + (n - k))%nat at 1 by lia. generalize (n - k)%nat. intros d. induction d as [|d IH].
  - rewrite Nat.add_0_r. cbn. lra.
  - rewrite Nat.add_succ_r. cbn [Rsum]. rewrite IH. lra.
Qed.
Lemma lu_backward_ok : forall N M a x, (0 < N)%nat -> (forall m, (m < N)%nat -> a m m <> 0) ->
  exists z, lu_backward N M (store N N a) (store N M x) = Some (store N M z) /\
  forall i l, (i < N)%nat -> (l < M)%nat -> Rsum N (fun j => uu a i j * z j l) = x i l.
Proof.
  intros N M a x HN Hd. unfold lu_backward. match goal with |- context [for_ M ?b _] => set (body := b) end.
  destruct (for_rep0 (store N M) (fun c y => (forall i l, (l < c)%nat -> (i < N)%nat -> Rsum N (fun j => uu a i j * y j l) = x i l) /\ (forall i l, (c <= l)%nat -> y i l = x i l)) M body x) as (y & E & H).
  - split; [intros; lia|reflexivity].
  - intros l y Hl [H1 H2]. unfold body. destruct (Nat.leb_spec 1 N); [|lia]. cbn [guard obind]. rewrite !store_rd by lia. cbn [obind]. rewrite store_wr by lia. cbn [obind].
    match goal with |- context [for_ (N - 1) ?b (store N M ?y0)] => set (bd := b); set (y1 := y0) end.
    destruct (for_rep0 (store N M) (fun t y' => (forall i, (N - 1 - t <= i < N)%nat -> Rsum N (fun j => uu a i j * y' j l) = x i l) /\ (forall i, (i < N - 1 - t)%nat -> y' i l = x i l) /\ (forall i l', l' <> l -> y' i l' = y i l')) (N - 1) bd y1) as (y2 & E2 & H3 & H4 & H5).
    + split; [|split].
      * intros i Hi. replace i with (N - 1)%nat by lia. rewrite (Rsum_single N (N - 1)).
        -- unfold uu, y1, upd2. rewrite Nat.leb_refl, !Nat.eqb_refl. cbn [andb]. rewrite H2 by lia. field. apply Hd. lia.
        -- lia.
        -- intros j Hj Hne. unfold uu. beqs. lra.
      * intros i Hi. unfold y1, upd2. destruct (Nat.eqb_spec i (N - 1)); [lia|]. apply H2. lia.
      * intros i l' Hl'. unfold y1, upd2. destruct (Nat.eqb_spec l' l); [lia|]. now rewrite Bool.andb_false_r.
    + intros t y3 Ht (H3 & H4 & H5). unfold bd. cbv zeta. set (i := (N - 2 - t)%nat). rewrite store_rd by lia. cbn [obind].
      rewrite (for_range_sub (N - S i) (S i) (fun j => a i j * y3 j l)).
      2:{ intros j v Hj. rewrite !store_rd by lia. reflexivity. }
      cbn [obind]. rewrite store_rd by lia. cbn [obind]. rewrite store_wr by lia. eexists. split; [reflexivity|]. split; [|split].
      * intros i' Hi'. destruct (Nat.eq_dec i' i) as [->|].
        -- rewrite (Rsum_split N (S i)) by lia. cbn [Rsum]. rewrite Rsum_zero.
           ++ unfold uu at 1, upd2 at 1. rewrite Nat.leb_refl, !Nat.eqb_refl. cbn [andb]. rewrite H4 by lia.
              rewrite (Rsum_ext (N - S i) (fun u => uu a i (S i + u)%nat * _) (fun u => a i (S i + u)%nat * y3 (S i + u)%nat l)).
              ** field. apply Hd. lia.
              ** intros u Hu. unfold uu, upd2. destruct (Nat.leb_spec i (S i + u)); [|lia]. destruct (Nat.eqb_spec (S i + u) i); [lia|]. reflexivity.
           ++ intros j Hj. unfold uu. beqs. lra.
        -- rewrite <- (H3 i') by lia. apply Rsum_ext. intros j Hj. unfold upd2. destruct (Nat.eqb_spec j i) as [->|]; [|reflexivity].
           unfold uu. beqs. lra.
      * intros i' Hi'. unfold upd2. destruct (Nat.eqb_spec i' i); [lia|]. apply H4. lia.
      * intros i' l' Hl'. unfold upd2. destruct (Nat.eqb_spec l' l); [lia|]. rewrite Bool.andb_false_r. now apply H5.
    + exists y2. split; [exact E2|]. split.
      * intros i l' Hl' Hi. destruct (Nat.eq_dec l' l) as [->|].
        -- apply H3. lia.
        -- rewrite <- (H1 i l') by lia. apply Rsum_ext. intros j Hj. now rewrite H5.
      * intros i l' Hl'. rewrite H5 by lia. apply H2. lia.
  - exists y. split; [exact E|]. intros i l Hi Hl. now apply H.
Qed.

Lemma gather_rows_ok : forall N M p (b x : matrix), (forall i, (i < N)%nat -> (p i < N)%nat) ->
  gather_rows N M (arr N p) (store N M b) (store N M x) = Some (store N M (fun i l => b (p i) l)).
Proof.
  intros N M p b x Hp. unfold gather_rows. match goal with |- for_ M ?b _ = _ => set (body := b) end.
  destruct (for_rep0 (store N M) (fun c y => forall i l, (i < N)%nat -> (l < c)%nat -> y i l = b (p i) l) M body x) as (y & E & H).
  - intros; lia.
  - intros l y Hl Hy. unfold body. match goal with |- context [for_ N ?b _] => set (bd := b) end.
    destruct (for_rep0 (store N M) (fun r y' => forall i l', (i < N)%nat -> ((l' < l)%nat \/ (l' = l /\ (i < r)%nat)) -> y' i l' = b (p i) l') N bd y) as (y2 & E2 & H2).
    + intros i l' Hi Hl'. apply Hy; lia.
    + intros i y3 Hi H3. unfold bd. rewrite rd_arr by assumption. cbn [obind]. rewrite store_rd by (try assumption; now apply Hp). cbn [obind]. rewrite store_wr by assumption.
      eexists. split; [reflexivity|]. intros i' l' Hi' Hl'. unfold upd2. destruct (Nat.eqb_spec i' i) as [->|].
      * destruct (Nat.eqb_spec l' l) as [->|]; [reflexivity|]. apply H3; lia.
      * apply H3; lia.
    + exists y2. split; [exact E2|]. intros i l' Hi Hl'. apply H2; lia.
  - rewrite E. apply f_equal, store_ext. intros i l Hi Hl. now apply H.
Qed.
Lemma lu_solve_ok : forall N M A a p p' q q' b X, (0 < N)%nat -> length X = (N * M)%nat -> bij N p p' -> bij N q q' -> partial_lu N N A a p q ->
  exists x, solves N M A x b /\ lu_solve N M (store N N a) (arr N p) (arr N q) (store N M b) X = Some (store N M (fun i l => x (q (q i)) l)).
Proof.
  intros N M A a p p' q q' b X HN HX Hp Hq [H1 H2]. unfold lu_solve. rewrite (list_store 0 N M X HN HX).
  rewrite gather_rows_ok by (intros i Hi; apply (Hp i Hi)). cbn [obind].
  destruct (lu_forward_ok N M a (fun i l => b (p i) l)) as (y & Ey & Hy). rewrite Ey. cbn [obind].
  destruct (lu_backward_ok N M a y HN H2) as (z & Ez & Hz). rewrite Ez. cbn [obind].
  rewrite (copy_n_list 0) by apply store_length. cbn [obind]. rewrite gather_rows_ok by (intros i Hi; apply (Hq i Hi)).
  exists (fun c l => z (q' c) l). split.
  - intros r l Hr Hl. destruct (Hp r Hr) as (_ & Hr' & Er & _). rewrite <- (Rsum_perm N q q' (fun c => A r c * z (q' c) l) Hq). replace (b r l) with (b (p (p' r)) l) by (now rewrite Er). rewrite <- (Hy (p' r) l) by assumption.
    rewrite (Rsum_ext N (fun j => ll a (p' r) j * y j l) (fun j => Rsum N (fun c => ll a (p' r) j * (uu a j c * z c l)))).
    2:{ intros j Hj. rewrite Rsum_scal. now rewrite Hz. }
    rewrite Rsum_swap. apply Rsum_ext. intros j Hj. destruct (Hq j Hj) as (_ & _ & _ & Ej). rewrite Ej. replace (A r (q j)) with (A (p (p' r)) (q j)) by (now rewrite Er). rewrite H1 by assumption.
    destruct (Nat.leb_spec N (p' r)); [lia|]. cbn [andb]. rewrite Rplus_0_r, <- Rsum_scal_r. apply Rsum_ext. intros; ring.
  - apply f_equal, store_ext. intros i l Hi Hl. destruct (Hq i Hi) as (Hqi & _). destruct (Hq (q i) Hqi) as (_ & _ & _ & E). now rewrite E.
Qed.
