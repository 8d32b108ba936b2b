(** Sorting of the pairs, the Gram matrices. *)
From Verif Require Import Prelude RSum DenseSpec QrSpec QrProofs SvdModel SvdSpec SvdProofs SvdProofs2.
Local Open Scope R_scope.

Definition transp (i b k : nat) : nat := if (k =? i)%nat then b else if (k =? b)%nat then i else k.
Lemma transp_lt : forall n i b k, (i < n)%nat -> (b < n)%nat -> (k < n)%nat -> (transp i b k < n)%nat.
Proof. intros. unfold transp. eqbs; assumption. Qed.
Lemma transp_inj : forall i b k k', transp i b k = transp i b k' -> k = k'.
Proof. intros i b k k'. unfold transp. eqbs; intros; lia. Qed.
Lemma swap_at_ok : forall n (e : nat -> R) i b, (i < n)%nat -> (b < n)%nat -> swap_at (arr n e) i b = Some (arr n (fun k => e (transp i b k))).
Proof.
  intros n e i b Hi Hb. unfold swap_at. rewrite !rd_arr by assumption. cbn [obind]. rewrite wr_arr by assumption. cbn [obind]. rewrite wr_arr by assumption. f_equal. apply arr_ext. intros k Hk. unfold upd, transp. eqbs; reflexivity.
Qed.
Lemma swap_cols_ok : forall n (v : matrix) i b, (i < n)%nat -> (b < n)%nat -> i <> b -> swap_cols n i b (store n n v) = Some (store n n (fun k j => v k (transp i b j))).
Proof.
  intros n v i b Hi Hb Hne. unfold swap_cols.
  destruct (for_rep0 (store n n) (fun r w => forall k j, (k < n)%nat -> (j < n)%nat -> w k j = if (k <? r)%nat then v k (transp i b j) else v k j) n (fun k V => swap_at V (k + n * i) (k + n * b)) v) as (w & E & Hw).
  - intros. reflexivity.
  - intros k w Hk Hw. unfold swap_at. change (rd (store n n w) (k + n * i)) with (mrd (store n n w) n k i). change (rd (store n n w) (k + n * b)) with (mrd (store n n w) n k b).
    rewrite !mrd_store by assumption. cbn [obind]. change (wr (store n n w) (k + n * i) (w k b)) with (mwr (store n n w) n k i (w k b)). rewrite mwr_store by assumption. cbn [obind].
    match goal with |- exists _, wr (store n n ?x) (k + n * b) ?y = _ /\ _ => change (wr (store n n x) (k + n * b) y) with (mwr (store n n x) n k b y) end. rewrite mwr_store by assumption. eexists. split; [reflexivity|].
    intros k' j Hk' Hj. unfold upd2. rewrite (Hw k' j), (Hw k i), (Hw k b) by assumption. rewrite !Nat.ltb_irrefl. unfold transp.
    destruct (Nat.ltb_spec k' k), (Nat.ltb_spec k' (S k)); try lia; eqbs; try reflexivity.
  - rewrite E. f_equal. apply store_ext. intros k j Hk Hj. rewrite Hw by assumption. destruct (Nat.ltb_spec k n); [reflexivity|lia].
Qed.

Section Sort.
Variable better : R -> R -> bool.
Hypothesis irr : forall x, better x x = false.
Hypothesis tr : forall x y z, better x y = true -> better y z = true -> better x z = true.
Lemma sel_best_ok : forall n i e, (i < n)%nat -> exists b, sel_best better n i (arr n e) = Some b /\ (i <= b < n)%nat /\ forall j, (i <= j < n)%nat -> better (e j) (e b) = false.
Proof.
  intros n i e Hi. unfold sel_best.
  destruct (for_range_inv (fun r b => (i <= b < n)%nat /\ (b < r)%nat /\ forall j, (i <= j < r)%nat -> better (e j) (e b) = false) (n - S i) (S i)
    (fun j b => do x <- rd (arr n e) j; do y <- rd (arr n e) b; Some (if better x y then j else b)) i) as (b & E & H1 & H2 & H3).
  - split; [lia|]. split; [lia|]. intros j Hj. replace j with i by lia. apply irr.
  - intros j b Hj (H1 & H2 & H3). rewrite !rd_arr by lia. cbn [obind]. eexists. split; [reflexivity|]. destruct (better (e j) (e b)) eqn:Eb.
    + split; [lia|]. split; [lia|]. intros k Hk. destruct (Nat.eq_dec k j) as [->|]; [apply irr|]. destruct (better (e k) (e j)) eqn:Ek; [|reflexivity].
      rewrite <- (H3 k) by lia. symmetry. now apply tr with (e j).
    + split; [lia|]. split; [lia|]. intros k Hk. destruct (Nat.eq_dec k j) as [->|]; [exact Eb|]. apply H3. lia.
  - exists b. split; [exact E|]. split; [exact H1|]. intros j Hj. apply H3. lia.
Qed.
Lemma sort_ok : forall n e v, exists e' v', sort_eigen better n (arr n e, store n n v) = Some (arr n e', store n n v') /\ rearranged n e v e' v' /\
  forall i j, (i < j)%nat -> (j < n)%nat -> better (e' j) (e' i) = false.
Proof.
  intros n e v. unfold sort_eigen. set (rep := fun t : (nat -> R) * matrix => (arr n (fst t), store n n (snd t))). change (arr n e, store n n v) with (rep (e, v)).
  match goal with |- exists _ _, for_ n ?b _ = _ /\ _ => set (body := b) end.
  destruct (for_rep0 rep (fun r t => rearranged n e v (fst t) (snd t) /\ forall i j, (i < r)%nat -> (i < j)%nat -> (j < n)%nat -> better (fst t j) (fst t i) = false) n body (e, v)) as ((e' & v') & E & H1 & H2).
  - split; [exists (fun i => i); repeat split; auto|]. intros; lia.
  - intros i (e1 & v1) Hi [H1 H2]. cbn [fst snd] in *. unfold body, rep. cbn [fst snd]. destruct (sel_best_ok n i e1 Hi) as (b & Eb & Hb & Hmax). rewrite Eb. cbn [obind].
    destruct (Nat.eqb_spec b i) as [->|Hne].
    + exists (e1, v1). split; [reflexivity|]. split; [exact H1|]. cbn [fst]. intros k j Hk Hkj Hj. destruct (Nat.eq_dec k i) as [->|]; [apply Hmax; lia|]. apply H2; lia.
    + rewrite swap_at_ok by lia. cbn [obind]. rewrite swap_cols_ok by lia. cbn [obind]. exists (fun k => e1 (transp i b k), fun k j => v1 k (transp i b j)). split; [reflexivity|]. cbn [fst snd]. split.
      * destruct H1 as (s & S1 & S2 & S3 & S4). exists (fun k => s (transp i b k)). assert (T : forall k, (k < n)%nat -> (transp i b k < n)%nat) by (intros; apply transp_lt; lia). split; [auto|]. split; [|split; auto].
        intros k k' Hk Hk' Es. apply transp_inj with i b. apply S2; auto.
      * intros k j Hk Hkj Hj. destruct (Nat.eq_dec k i) as [->|].
        -- unfold transp at 2. rewrite Nat.eqb_refl. apply Hmax. unfold transp. eqbs; lia.
        -- replace (transp i b k) with k by (unfold transp; eqbs; reflexivity). apply H2; [lia| |]; unfold transp; eqbs; lia.
  - exists e', v'. split; [exact E|]. split; [exact H1|]. intros i j Hij Hj. apply H2; lia.
Qed.
End Sort.
Lemma sort_desc_ok : forall n e v, exists e' v', sort_desc n (arr n e, store n n v) = Some (arr n e', store n n v') /\ rearranged n e v e' v' /\ decreasing n e'.
Proof.
  intros n e v. destruct (sort_ok gtb) with (n := n) (e := e) (v := v) as (e' & v' & E & H1 & H2).
  - intros x. unfold gtb. destruct (Rlt_dec x x); [lra|reflexivity].
  - intros x y z. unfold gtb. destruct (Rlt_dec y x), (Rlt_dec z y), (Rlt_dec z x); intros; try reflexivity; try discriminate; lra.
  - exists e', v'. split; [exact E|]. split; [exact H1|]. intros i j Hij Hj. generalize (H2 i j Hij Hj). unfold gtb. destruct (Rlt_dec (e' i) (e' j)); [discriminate|]. intros _. lra.
Qed.
(** what is true of every pair is true of the rearranged ones *)
Lemma rearranged_orth : forall n e v e' v', rearranged n e v e' v' -> orthonormal n v -> orthonormal n v'.
Proof.
  intros n e v e' v' (s & S1 & S2 & S3 & S4) O i j Hi Hj. rewrite (Rsum_ext n _ (fun r => v r (s i) * v r (s j))) by (intros r Hr; now rewrite !S4). rewrite O by auto.
  destruct (Nat.eqb_spec i j) as [->|]; [now rewrite Nat.eqb_refl|]. destruct (Nat.eqb_spec (s i) (s j)); [exfalso; auto|reflexivity].
Qed.
Lemma rearranged_inner : forall n e v e' v' i j (a : matrix), rearranged n e v e' v' -> (i < n)%nat -> (j < n)%nat ->
  exists i' j', (i' < n)%nat /\ (j' < n)%nat /\ (i <> j -> i' <> j') /\ (i = j -> i' = j') /\ e' j = e j' /\ (forall r, (r < n)%nat -> v' r j = v r j') /\ (forall r, mult n a (column v' j) r = mult n a (column v j') r) /\
    inner n (column v' i) (mult n a (column v' j)) = inner n (column v i') (mult n a (column v j')).
Proof.
  intros n e v e' v' i j a (s & S1 & S2 & S3 & S4) Hi Hj. exists (s i), (s j). split; [auto|]. split; [auto|]. split; [auto|]. split; [congruence|]. split; [auto|]. split; [auto|].
  assert (M : forall r, mult n a (column v' j) r = mult n a (column v (s j)) r) by (intros r; unfold mult, column; apply Rsum_ext; intros t Ht; now rewrite S4).
  split; [exact M|]. unfold inner. apply Rsum_ext. intros r Hr. rewrite M. unfold column at 1. rewrite S4 by assumption. reflexivity.
Qed.
Lemma rearranged_eigen : forall n a tol e v e' v', rearranged n e v e' v' -> eigen_pairs n a tol e v -> eigen_pairs n a tol e' v'.
Proof.
  intros n a tol e v e' v' R (O & H). split; [now apply (rearranged_orth n e v e' v')|]. intros j Hj. destruct (rearranged_inner n e v e' v' j j a R Hj Hj) as (i' & j' & _ & Hj' & _ & Eij & Ee & Ev & Em & Ei). specialize (Eij eq_refl). subst i'.
  destruct (H j' Hj') as [H1 H2]. rewrite Ei, Ee. split; [exact H1|]. unfold norm2 in *. rewrite (Rsum_ext n _ (fun i => (mult n a (column v j') i - e j' * v i j') * (mult n a (column v j') i - e j' * v i j'))) by (intros i Hi; now rewrite Em, Ev). exact H2.
Qed.

(** ** Gram matrices *)
Lemma gram_ok : forall n m (el : nat -> nat -> option R) (x : nat -> nat -> R) g, length g = (m * m)%nat -> (forall i j, (i < n)%nat -> (j < m)%nat -> el i j = Some (x i j)) ->
  for_ m (fun j g => for_range j (m - j) (fun k g =>
    do s <- for_ n (fun i s => do y <- el i j; do z <- el i k; Some (s + y * z)) 0;
    do g <- mwr g m k j s; mwr g m j k s) g) g = Some (store m m (fun j k => Rsum n (fun i => x i j * x i k))).
Proof.
  intros n m el x g Hg Hel. destruct (store_reify m g Hg) as (g0 & ->). set (G := fun j k => Rsum n (fun i => x i j * x i k)). assert (GS : forall j k, G j k = G k j) by (intros; apply Rsum_ext; intros; ring).
  match goal with |- for_ m ?b _ = _ => set (body := b) end.
  destruct (for_rep0 (store m m) (fun r w => forall i j, (i < m)%nat -> (j < m)%nat -> (i < r \/ j < r)%nat -> w i j = G i j) m body g0) as (w & E & Hw).
  - intros; lia.
  - intros j w Hj Hw. unfold body. match goal with |- exists _, for_range j (m - j) ?b _ = _ /\ _ => set (inn := b) end.
    destruct (for_rep (store m m) (fun r w => forall i i', (i < m)%nat -> (i' < m)%nat -> (i < j \/ i' < j \/ i = j /\ i' < r \/ i' = j /\ i < r)%nat -> w i i' = G i i') (m - j) j inn w) as (w' & E & Hw').
    + intros i i' Hi Hi' H. apply Hw; lia.
    + intros k u Hk Hu. unfold inn. rewrite (for_sum n (fun i => x i j * x i k)) by (intros i s Hi; rewrite !Hel by lia; reflexivity). cbn [obind]. rewrite mwr_store by lia. cbn [obind]. rewrite mwr_store by lia. eexists. split; [reflexivity|].
      rewrite Rplus_0_l. fold (G j k). intros i i' Hi Hi' H. unfold upd2. destruct (Nat.eqb_spec i j), (Nat.eqb_spec i' k), (Nat.eqb_spec i k), (Nat.eqb_spec i' j); cbn [andb]; subst; try reflexivity; try apply GS; try (apply Hu; lia).
    + exists w'. split; [exact E|]. intros i i' Hi Hi' H. apply Hw'; lia.
  - rewrite E. f_equal. apply store_ext. intros i j Hi Hj. apply Hw; lia.
Qed.
Lemma gram_ata_ok : forall n m a g, length g = (m * m)%nat -> gram_ata n m (store n m a) g = Some (store m m (fun j k => Rsum n (fun i => a i j * a i k))).
Proof. intros n m a g Hg. apply (gram_ok n m (fun i j => mrd (store n m a) n i j) a g Hg). intros. now apply mrd_store. Qed.
Lemma gram_aat_ok : forall n m a g, length g = (n * n)%nat -> gram_aat n m (store n m a) g = Some (store n n (fun j k => Rsum m (fun i => a j i * a k i))).
Proof. intros n m a g Hg. apply (gram_ok m n (fun i j => mrd (store n m a) n j i) (fun i j => a j i) g Hg). intros. now apply mrd_store. Qed.
