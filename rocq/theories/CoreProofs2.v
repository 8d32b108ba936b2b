(** The products D U of diff_tensor.h. *)
From Verif Require Import Prelude RSum DirProofs2 DenseProofs2 DenseProofs3 CoreModel CoreSpec CoreProofs.
Local Open Scope R_scope.

Lemma step_enlarge : forall (S S' : nat -> Prop) P l l', step S P l l' -> (forall c, S c -> S' c) ->
  (forall c, S' c -> S c \/ exists x, rd l c = Some x /\ P c x) -> step S' P l l'.
Proof.
  intros S S' P l l' (A & B & C) Hsub H. split; [exact A|]. split.
  - intros c Hc. destruct (C c) as [E|E]; [|now apply B]. destruct (H c Hc) as [E'|(x & Ex & Hx)]; [now apply B|]. exists x. split; [congruence|exact Hx].
  - intros c. destruct (C c); [now left|right; now apply Hsub].
Qed.

(** monotone tables of starts *)
Lemma starts_find : forall (st : nat -> nat) P dim i, st 0%nat = 0%nat -> st P = dim -> (i < dim)%nat -> exists d, (d < P)%nat /\ (st d <= i < st (S d))%nat.
Proof.
  intros st P dim i H0 HP Hi. subst dim. induction P as [|P IH]; [rewrite H0 in Hi; lia|].
  destruct (Nat.lt_ge_cases i (st P)) as [H|H].
  - destruct (IH H) as (d & Hd & Hs). exists d. split; [lia|exact Hs].
  - exists P. split; [lia|]. lia.
Qed.
Lemma starts_mono : forall (st : nat -> nat) P, (forall d, (d < P)%nat -> (st d <= st (S d))%nat) -> forall d e, (d <= e <= P)%nat -> (st d <= st e)%nat.
Proof. intros st P H d e. induction e as [|e IH]; intros Hd; [replace d with 0%nat by lia; lia|]. destruct (Nat.eq_dec d (S e)) as [->|]; [lia|]. specialize (IH ltac:(lia)). specialize (H e ltac:(lia)). lia. Qed.
Lemma starts_unique : forall (st : nat -> nat) P, (forall d, (d < P)%nat -> (st d <= st (S d))%nat) -> forall d e i, (d < P)%nat -> (e < P)%nat ->
  (st d <= i < st (S d))%nat -> (st e <= i < st (S e))%nat -> d = e.
Proof.
  intros st P H d e i Hd He H1 H2. destruct (Nat.lt_trichotomy d e) as [L|[L|L]]; [|exact L|].
  - pose proof (starts_mono st P H (S d) e ltac:(lia)). lia.
  - pose proof (starts_mono st P H (S e) d ltac:(lia)). lia.
Qed.
(** a sum whose terms vanish outside one interval *)
Lemma Rsum_block : forall n lo len f, (lo + len <= n)%nat -> (forall i, (i < n)%nat -> ~ (lo <= i < lo + len)%nat -> f i = 0) ->
  Rsum n f = Rsum len (fun i => f (lo + i)%nat).
Proof.
  intros n lo len f H Hz. rewrite (Rsum_split n lo) by lia. rewrite (Rsum_zero lo f) by (intros; apply Hz; lia).
  rewrite (Rsum_split (n - lo) len) by lia. rewrite (Rsum_zero (n - lo - len)) by (intros; apply Hz; lia). lra.
Qed.

Definition idx4 (a b c k n i r : nat) : nat := (k + a * (n + b * (i + c * r)))%nat.
Lemma idx4_lt : forall a b c f k n i r, (k < a)%nat -> (n < b)%nat -> (i < c)%nat -> (r < f)%nat -> (idx4 a b c k n i r < a * b * c * f)%nat.
Proof.
  intros a b c f k n i r Hk Hn Hi Hr. unfold idx4. replace (a * b * c * f)%nat with (a * (b * (c * f)))%nat by lia.
  apply cell_lt; [exact Hk|]. apply cell_lt; [exact Hn|]. now apply cell_lt.
Qed.
Lemma idx4_inj : forall a b c k n i r k' n' i' r', (k < a)%nat -> (n < b)%nat -> (i < c)%nat -> (k' < a)%nat -> (n' < b)%nat -> (i' < c)%nat ->
  idx4 a b c k n i r = idx4 a b c k' n' i' r' -> k = k' /\ n = n' /\ i = i' /\ r = r'.
Proof.
  intros a b c k n i r k' n' i' r' Hk Hn Hi Hk' Hn' Hi' E. unfold idx4 in E.
  destruct (cell_inj a k _ k' _ Hk Hk' E) as [-> E1]. destruct (cell_inj b n _ n' _ Hn Hn' E1) as [-> E2]. destruct (cell_inj c i _ i' _ Hi Hi' E2) as [-> ->]. auto.
Qed.

Section DU.
Variables (q f jdim idim nfa : nat) (U : band) (u : nat -> nat -> nat -> nat -> R) (w mes : list R) (wt vol : nat -> R).
Hypothesis HU : band_of U idim nfa q f u.
Hypothesis Hw : forall n, (n < q)%nat -> rd w n = Some (wt n).
Hypothesis Hmes : forall r, (r < f)%nat -> rd mes r = Some (vol r).
Variable v : nat -> nat -> nat -> nat -> R.   (* component k, point n, function i, element r *)

Local Notation row d := (nth d (st_row U) 0%nat).
Local Notation col d := (nth d (st_col U) 0%nat).
Local Notation ix := (idx4 jdim q nfa).
Definition Pv (c : nat) (x : R) : Prop := exists k n i r, (k < jdim)%nat /\ (n < q)%nat /\ (i < nfa)%nat /\ (r < f)%nat /\ c = ix k n i r /\ x = v k n i r.
Definition Sr (r c : nat) : Prop := exists k n i, (k < jdim)%nat /\ (n < q)%nat /\ (i < nfa)%nat /\ c = ix k n i r.
Definition result (DU : list R) : Prop := forall k n i r, (k < jdim)%nat -> (n < q)%nat -> (i < nfa)%nat -> (r < f)%nat -> rd DU (ix k n i r) = Some (v k n i r).

Lemma Pv_val : forall k n i r x, (k < jdim)%nat -> (n < q)%nat -> (i < nfa)%nat -> Pv (ix k n i r) x -> x = v k n i r.
Proof. intros k n i r x Hk Hn Hi (k' & n' & i' & r' & Hk' & Hn' & Hi' & Hr' & E & ->). destruct (idx4_inj jdim q nfa k n i r k' n' i' r') as (-> & -> & -> & ->); auto. Qed.
Lemma result_of_step : forall DU DU', step (fun c => exists r, (r < f)%nat /\ Sr r c) Pv DU DU' -> result DU'.
Proof.
  intros DU DU' (_ & A & _) k n i r Hk Hn Hi Hr. destruct (A (ix k n i r)) as (x & E & Hx); [exists r; split; [exact Hr|]; exists k, n, i; auto|].
  rewrite E. f_equal. now apply (Pv_val k n i r x).
Qed.

Lemma band_st : forall d, (d < nparts U)%nat -> rd (st_col U) d = Some (col d) /\ rd (st_col U) (S d) = Some (col (S d)) /\ rd (st_row U) d = Some (row d) /\ rd (st_row U) (S d) = Some (row (S d)) /\
  (row d <= row (S d))%nat /\ (col d <= col (S d))%nat /\ (row (S d) <= idim)%nat /\ (col (S d) <= nfa)%nat.
Proof.
  destruct HU as (H1 & Lr & Lc & R0 & RP & C0 & CP & Hmono & _). intros d Hd. unfold rd. rewrite !(nth_error_nth' _ 0%nat) by lia.
  destruct (Hmono d Hd) as [M1 M2]. repeat split; auto.
  - rewrite <- RP. apply (starts_mono (fun d => row d) (nparts U)); [intros; now apply Hmono|lia].
  - rewrite <- CP. apply (starts_mono (fun d => col d) (nparts U)); [intros; now apply Hmono|lia].
Qed.

Lemma du_gen_ok : forall DIFF off D r DU, (r < f)%nat -> (jdim * q * nfa * f <= length DU)%nat ->
  (forall n k j, (n < q)%nat -> (k < jdim)%nat -> (j < idim)%nat -> rd DIFF (off n + (j + idim * k)) = Some (D n k j)) ->
  (forall k n i, (k < jdim)%nat -> (n < q)%nat -> (i < nfa)%nat -> v k n i r = wt n * vol r * Rsum idim (fun j => D n k j * u r n j i)) ->
  exists DU', du_gen q jdim idim nfa U w mes DIFF off r DU = Some DU' /\ step (Sr r) Pv DU DU'.
Proof.
  intros DIFF off D r DU Hr HL HD Hv. unfold du_gen. rewrite Hmes by exact Hr. cbn [obind].
  destruct (for_step_len (fun d c => exists i, (col d <= i < col d + (col (S d) - col d))%nat /\ exists n, (n < q)%nat /\ exists k, (k < jdim)%nat /\ c = ix k n i r) Pv (nparts U)
   (fun d DU =>
    do c0 <- rd (st_col U) d; do c1 <- rd (st_col U) (S d);
    do r0 <- rd (st_row U) d; do r1 <- rd (st_row U) (S d);
    do p <- rd (parts U) d;
    let isz := (c1 - c0)%nat in let jsz := (r1 - r0)%nat in
    for_range c0 isz (fun i DU => for_ q (fun n DU =>
      do wg <- rd w n;
      for_ jdim (fun k DU =>
        do s <- for_range r0 jsz (fun j s =>
            do x <- rd DIFF (off n + (j + idim * k));
            do u <- rd (fst p) ((j - r0) + n * jsz + snd p * ((i - c0) + isz * r));
            Some (s + x * u)) 0;
        wr DU (k + jdim * (n + q * (i + nfa * r))) (wg * vol r * s)) DU) DU) DU) DU) as (DU' & E & St).
  - intros d l1 Hd L1. destruct (band_st d Hd) as (E1 & E2 & E3 & E4 & M1 & M2 & B1 & B2). rewrite E1, E2, E3, E4. cbn [obind].
    destruct HU as (_ & _ & _ & R0 & RP & C0 & CP & Hmono & Hp & Hz). destruct (Hp d Hd) as (data & Ep & Hdat). unfold rd at 1. rewrite Ep. cbn [obind fst snd].
    apply for_range_step_len. intros i l2 Hi L2. apply for_step_len. intros n l3 Hn L3. rewrite Hw by exact Hn. cbn [obind].
    apply for_step_len. intros k l4 Hk L4.
    rewrite (for_range_sum _ _ (fun j => D n k j * u r n j i)).
    2:{ intros j s Hj. rewrite HD by lia. cbn [obind]. unfold rd. rewrite Hdat by lia. reflexivity. }
    cbn [obind]. apply step_wr; [fold (ix k n i r); pose proof (idx4_lt jdim q nfa f k n i r Hk Hn ltac:(lia) Hr); lia|].
    exists k, n, i, r. repeat split; auto; try lia. rewrite Hv by (auto; lia). f_equal. rewrite (Rsum_block idim (row d) (row (S d) - row d)); [lra|lia|].
    intros j Hj Hne. destruct (starts_find (fun d => row d) (nparts U) idim j R0 RP Hj) as (d' & Hd' & Hs).
    rewrite (Hz d' d r n j i); [lra|exact Hd'|exact Hd| |exact Hr|exact Hn|exact Hs|lia]. intros ->. lia.
  - exists DU'. split; [exact E|]. eapply step_weak; [exact St| |auto]. intros c. split.
    + intros (d & Hd & i & Hi & n & Hn & k & Hk & ->). destruct (band_st d Hd) as (_ & _ & _ & _ & _ & M2 & _ & B2). exists k, n, i. repeat split; auto. lia.
    + intros (k & n & i & Hk & Hn & Hi & ->). destruct HU as (_ & _ & _ & _ & _ & C0 & CP & _). destruct (starts_find (fun d => col d) (nparts U) nfa i C0 CP Hi) as (d & Hd & Hs).
      exists d. split; [exact Hd|]. exists i. split; [lia|]. exists n. split; [exact Hn|]. now exists k.
Qed.

(** cells not written by the diagonal loops must hold zero already *)
Definition ready (DU : list R) : Prop := nparts U = 1%nat \/ forall k n i r, (k < jdim)%nat -> (n < q)%nat -> (i < nfa)%nat -> (r < f)%nat ->
  exists x, rd DU (ix k n i r) = Some x /\ (x = 0 \/ Pv (ix k n i r) x).
Lemma ready_step : forall S DU DU', step S Pv DU DU' -> ready DU -> ready DU'.
Proof.
  intros S DU DU' (_ & A & B) [H|H]; [now left|]. right. intros k n i r Hk Hn Hi Hr. destruct (B (ix k n i r)) as [E|E].
  - rewrite E. now apply H.
  - destruct (A _ E) as (x & Ex & Hx). exists x. split; [exact Ex|]. now right.
Qed.
(* first idim components of element r *)
Definition Sd (r c : nat) : Prop := exists k n i, (k < idim)%nat /\ (n < q)%nat /\ (i < nfa)%nat /\ c = ix k n i r.
Lemma du_diag_ok : forall sc s r DU, (r < f)%nat -> (idim <= jdim)%nat -> (jdim * q * nfa * f <= length DU)%nat ->
  (forall n, (n < q)%nat -> sc n = Some (s n)) -> ready DU ->
  (forall k n i, (k < idim)%nat -> (n < q)%nat -> (i < nfa)%nat -> v k n i r = s n * wt n * vol r * u r n k i) ->
  exists DU', du_diag q jdim nfa U w mes sc r DU = Some DU' /\ step (Sd r) Pv DU DU'.
Proof.
  intros sc s r DU Hr Hij HL Hs Hready Hv. unfold du_diag. rewrite Hmes by exact Hr. cbn [obind].
  set (T c := exists d, (d < nparts U)%nat /\ exists i, (col d <= i < col d + (col (S d) - col d))%nat /\ exists n, (n < q)%nat /\ exists k, (row d <= k < row d + (row (S d) - row d))%nat /\ c = ix k n i r).
  assert (HT : exists DU', for_ (nparts U) (fun d DU =>
    do c0 <- rd (st_col U) d; do c1 <- rd (st_col U) (S d);
    do r0 <- rd (st_row U) d; do r1 <- rd (st_row U) (S d);
    do p <- rd (parts U) d;
    let isz := (c1 - c0)%nat in let ksz := (r1 - r0)%nat in
    for_range c0 isz (fun i DU => for_ q (fun n DU =>
      do wg <- rd w n; do s <- sc n;
      for_range r0 ksz (fun k DU =>
        do u <- rd (fst p) ((k - r0) + n * ksz + snd p * ((i - c0) + isz * r));
        wr DU (k + jdim * (n + q * (i + nfa * r))) (s * wg * vol r * u)) DU) DU) DU) DU = Some DU' /\ step T Pv DU DU').
  { unfold T. apply for_step_len. intros d l1 Hd L1. destruct (band_st d Hd) as (E1 & E2 & E3 & E4 & M1 & M2 & B1 & B2). rewrite E1, E2, E3, E4. cbn [obind].
    destruct HU as (_ & _ & _ & R0 & RP & C0 & CP & Hmono & Hp & Hz). destruct (Hp d Hd) as (data & Ep & Hdat). unfold rd at 1. rewrite Ep. cbn [obind fst snd].
    apply for_range_step_len. intros i l2 Hi L2. apply for_step_len. intros n l3 Hn L3. rewrite Hw, Hs by exact Hn. cbn [obind].
    apply for_range_step_len. intros k l4 Hk L4. unfold rd at 1. rewrite Hdat by lia. cbn [obind].
    apply step_wr; [fold (ix k n i r); pose proof (idx4_lt jdim q nfa f k n i r ltac:(lia) Hn ltac:(lia) Hr); lia|].
    exists k, n, i, r. repeat split; auto; try lia. rewrite Hv by (auto; lia). reflexivity. }
  destruct HT as (DU' & E & St). exists DU'. split; [exact E|]. apply (step_enlarge T); [exact St| |].
  - intros c (d & Hd & i & Hi & n & Hn & k & Hk & ->). destruct (band_st d Hd) as (_ & _ & _ & _ & M1 & M2 & B1 & B2). exists k, n, i. repeat split; auto; lia.
  - intros c (k & n & i & Hk & Hn & Hi & ->). destruct HU as (_ & _ & _ & R0 & RP & C0 & CP & Hmono & Hp & Hz).
    destruct (starts_find (fun d => col d) (nparts U) nfa i C0 CP Hi) as (d & Hd & Hsd). destruct (starts_find (fun d => row d) (nparts U) idim k R0 RP Hk) as (d' & Hd' & Hsd').
    destruct (Nat.eq_dec d' d) as [->|Hne].
    + left. exists d. split; [exact Hd|]. exists i. split; [lia|]. exists n. split; [exact Hn|]. exists k. split; [lia|reflexivity].
    + right. destruct Hready as [H1|Hready]; [lia|]. destruct (Hready k n i r) as (x & Ex & [->|Hx]); auto; try lia.
      * exists 0. split; [exact Ex|]. exists k, n, i, r. repeat split; auto; try lia. rewrite Hv by auto. rewrite (Hz d' d r n k i); auto. lra.
      * now exists x.
Qed.

(* the remaining components of element r *)
Definition Se (r c : nat) : Prop := exists n k, (n < q)%nat /\ (idim <= k < jdim)%nat /\ c = ix k n 0%nat r.
Lemma du_expand_ok : forall r DU, (r < f)%nat -> (jdim <> idim -> idim = 1%nat /\ nfa = 1%nat /\ forall k n, (k < jdim)%nat -> (n < q)%nat -> v k n 0%nat r = v 0%nat n 0%nat r) ->
  (idim <= jdim)%nat -> (jdim * q * nfa * f <= length DU)%nat ->
  (forall n, (n < q)%nat -> (0 < jdim)%nat -> (0 < nfa)%nat -> rd DU (ix 0 n 0 r) = Some (v 0%nat n 0%nat r)) ->
  exists DU', du_expand q jdim idim nfa r DU = Some DU' /\ step (Se r) Pv DU DU'.
Proof.
  intros r DU Hr Hne Hij HL H0. unfold du_expand. destruct (Nat.eqb_spec jdim idim) as [E|E].
  - exists DU. split; [reflexivity|]. apply (step_weak (fun _ => False) _ Pv Pv); [apply step_refl| |auto]. intros c. split; [intros []|]. intros (n & k & _ & Hk & _). lia.
  - destruct (Hne E) as (Ei & En & Hv). destruct (for_step (fun n c => exists k, (idim <= k < idim + (jdim - idim))%nat /\ c = ix k n 0%nat r) Pv
      (fun l => length l = length DU /\ forall n, (n < q)%nat -> (0 < jdim)%nat -> (0 < nfa)%nat -> rd l (ix 0 n 0 r) = Some (v 0%nat n 0%nat r)) q
      (fun n DU => for_range idim (jdim - idim) (fun k DU =>
        do x <- rd DU (0 + jdim * (n + q * (0 + nfa * r)));
        wr DU (k + jdim * (n + q * (0 + nfa * r))) x) DU) DU) as (DU' & E' & St & _).
    + split; [reflexivity|exact H0].
    + intros n l1 Hn I1. apply for_range_step; [exact I1|]. intros k l2 Hk (L2 & I2). change (0 + jdim * (n + q * (0 + nfa * r)))%nat with (ix 0 n 0 r). rewrite I2 by lia. cbn [obind].
      destruct (step_wr Pv l2 (ix k n 0%nat r) (v 0%nat n 0%nat r)) as (l3 & E3 & S3).
      * pose proof (idx4_lt jdim q nfa f k n 0 r ltac:(lia) Hn ltac:(lia) Hr). lia.
      * exists k, n, 0%nat, r. repeat split; auto; try lia. symmetry. apply Hv; [lia|exact Hn].
      * exists l3. split; [exact E3|]. split; [exact S3|]. split; [destruct S3; congruence|]. intros n' Hn' Hj Hf. rewrite (step_keep _ _ _ _ _ S3); [now apply I2|].
        intros Ec. apply idx4_inj in Ec; try lia.
    + exists DU'. split; [exact E'|]. eapply step_weak; [exact St| |auto]. intros c. split.
      * intros (n & Hn & k & Hk & ->). exists n, k. repeat split; auto; lia.
      * intros (n & k & Hn & Hk & ->). exists n. split; [exact Hn|]. exists k. split; [lia|reflexivity].
Qed.
End DU.
