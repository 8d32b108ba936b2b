(** Loops over the heap. *)
From Verif Require Import Prelude RSum DirProofs2 CoreProofs SpModel CoreModel CoreSpec SpSpec SpProofs SpProofs2.
Local Open Scope R_scope.

(** [agree T l l']: only cells of T differ *)
Definition agree (T : nat -> Prop) (l l' : list R) : Prop := length l' = length l /\ forall c, ~ T c -> rd l' c = rd l c.
Lemma agree_refl : forall T l, agree T l l.
Proof. intros T l. split; auto. Qed.
Lemma agree_trans : forall T l1 l2 l3, agree T l1 l2 -> agree T l2 l3 -> agree T l1 l3.
Proof. intros T l1 l2 l3 (A & B) (C & D). split; [congruence|]. intros c H. rewrite D by exact H. now apply B. Qed.
Lemma agree_step : forall (T S : nat -> Prop) P l1 l2, step S P l1 l2 -> (forall c, S c -> T c) -> agree T l1 l2.
Proof. intros T S P l1 l2 (A & _ & C) H. split; [exact A|]. intros c Hc. destruct (C c) as [E|E]; [exact E|]. now apply H in E. Qed.

(** a loop whose body only touches T and may rely on the rest *)
Lemma for_stepT : forall (T : nat -> Prop) (S : nat -> nat -> Prop) P n body l0 l, agree T l0 l -> (forall i c, (i < n)%nat -> S i c -> T c) ->
  (forall i l1, (i < n)%nat -> agree T l0 l1 -> exists l', body i l1 = Some l' /\ step (S i) P l1 l') ->
  exists l', for_ n body l = Some l' /\ step (fun c => exists i, (i < n)%nat /\ S i c) P l l'.
Proof.
  intros T S P n body l0 l H0 HT H. destruct (for_step S P (agree T l0) n body l H0) as (l' & E & St & _); [|now exists l'].
  intros i l1 Hi A. destruct (H i l1 Hi A) as (l' & E & St). exists l'. split; [exact E|]. split; [exact St|]. apply (agree_trans _ _ l1); [exact A|]. apply (agree_step _ _ _ _ _ St). intros c. now apply HT.
Qed.
Lemma quad_wr : forall (T : nat -> Prop) F I N K body tgt (w : nat -> nat -> nat -> nat -> R) h,
  (forall r i n k, (r < F)%nat -> (i < I)%nat -> (n < N)%nat -> (k < K)%nat -> T (tgt r i n k) /\ (tgt r i n k < length h)%nat) ->
  (forall r i n k r' i' n' k', (r < F)%nat -> (i < I)%nat -> (n < N)%nat -> (k < K)%nat -> (r' < F)%nat -> (i' < I)%nat -> (n' < N)%nat -> (k' < K)%nat ->
     tgt r i n k = tgt r' i' n' k' -> w r i n k = w r' i' n' k') ->
  (forall r i n k h1, (r < F)%nat -> (i < I)%nat -> (n < N)%nat -> (k < K)%nat -> agree T h h1 -> body r i n k h1 = wr h1 (tgt r i n k) (w r i n k)) ->
  exists h', for_ F (fun r h => for_ I (fun i h => for_ N (fun n h => for_ K (fun k h => body r i n k h) h) h) h) h = Some h' /\ length h' = length h /\
    (forall r i n k, (r < F)%nat -> (i < I)%nat -> (n < N)%nat -> (k < K)%nat -> rd h' (tgt r i n k) = Some (w r i n k)) /\
    (forall c, (forall r i n k, (r < F)%nat -> (i < I)%nat -> (n < N)%nat -> (k < K)%nat -> c <> tgt r i n k) -> rd h' c = rd h c).
Proof.
  intros T F I N K body tgt w h HT Hi Hb.
  set (P c x := exists r i n k, (r < F)%nat /\ (i < I)%nat /\ (n < N)%nat /\ (k < K)%nat /\ c = tgt r i n k /\ x = w r i n k).
  destruct (for_stepT T (fun r c => exists i, (i < I)%nat /\ exists n, (n < N)%nat /\ exists k, (k < K)%nat /\ c = tgt r i n k) P F
    (fun r h => for_ I (fun i h => for_ N (fun n h => for_ K (fun k h => body r i n k h) h) h) h) h h (agree_refl _ _)) as (h' & E & St).
  { intros r c Hr (i & Hii & n & Hn & k & Hk & ->). now apply HT. }
  { intros r h1 Hr A1. apply (for_stepT T _ _ _ _ h); [exact A1| |].
    { intros i c Hii (n & Hn & k & Hk & ->). now apply HT. }
    intros i h2 Hii A2. apply (for_stepT T _ _ _ _ h); [exact A2| |].
    { intros n c Hn (k & Hk & ->). now apply HT. }
    intros n h3 Hn A3. apply (for_stepT T _ _ _ _ h); [exact A3| |].
    { intros k c Hk ->. now apply HT. }
    intros k h4 Hk A4. rewrite (Hb r i n k h4) by assumption. destruct (HT r i n k) as [_ Hlt]; try assumption. apply step_wr; [rewrite (proj1 A4); exact Hlt|].
    exists r, i, n, k. auto 8. }
  exists h'. split; [exact E|]. destruct St as (L & A & B). split; [exact L|]. split.
  - intros r i n k Hr Hii Hn Hk. destruct (A (tgt r i n k)) as (x & Ex & (r' & i' & n' & k' & Hr' & Hi' & Hn' & Hk' & Et & ->)).
    { exists r. split; [exact Hr|]. exists i. split; [exact Hii|]. exists n. split; [exact Hn|]. exists k. auto. }
    rewrite Ex. f_equal. now apply Hi.
  - intros c Hc. destruct (B c) as [e|(r & Hr & i & Hii & n & Hn & k & Hk & e)]; [exact e|]. exfalso. now apply (Hc r i n k).
Qed.
Lemma for_1 : forall {S} (b : nat -> S -> option S) s, for_ 1 b s = b 0%nat s.
Proof. intros S b s. unfold for_. cbn [for_range]. now destruct (b 0%nat s). Qed.
Lemma tri_wr : forall (T : nat -> Prop) F I N body tgt (w : nat -> nat -> nat -> R) h,
  (forall r i n, (r < F)%nat -> (i < I)%nat -> (n < N)%nat -> T (tgt r i n) /\ (tgt r i n < length h)%nat) ->
  (forall r i n r' i' n', (r < F)%nat -> (i < I)%nat -> (n < N)%nat -> (r' < F)%nat -> (i' < I)%nat -> (n' < N)%nat -> tgt r i n = tgt r' i' n' -> w r i n = w r' i' n') ->
  (forall r i n h1, (r < F)%nat -> (i < I)%nat -> (n < N)%nat -> agree T h h1 -> body r i n h1 = wr h1 (tgt r i n) (w r i n)) ->
  exists h', for_ F (fun r h => for_ I (fun i h => for_ N (fun n h => body r i n h) h) h) h = Some h' /\ length h' = length h /\
    (forall r i n, (r < F)%nat -> (i < I)%nat -> (n < N)%nat -> rd h' (tgt r i n) = Some (w r i n)) /\
    (forall c, (forall r i n, (r < F)%nat -> (i < I)%nat -> (n < N)%nat -> c <> tgt r i n) -> rd h' c = rd h c).
Proof.
  intros T F I N body tgt w h HT Hi Hb.
  destruct (quad_wr T F I 1 N (fun r i _ n h => body r i n h) (fun r i _ n => tgt r i n) (fun r i _ n => w r i n) h) as (h' & E & L & A & B); auto.
  exists h'. split; [|split; [exact L|split]].
  - rewrite <- E. apply GeoProofs2.for_ext. intros r s _. apply GeoProofs2.for_ext. intros i s' _. now rewrite for_1.
  - intros. now apply (A r i 0%nat n); auto.
  - intros c Hc. apply B. intros. now apply Hc.
Qed.
Lemma fill_ok : forall n o g h, (o + n <= length h)%nat -> exists h', fill n o g h = Some h' /\ length h' = length h /\
  (forall i, (i < n)%nat -> rd h' (o + i) = Some (g i)) /\ (forall c, ~ (o <= c < o + n)%nat -> rd h' c = rd h c).
Proof.
  intros n o g h H. destruct (tri_wr (fun _ => True) 1 1 n (fun _ _ i h => wr h (o + i) (g i)) (fun _ _ i => o + i)%nat (fun _ _ i => g i) h) as (h' & E & L & A & B).
  - intros. split; [exact I|lia].
  - intros. f_equal. lia.
  - reflexivity.
  - exists h'. split; [rewrite 2!for_1 in E; exact E|]. split; [exact L|]. split; [intros i Hi; now apply (A 0%nat 0%nat i); auto|]. intros c Hc. apply B. intros. lia.
Qed.

(** sums *)
Lemma agree_adds : forall (T : nat -> Prop) D l l', adds D l l' -> (forall c, ~ T c -> D c = 0) -> agree T l l'.
Proof.
  intros T D l l' (L & A) H. split; [exact L|]. intros c Hc. destruct (rd l c) as [x|] eqn:E.
  - rewrite (A c x E), (H c Hc). f_equal. lra.
  - apply nth_error_None. apply nth_error_None in E. lia.
Qed.
Lemma for_addsT : forall (T : nat -> Prop) (D : nat -> nat -> R) n body l0 l, agree T l0 l -> (forall i c, (i < n)%nat -> ~ T c -> D i c = 0) ->
  (forall i l1, (i < n)%nat -> agree T l0 l1 -> exists l', body i l1 = Some l' /\ adds (D i) l1 l') ->
  exists l', for_ n body l = Some l' /\ adds (fun c => Rsum n (fun i => D i c)) l l'.
Proof.
  intros T D n body l0 l H0 HT H. destruct (for_inv (fun i l1 => (i <= n)%nat /\ adds (fun c => Rsum i (fun i => D i c)) l l1) n body l) as (l' & E & _ & A).
  - split; [lia|]. split; [reflexivity|]. intros c x E. rewrite E. cbn. f_equal. lra.
  - intros i l1 Hi (Hle & L & A). assert (A1 : agree T l l1).
    { apply (agree_adds T (fun c => Rsum i (fun i => D i c))); [now split|]. intros c Hc. apply Rsum_zero. intros j Hj. apply HT; [lia|exact Hc]. }
    destruct (H i l1 Hi (agree_trans _ _ _ _ H0 A1)) as (l2 & E & L2 & A2). exists l2. split; [exact E|]. split; [lia|]. split; [congruence|].
    intros c x Ec. rewrite (A2 c _ (A c x Ec)). rewrite Rsum_S. f_equal. lra.
  - now exists l'.
Qed.
Lemma adds_ext : forall D D' l l', adds D l l' -> (forall c, D c = D' c) -> adds D' l l'.
Proof. intros D D' l l' (L & A) H. split; [exact L|]. intros c x E. rewrite (A c x E). now rewrite H. Qed.
Definition pt (t : nat) (w : R) (c : nat) : R := if (c =? t)%nat then w else 0.
Lemma pt_sum : forall n t w c, Rsum n (fun k => pt t (w k) c) = pt t (Rsum n w) c.
Proof. intros n t w c. unfold pt. destruct (c =? t)%nat; [reflexivity|]. now apply Rsum_zero. Qed.
Lemma adds_id : forall t l, adds (pt t 0) l l.
Proof. intros t l. split; [reflexivity|]. intros c x E. rewrite E. unfold pt. destruct (c =? t)%nat; f_equal; lra. Qed.
Lemma adds_pt : forall l c v, (c < length l)%nat -> exists l', (do y <- rd l c; wr l c (y + v)) = Some l' /\ adds (pt c v) l l'.
Proof. intros l c v H. destruct (rd_some l c H) as (x & E). rewrite E. cbn [obind]. exact (adds_wr l c x v E). Qed.
Lemma adds_trans : forall D D' l l1 l2, adds D l l1 -> adds D' l1 l2 -> adds (fun c => D c + D' c) l l2.
Proof. intros D D' l l1 l2 (L & A) (L' & A'). split; [congruence|]. intros c x E. rewrite (A' c _ (A c x E)). f_equal. lra. Qed.
(** [parts]: the loops over the parts, elements, columns, points of the operators that add *)
Lemma quad_add : forall (T : nat -> Prop) Q F (I : nat -> nat) N body tgt (w : nat -> nat -> nat -> nat -> R) h,
  (forall p r i n, (p < Q)%nat -> (r < F)%nat -> (i < I p)%nat -> (n < N)%nat -> T (tgt p r i n) /\ (tgt p r i n < length h)%nat) ->
  (forall p r i n p' r' i' n', (p < Q)%nat -> (r < F)%nat -> (i < I p)%nat -> (n < N)%nat -> (p' < Q)%nat -> (r' < F)%nat -> (i' < I p')%nat -> (n' < N)%nat ->
     tgt p r i n = tgt p' r' i' n' -> p = p' /\ r = r' /\ i = i' /\ n = n') ->
  (forall p r i n h1, (p < Q)%nat -> (r < F)%nat -> (i < I p)%nat -> (n < N)%nat -> agree T h h1 -> exists h2, body p r i n h1 = Some h2 /\ adds (pt (tgt p r i n) (w p r i n)) h1 h2) ->
  exists h', for_ Q (fun p h => for_ F (fun r h => for_ (I p) (fun i h => for_ N (fun n h => body p r i n h) h) h) h) h = Some h' /\ length h' = length h /\
    (forall p r i n x, (p < Q)%nat -> (r < F)%nat -> (i < I p)%nat -> (n < N)%nat -> rd h (tgt p r i n) = Some x -> rd h' (tgt p r i n) = Some (x + w p r i n)) /\
    (forall c, (forall p r i n, (p < Q)%nat -> (r < F)%nat -> (i < I p)%nat -> (n < N)%nat -> c <> tgt p r i n) -> rd h' c = rd h c).
Proof.
  intros T Q F I N body tgt w h HT Hi Hb.
  assert (Z : forall p r i n c, (p < Q)%nat -> (r < F)%nat -> (i < I p)%nat -> (n < N)%nat -> ~ T c -> pt (tgt p r i n) (w p r i n) c = 0).
  { intros p r i n c Hp Hr Hii Hn Hc. unfold pt. destruct (Nat.eqb_spec c (tgt p r i n)) as [->|]; [|reflexivity]. exfalso. apply Hc. now apply HT. }
  destruct (for_addsT T (fun p c => Rsum F (fun r => Rsum (I p) (fun i => Rsum N (fun n => pt (tgt p r i n) (w p r i n) c)))) Q
    (fun p h => for_ F (fun r h => for_ (I p) (fun i h => for_ N (fun n h => body p r i n h) h) h) h) h h (agree_refl _ _)) as (h' & E & L & A).
  { intros p c Hp Hc. repeat (apply Rsum_zero; intros). now apply Z. }
  { intros p h1 Hp A1. apply (for_addsT T _ _ _ h); [exact A1| |].
    { intros r c Hr Hc. repeat (apply Rsum_zero; intros). now apply Z. }
    intros r h2 Hr A2. apply (for_addsT T _ _ _ h); [exact A2| |].
    { intros i c Hii Hc. repeat (apply Rsum_zero; intros). now apply Z. }
    intros i h3 Hii A3. apply (for_addsT T _ _ _ h); [exact A3| |].
    { intros n c Hn Hc. now apply Z. }
    intros n h4 Hn A4. now apply Hb. }
  exists h'. split; [exact E|]. split; [exact L|]. split.
  - intros p r i n x Hp Hr Hii Hn Ex. rewrite (A _ _ Ex). f_equal. f_equal.
    rewrite (Rsum_single Q p); [|exact Hp|].
    2:{ intros p' Hp' Hne. repeat (apply Rsum_zero; intros). unfold pt. destruct (Nat.eqb_spec (tgt p r i n) (tgt p' i0 i1 i2)) as [e|]; [|reflexivity].
        exfalso. apply Hi in e; auto. destruct e; congruence. }
    rewrite (Rsum_single F r); [|exact Hr|].
    2:{ intros r' Hr' Hne. repeat (apply Rsum_zero; intros). unfold pt. destruct (Nat.eqb_spec (tgt p r i n) (tgt p r' i0 i1)) as [e|]; [|reflexivity].
        exfalso. apply Hi in e; auto. destruct e as (_ & e & _); congruence. }
    rewrite (Rsum_single (I p) i); [|exact Hii|].
    2:{ intros i' Hi' Hne. repeat (apply Rsum_zero; intros). unfold pt. destruct (Nat.eqb_spec (tgt p r i n) (tgt p r i' i0)) as [e|]; [|reflexivity].
        exfalso. apply Hi in e; auto. destruct e as (_ & _ & e & _); congruence. }
    rewrite (Rsum_single N n); [|exact Hn|].
    2:{ intros n' Hn' Hne. unfold pt. destruct (Nat.eqb_spec (tgt p r i n) (tgt p r i n')) as [e|]; [|reflexivity].
        exfalso. apply Hi in e; auto. destruct e as (_ & _ & _ & e); congruence. }
    unfold pt. now rewrite Nat.eqb_refl.
  - intros c Hc. destruct (rd h c) as [x|] eqn:Ex; [|apply nth_error_None; apply nth_error_None in Ex; lia].
    rewrite (A c x Ex). f_equal. replace (Rsum Q _) with 0; [lra|]. symmetry. repeat (apply Rsum_zero; intros). unfold pt.
    destruct (Nat.eqb_spec c (tgt i i0 i1 i2)) as [e|]; [|reflexivity]. exfalso. now apply (Hc i i0 i1 i2).
Qed.

(** indices *)
Lemma cell4_inj : forall d q nf k n i r k' n' i' r', (k < d)%nat -> (n < q)%nat -> (i < nf)%nat -> (k' < d)%nat -> (n' < q)%nat -> (i' < nf)%nat ->
  ((k + d * n) + q * d * (i + nf * r) = (k' + d * n') + q * d * (i' + nf * r'))%nat -> k = k' /\ n = n' /\ i = i' /\ r = r'.
Proof.
  intros d q nf k n i r k' n' i' r' Hk Hn Hi Hk' Hn' Hi' E. assert (H1 := cell_lt d q k n Hk Hn). assert (H2 := cell_lt d q k' n' Hk' Hn').
  replace (q * d)%nat with (d * q)%nat in E by lia. destruct (cell_inj _ _ _ _ _ H1 H2 E) as [E1 E2].
  destruct (cell_inj d k n k' n' Hk Hk' E1). destruct (cell_inj nf i r i' r' Hi Hi' E2). auto.
Qed.
Lemma cell4_lt : forall d q nf f k n i r, (k < d)%nat -> (n < q)%nat -> (i < nf)%nat -> (r < f)%nat -> ((k + d * n) + q * d * (i + nf * r) < q * d * (nf * f))%nat.
Proof.
  intros d q nf f k n i r Hk Hn Hi Hr. assert (H1 := cell_lt d q k n Hk Hn). assert (H2 := cell_lt nf f i r Hi Hr).
  replace (q * d)%nat with (d * q)%nat by lia. exact (cell_lt (d * q) (nf * f) _ _ H1 H2).
Qed.
