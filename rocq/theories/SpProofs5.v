(** Compositions and unions. *)
From Verif Require Import Prelude RSum DirProofs2 CoreProofs SpModel CoreModel CoreSpec SpSpec SpProofs SpProofs2 SpProofs3 SpProofs4.
Local Open Scope R_scope.

Section Five.
Variables f q : nat.
Notation holds := (holds f q). Notation post := (post f q). Notation gspec := (gspec f q).

Lemma post_ext : forall m u lr m' b d nf V V', post m u lr m' b d nf V ->
  (forall r n k i, (r < f)%nat -> (n < q)%nat -> (k < d)%nat -> (i < nf)%nat -> V r n k i = V' r n k i) -> post m u lr m' b d nf V'.
Proof.
  intros m u lr m' b d nf V V' (F & A & B & C & D & (bl & L & N & Er & Ec & Hv & Hr & Hc & Hh & Hi)) H. split; [exact F|]. repeat (split; [assumption|]).
  exists bl. repeat (split; [assumption|]). split; [|exact Hi]. apply (vals_ext f q _ _ V); [exact Hh|]. rewrite Er, Ec. exact H.
Qed.
Lemma gspec_ext : forall G lr ex P d nf V V', gspec G lr ex P d nf V ->
  (forall r n k i, (r < f)%nat -> (n < q)%nat -> (k < d)%nat -> (i < nf)%nat -> V r n k i = V' r n k i) -> gspec G lr ex P d nf V'.
Proof.
  intros G lr ex P d nf V V' HG H m u Hp. destruct (HG m u Hp) as (m' & b & E & Po & R). exists m', b. split; [exact E|]. split; [|exact R]. now apply (post_ext _ _ _ _ _ _ _ V).
Qed.

(** *** Compositions *)
Section List.
Variables (A : space -> mem -> nat -> option (mem * bx)) (Q : space -> option req).
Variables (rq : space -> req) (P d nf : space -> nat) (V : space -> value).
Definition jl (la : req) (l : list space) : req :=
  {| rU := (rU la + sum_of rU (map rq l))%nat; rE := Nat.max (rE la) (max_of rE (map rq l)); rP := (rP la + sum_of rP (map rq l))%nat |}.
Definition cv (l : list space) : value := com_value (map (fun s => (d s, nf s, V s)) l).
Lemma pre_weak : forall m u lr lr', pre m u lr -> (rU lr' <= rU lr)%nat -> (rE lr' <= rE lr)%nat -> (rP lr' <= rP lr)%nat -> pre m u lr'.
Proof. intros m u lr lr' (P1 & P2 & P3 & P4 & P5 & P6 & P7) H1 H2 H3. unfold pre. repeat split; lia. Qed.
Lemma com_rest_ok : forall l, (forall s, In s l -> Q s = Some (rq s) /\ gspec (A s) (rq s) true (P s) (d s) (nf s) (V s)) ->
  forall m0 u0 la m res d0 nf0 V0, post m0 u0 la m res d0 nf0 V0 -> busy m = (busy m0 + np res)%nat -> pre m0 u0 (jl la l) ->
  exists m' res', com_rest A Q l m (u0 + rU la) res = Some (m', res') /\
    post m0 u0 (jl la l) m' res' (d0 + list_sum (map d l)) (nf0 + list_sum (map nf l)) (vjoin d0 nf0 V0 (cv l)) /\
    np res' = (np res + list_sum (map P l))%nat /\ busy m' = (busy m0 + np res')%nat.
Proof.
  induction l as [|s l IH]; intros HA m0 u0 la m res d0 nf0 V0 Hpo Hb Hpre.
  - exists m, res. split; [reflexivity|]. cbn [map]. change (list_sum []) with 0%nat. rewrite !Nat.add_0_r. split; [|auto].
    replace (jl la []) with la by (unfold jl, sum_of, max_of; cbn; rewrite !Nat.add_0_r, Nat.max_0_r; now destruct la).
    apply (post_ext _ _ _ _ _ _ _ V0); [exact Hpo|]. intros r n k i _ _ Hk Hi. unfold vjoin. destruct (Nat.ltb_spec k d0); [|lia]. destruct (Nat.ltb_spec i nf0); [reflexivity|lia].
  - assert (Ej : jl (jreq la (rq s)) l = jl la (s :: l)).
    { unfold jl, jreq, sum_of, max_of. cbn [rU rE rP map fold_right]. rewrite !list_sum_cons, !Nat.add_assoc, Nat.max_assoc. reflexivity. }
    destruct (HA s) as [EQ HG]; [now left|]. assert (Hpo' := Hpo). destruct Hpo' as (F & Od & Os & Np & Bz & H). destruct (ends _ _ _ _ _ _ _ _ _ H) as [Ec Er].
    destruct F as (Lh & Fh & Lm & Fm & Lr & Fr & Lc & Fc & Ee & Es).
    assert (Hp2 : pre m0 u0 (jreq la (rq s))) by (rewrite <- Ej in Hpre; apply (pre_weak _ _ _ _ Hpre); cbn [jl rU rE rP]; lia).
    destruct (HG m (u0 + rU la)%nat) as (m1 & b1 & E1 & Po1 & NP1 & Ex1).
    { destruct Hp2 as (P1 & P2 & P3 & P4 & P5 & P6 & P7). cbn [jreq rU rE rP] in *. unfold pre. rewrite Lh, Lm, Lr, Lc, Ee, Es. repeat split; lia. }
    destruct (append_ok f q m0 u0 la m res d0 nf0 V0 (rq s) m1 b1 (d s) (nf s) (V s) Hpo Hb Po1 (Ex1 eq_refl) Hp2) as (m2 & res2 & E2 & Po2 & B2).
    assert (NP2 : np res2 = (np res + np b1)%nat).
    { unfold append in E2. repeat match type of E2 with obind ?e _ = _ => destruct e; [cbn [obind] in E2|discriminate] end. apply Some_inj' in E2. injection E2 as _ <-. reflexivity. }
    destruct (IH (fun t Ht => HA t (or_intror Ht)) m0 u0 (jreq la (rq s)) m2 res2 _ _ _ Po2 B2) as (m3 & res3 & E3 & Po3 & NP3 & B3); [now rewrite Ej|].
    exists m3, res3. split.
    { cbn [com_rest]. rewrite Ec, Er, EQ. cbn [obind]. rewrite E1. cbn [obind fst snd]. rewrite E2. cbn [obind fst snd]. cbn [jreq rU] in E3. rewrite Nat.add_assoc in E3. exact E3. }
    rewrite Ej in Po3. cbn [map]. rewrite !list_sum_cons. split; [|split; [lia|exact B3]]. rewrite !Nat.add_assoc.
    apply (post_ext _ _ _ _ _ _ _ _ _ Po3). intros r n k i _ _ Hk Hi. unfold vjoin, cv. cbn [map com_value].
    repeat match goal with |- context [(?x <? ?y)%nat] => destruct (Nat.ltb_spec x y); try lia end; try reflexivity. f_equal; lia.
Qed.
Lemma com_ok : forall l, l <> [] -> (forall s, In s l -> Q s = Some (rq s) /\ gspec (A s) (rq s) true (P s) (d s) (nf s) (V s)) ->
  gspec (com_apply A Q l) (com_req (map rq l)) true (list_sum (map P l)) (list_sum (map d l)) (list_sum (map nf l)) (cv l).
Proof.
  intros [|s l] Hl HA m u Hpre; [congruence|]. destruct (HA s) as [EQ HG]; [now left|].
  assert (Ej : jl (rq s) l = com_req (map rq (s :: l))) by reflexivity.
  destruct (HG m u) as (m1 & b1 & E1 & Po1 & NP1 & Ex1).
  { apply (pre_weak _ _ _ _ Hpre); rewrite <- Ej; cbn [jl rU rE rP]; lia. }
  rewrite <- Ej in Hpre. destruct (com_rest_ok l (fun t Ht => HA t (or_intror Ht)) m u (rq s) m1 b1 _ _ _ Po1 (Ex1 eq_refl) Hpre) as (m2 & b2 & E2 & Po2 & NP2 & B2).
  exists m2, b2. split; [cbn [com_apply]; rewrite EQ; cbn [obind]; rewrite E1; exact E2|]. cbn [map]. rewrite !list_sum_cons. split; [exact Po2|]. split; [lia|auto].
Qed.
End List.

(** *** Nested loops over the parts *)
Lemma penta_wr : forall (T : nat -> Prop) Q F (I : nat -> nat) N (K : nat -> nat) body tgt (w : nat -> nat -> nat -> nat -> nat -> R) h,
  (forall p r i n k, (p < Q)%nat -> (r < F)%nat -> (i < I p)%nat -> (n < N)%nat -> (k < K p)%nat -> T (tgt p r i n k) /\ (tgt p r i n k < length h)%nat) ->
  (forall p r i n k p' r' i' n' k', (p < Q)%nat -> (r < F)%nat -> (i < I p)%nat -> (n < N)%nat -> (k < K p)%nat -> (p' < Q)%nat -> (r' < F)%nat -> (i' < I p')%nat -> (n' < N)%nat -> (k' < K p')%nat ->
     tgt p r i n k = tgt p' r' i' n' k' -> w p r i n k = w p' r' i' n' k') ->
  (forall p r i n k h1, (p < Q)%nat -> (r < F)%nat -> (i < I p)%nat -> (n < N)%nat -> (k < K p)%nat -> agree T h h1 -> body p r i n k h1 = wr h1 (tgt p r i n k) (w p r i n k)) ->
  exists h', for_ Q (fun p h => for_ F (fun r h => for_ (I p) (fun i h => for_ N (fun n h => for_ (K p) (fun k h => body p r i n k h) h) h) h) h) h = Some h' /\ length h' = length h /\
    (forall p r i n k, (p < Q)%nat -> (r < F)%nat -> (i < I p)%nat -> (n < N)%nat -> (k < K p)%nat -> rd h' (tgt p r i n k) = Some (w p r i n k)) /\
    (forall c, (forall p r i n k, (p < Q)%nat -> (r < F)%nat -> (i < I p)%nat -> (n < N)%nat -> (k < K p)%nat -> c <> tgt p r i n k) -> rd h' c = rd h c).
Proof.
  intros T Q F I N K body tgt w h HT Hi Hb.
  set (PP c x := exists p r i n k, (p < Q)%nat /\ (r < F)%nat /\ (i < I p)%nat /\ (n < N)%nat /\ (k < K p)%nat /\ c = tgt p r i n k /\ x = w p r i n k).
  destruct (for_stepT T (fun p c => exists r, (r < F)%nat /\ exists i, (i < I p)%nat /\ exists n, (n < N)%nat /\ exists k, (k < K p)%nat /\ c = tgt p r i n k) PP Q
    (fun p h => for_ F (fun r h => for_ (I p) (fun i h => for_ N (fun n h => for_ (K p) (fun k h => body p r i n k h) h) h) h) h) h h (agree_refl _ _)) as (h' & E & St).
  { intros p c Hp (r & Hr & i & Hii & n & Hn & k & Hk & ->). now apply HT. }
  { intros p h0 Hp A0. apply (for_stepT T _ _ _ _ h); [exact A0| |].
    { intros r c Hr (i & Hii & n & Hn & k & Hk & ->). now apply HT. }
    intros r h1 Hr A1. apply (for_stepT T _ _ _ _ h); [exact A1| |].
    { intros i c Hii (n & Hn & k & Hk & ->). now apply HT. }
    intros i h2 Hii A2. apply (for_stepT T _ _ _ _ h); [exact A2| |].
    { intros n c Hn (k & Hk & ->). now apply HT. }
    intros n h3 Hn A3. apply (for_stepT T _ _ _ _ h); [exact A3| |].
    { intros k c Hk ->. now apply HT. }
    intros k h4 Hk A4. rewrite (Hb p r i n k h4) by assumption. destruct (HT p r i n k) as [_ Hlt]; try assumption. apply step_wr; [rewrite (proj1 A4); exact Hlt|].
    exists p, r, i, n, k. auto 8. }
  exists h'. split; [exact E|]. destruct St as (L & A & B). split; [exact L|]. split.
  - intros p r i n k Hp Hr Hii Hn Hk. destruct (A (tgt p r i n k)) as (x & Ex & (p' & r' & i' & n' & k' & Hp' & Hr' & Hi' & Hn' & Hk' & Et & ->)).
    { exists p. split; [exact Hp|]. exists r. split; [exact Hr|]. exists i. split; [exact Hii|]. exists n. split; [exact Hn|]. exists k. auto. }
    rewrite Ex. f_equal. now apply Hi.
  - intros c Hc. destruct (B c) as [e|(p & Hp & r & Hr & i & Hii & n & Hn & k & Hk & e)]; [exact e|]. exfalso. now apply (Hc p r i n k).
Qed.

(** *** Unions *)
(** the block of part p *)
Definition bk (bl : list blk) (p : nat) : blk := nth p bl (0, 0, 0)%nat.
Lemma bk_at : forall bl p, (p < length bl)%nat -> nth_error bl p = Some (bk bl p).
Proof. intros bl p H. unfold bk. now apply nth_error_nth'. Qed.
Lemma col_unique : forall bl p p' i i', (p < length bl)%nat -> (p' < length bl)%nat -> (i < b_cl (bk bl p))%nat -> (i' < b_cl (bk bl p'))%nat ->
  (cols (firstn p bl) + i = cols (firstn p' bl) + i')%nat -> p = p' /\ i = i'.
Proof.
  assert (M : forall bl p p', (p < p')%nat -> (p' < length bl)%nat -> (cols (firstn p bl) + b_cl (bk bl p) <= cols (firstn p' bl))%nat).
  { intros bl p p' H1 H2. rewrite <- (cols_S _ _ _ (bk_at bl p ltac:(lia))).
    replace (firstn (S p) bl) with (firstn (S p) (firstn p' bl)) by (rewrite firstn_firstn; f_equal; lia).
    rewrite <- (firstn_skipn (S p) (firstn p' bl)) at 2. rewrite cols_app. lia. }
  intros bl p p' i i' Hp Hp' Hi Hi' E. destruct (Nat.lt_trichotomy p p') as [H|[->|H]].
  - specialize (M bl p p' H Hp'). lia.
  - split; [reflexivity|lia].
  - specialize (M bl p' p H Hp). lia.
Qed.
Lemma uni_copy_ok : forall m b gdim nf V lo hi nfa s u, holds m b gdim nf V lo hi -> (s + nf <= nfa)%nat -> (u + q * gdim * (nfa * f) <= length (hp m))%nat ->
  (u + q * gdim * (nfa * f) <= lo \/ hi <= u)%nat ->
  (forall r n k i, (r < f)%nat -> (n < q)%nat -> (k < gdim)%nat -> (i < nf)%nat -> rd (hp m) (u + ((k + gdim * n) + q * gdim * (s + i + nfa * r))) = Some 0) ->
  exists h, uni_copy f q gdim nfa s u b m = Some h /\ length h = length (hp m) /\
    (forall r n k i, (r < f)%nat -> (n < q)%nat -> (k < gdim)%nat -> (i < nf)%nat -> rd h (u + ((k + gdim * n) + q * gdim * (s + i + nfa * r))) = Some (V r n k i)) /\
    (forall c, (forall r n k i, (r < f)%nat -> (n < q)%nat -> (k < gdim)%nat -> (i < nf)%nat -> c <> u + ((k + gdim * n) + q * gdim * (s + i + nfa * r)))%nat -> rd h c = rd (hp m) c).
Proof.
  intros m b gdim nf V lo hi nfa s u (bl & L & N & Er & Ec & Hv & Hr & Hc & Hh & Hi) Hs Hl Hd Hz.
  set (R0 p := rows (firstn p bl)). set (C0 p := cols (firstn p bl)).
  assert (HR : forall p, (p < np b)%nat -> (R0 p + b_rw (bk bl p) <= gdim)%nat) by (intros p Hp; rewrite <- Er; apply rows_at; apply bk_at; lia).
  assert (HC : forall p, (p < np b)%nat -> (C0 p + b_cl (bk bl p) <= nf)%nat) by (intros p Hp; rewrite <- Ec; apply cols_at; apply bk_at; lia).
  set (tgt p r i n k := (u + ((k + R0 p + gdim * n) + q * gdim * (s + i + C0 p + nfa * r)))%nat).
  destruct (penta_wr (fun c => u <= c < u + q * gdim * (nfa * f))%nat (np b) f (fun p => b_cl (bk bl p)) q (fun p => b_rw (bk bl p))
    (fun p r i n k h => do x <- vrd h (b_off (bk bl p), q * b_rw (bk bl p))%nat (k + b_rw (bk bl p) * n) (i + b_cl (bk bl p) * r); wr h (tgt p r i n k) x)
    tgt (fun p r i n k => V r n (R0 p + k)%nat (C0 p + i)%nat) (hp m)) as (h & E & Lh & A & B).
  { intros p r i n k Hp Hr' Hii Hn Hk. specialize (HR p Hp). specialize (HC p Hp). unfold tgt.
    assert (X := cell4_lt gdim q nfa f (k + R0 p) n (s + i + C0 p) r ltac:(lia) Hn ltac:(lia) Hr'). lia. }
  { intros p r i n k p' r' i' n' k' Hp Hr' Hii Hn Hk Hp' Hr'' Hii' Hn' Hk' X. unfold tgt in X. apply Nat.add_cancel_l in X.
    assert (Y1 := HR p Hp). assert (Y2 := HR p' Hp'). assert (Z1 := HC p Hp). assert (Z2 := HC p' Hp').
    apply cell4_inj in X; try lia. destruct X as (X1 & -> & X2 & ->). f_equal; lia. }
  { intros p r i n k h1 Hp Hr' Hii Hn Hk (_ & Ha). assert (Ep : nth_error bl p = Some (bk bl p)) by (apply bk_at; lia).
    destruct (Hh p _ Ep r n i Hr' Hn Hii) as [X _]. specialize (X k Hk). unfold vrd. cbn [fst snd].
    fold (cell q (bk bl p) r n k i). rewrite Ha.
    - rewrite X. reflexivity.
    - assert (Y := cell_in f q (bk bl p) r n k i Hr' Hn Hk Hii). destruct (Hi p _ Ep). lia. }
  exists h. split.
  { unfold uni_copy. rewrite <- E. apply GeoProofs2.for_ext. intros p h1 Hp. assert (Ep : nth_error bl p = Some (bk bl p)) by (apply bk_at; lia).
    assert (X1 := Hc p ltac:(lia)). assert (X2 := Hc (S p) ltac:(lia)). assert (X3 := Hr p ltac:(lia)). assert (X4 := Hr (S p) ltac:(lia)).
    rewrite (cols_S _ _ _ Ep) in X2. rewrite (rows_S _ _ _ Ep) in X4. fold (C0 p) in *. fold (R0 p) in *.
    rewrite <- !Nat.add_assoc. rewrite (Nat.add_1_r p). rewrite X1, X2, X3, X4. cbn [obind]. rewrite (Hv p _ Ep). cbn [obind].
    replace (C0 p + b_cl (bk bl p) - C0 p)%nat with (b_cl (bk bl p)) by lia. replace (R0 p + b_rw (bk bl p) - R0 p)%nat with (b_rw (bk bl p)) by lia. unfold tgt. rewrite ?Nat.add_assoc.
    apply GeoProofs2.for_ext. intros r h2 _. apply GeoProofs2.for_ext. intros i h3 _. apply GeoProofs2.for_ext. intros n h4 _. apply GeoProofs2.for_ext. intros k h5 _.
    destruct (vrd h5 _ _ _); [|reflexivity]. cbn [obind]. try (f_equal; ring). }
  split; [exact Lh|]. split.
  - intros r n k i Hr' Hn Hk Hii. destruct (col_block bl i ltac:(lia)) as (p & b' & Ep & Hb). assert (Hp : (p < length bl)%nat) by (apply nth_error_Some; congruence).
    assert (b' = bk bl p) by (rewrite (bk_at bl p Hp) in Ep; now apply Some_inj' in Ep). subst b'. fold (C0 p) in Hb.
    destruct (Nat.le_gt_cases (R0 p) k) as [H1|H1]; [destruct (Nat.lt_ge_cases k (R0 p + b_rw (bk bl p))) as [H2|H2]|].
    + replace (u + (k + gdim * n + q * gdim * (s + i + nfa * r)))%nat with (tgt p r (i - C0 p)%nat n (k - R0 p)%nat).
      2:{ unfold tgt. replace (k - R0 p + R0 p)%nat with k by lia. replace (s + (i - C0 p) + C0 p)%nat with (s + i)%nat by lia. reflexivity. }
      rewrite A by lia. f_equal. f_equal; lia.
    + rewrite B.
      * rewrite Hz by assumption. f_equal. symmetry. destruct (Hh p _ Ep r n (i - C0 p)%nat Hr' Hn ltac:(lia)) as [_ X]. rewrite <- (X k); [|lia|fold (R0 p); lia]. f_equal. fold (C0 p). lia.
      * intros p' r' i' n' k' Hp' Hr'' Hii' Hn' Hk' X. unfold tgt in X. apply Nat.add_cancel_l in X. assert (Y2 := HR p' Hp'). assert (Z2 := HC p' Hp').
        apply cell4_inj in X; try lia. destruct X as (X1 & -> & X2 & ->). destruct (col_unique bl p p' (i - C0 p) i'); try lia; unfold C0, R0 in *; [lia|]. subst p'. lia.
    + rewrite B.
      * rewrite Hz by assumption. f_equal. symmetry. destruct (Hh p _ Ep r n (i - C0 p)%nat Hr' Hn ltac:(lia)) as [_ X]. rewrite <- (X k); [|lia|fold (R0 p); lia]. f_equal. fold (C0 p). lia.
      * intros p' r' i' n' k' Hp' Hr'' Hii' Hn' Hk' X. unfold tgt in X. apply Nat.add_cancel_l in X. assert (Y2 := HR p' Hp'). assert (Z2 := HC p' Hp').
        apply cell4_inj in X; try lia. destruct X as (X1 & -> & X2 & ->). destruct (col_unique bl p p' (i - C0 p) i'); try lia; unfold C0, R0 in *; [lia|]. subst p'. lia.
  - intros c Hcc. apply B. intros p r i n k Hp Hr' Hii Hn Hk X. assert (Y2 := HR p Hp). assert (Z2 := HC p Hp).
    apply (Hcc r n (k + R0 p)%nat (i + C0 p)%nat); try lia; try assumption. rewrite X. unfold tgt. f_equal. f_equal. f_equal. lia.
Qed.

Section Uni.
Variables (A : space -> mem -> nat -> option (mem * bx)) (Q : space -> option req) (ex : bool).
Variables (rq : space -> req) (P : space -> nat) (gdim : nat) (V : space -> value).
Definition uv (l : list space) : value := uni_value (map (fun s => (snfa s, V s)) l).
Lemma sh_mono : forall a b, (a <= b)%nat -> (a + sh a <= b + sh b)%nat.
Proof. intros a b H. unfold sh. destruct (Nat.ltb_spec 0 a); destruct (Nat.ltb_spec 0 b); lia. Qed.
Lemma uni_loop_ok : forall nfa m0 u n0 l, (forall s, In s l -> Q s = Some (rq s) /\ gspec (A s) (rq s) ex (P s) gdim (snfa s) (V s)) ->
  forall s m W, frame m0 u n0 m -> (busy m0 <= busy m)%nat ->
  (q * gdim * (nfa * f) <= n0)%nat -> (u + n0 <= length (hp m0))%nat -> (edat m0 + esz m0 <= length (hp m0))%nat -> (u + n0 <= edat m0 \/ edat m0 + esz m0 <= u)%nat ->
  (max_of (fun r => rE r + rU r)%nat (map rq l) <= esz m0)%nat ->
  (busy m + sum_of rP (map rq l) <= length (mtx m0))%nat -> (busy m + sum_of rP (map rq l) + 2 <= length (rowi m0))%nat -> (busy m + sum_of rP (map rq l) + 2 <= length (coli m0))%nat ->
  (s + list_sum (map snfa l) = nfa)%nat ->
  (forall r n k i, (r < f)%nat -> (n < q)%nat -> (k < gdim)%nat -> (i < nfa)%nat -> rd (hp m) (u + ((k + gdim * n) + q * gdim * (i + nfa * r))) = Some (if (i <? s)%nat then W r n k i else 0)) ->
  exists m', uni_loop f q A Q l gdim nfa s u m = Some m' /\ frame m0 u n0 m' /\
    (forall r n k i, (r < f)%nat -> (n < q)%nat -> (k < gdim)%nat -> (i < nfa)%nat -> rd (hp m') (u + ((k + gdim * n) + q * gdim * (i + nfa * r))) = Some (if (i <? s)%nat then W r n k i else uv l r n k (i - s)%nat)).
Proof.
  intros nfa m0 u n0. induction l as [|t l IH]; intros HA s m W HF Hb HU Hl He Hd HE HM HRi HCi Hn Hv.
  - exists m. split; [reflexivity|]. split; [exact HF|]. intros r n k i Hr Hq Hk Hi. rewrite Hv by assumption. cbn in Hn. rewrite Nat.add_0_r in Hn. subst s. destruct (Nat.ltb_spec i nfa); [reflexivity|lia].
  - destruct (HA t) as [EQ HG]; [now left|]. cbn [map] in HE, HM, HRi, HCi, Hn. unfold max_of in HE. cbn [fold_right] in HE. unfold sum_of in *. cbn [map] in *. rewrite !list_sum_cons in *.
    destruct HF as (Lh & Fh & Lm & Fm & Lr & Fr & Lc & Fc & Ee & Es).
    set (lr := rq t) in *. set (u1 := (edat m + (esz m - rU lr))%nat).
    destruct (HG (set_esz m (esz m - rU lr)) u1) as (m1 & b & E & ((Lh1 & Fh1 & Lm1 & Fm1 & Lr1 & Fr1 & Lc1 & Fc1 & Ee1 & Es1) & Od & Os & Np & Bz & H) & HnP & _).
    { unfold pre. cbn [set_esz hp mtx rowi coli busy edat esz]. unfold u1. rewrite Lh, Lm, Lr, Lc, Ee, Es. repeat split; lia. }
    cbn [set_esz hp mtx rowi coli busy edat esz] in *.
    assert (Hsame : forall c, (u <= c < u + n0)%nat -> rd (hp m1) c = rd (hp m) c) by (intros c Hc; apply Fh1; unfold u1; lia).
    assert (Hin : forall r n k i, (r < f)%nat -> (n < q)%nat -> (k < gdim)%nat -> (i < nfa)%nat -> (k + gdim * n + q * gdim * (i + nfa * r) < n0)%nat).
    { intros r n k i Hr Hq Hk Hi. assert (X := cell4_lt gdim q nfa f k n i r Hk Hq Hi Hr). lia. }
    destruct (uni_copy_ok m1 b gdim (snfa t) (V t) u1 (u1 + rU lr) nfa s u H) as (h & Eh & Lhh & Ah & Bh).
    { lia. } { lia. } { unfold u1. lia. }
    { intros r n k i Hr Hq Hk Hi. rewrite Hsame by (specialize (Hin r n k (s + i)%nat Hr Hq Hk); lia). rewrite Hv by (try assumption; lia). destruct (Nat.ltb_spec (s + i) s); [lia|reflexivity]. }
    set (m2 := set_esz (set_hp m1 h) (esz m1 + rU lr)).
    destruct (IH (fun x Hx => HA x (or_intror Hx)) (s + snfa t)%nat m2 (fun r n k i => if (i <? s)%nat then W r n k i else V t r n k (i - s)%nat)) as (m3 & E3 & F3 & V3); try assumption; try (unfold m2; cbn [set_esz set_hp hp mtx rowi coli busy edat esz]; lia).
    + unfold frame, m2. cbn [set_esz set_hp hp mtx rowi coli busy edat esz]. assert (Hm := sh_mono _ _ Hb). split; [congruence|]. split; [|split; [congruence|split; [|split; [congruence|split; [|split; [congruence|split; [|split; [congruence|lia]]]]]]]].
      * intros c H1 H2. rewrite Bh. { rewrite Fh1 by (unfold u1; lia). now apply Fh. }
        intros r n k i Hr Hq Hk Hi X. specialize (Hin r n k (s + i)%nat Hr Hq Hk). lia.
      * intros c Hc. rewrite Fm1 by lia. now apply Fm.
      * intros c Hc. rewrite Fr1 by lia. now apply Fr.
      * intros c Hc. rewrite Fc1 by lia. now apply Fc.
    + unfold max_of. lia.
    + intros r n k i Hr Hq Hk Hi. unfold m2. cbn [set_esz set_hp hp]. destruct (Nat.lt_ge_cases i s) as [H1|H1]; [|destruct (Nat.lt_ge_cases i (s + snfa t)) as [H2|H2]].
      * rewrite Bh.
        -- rewrite Hsame by (specialize (Hin r n k i Hr Hq Hk Hi); lia). rewrite Hv by assumption. destruct (Nat.ltb_spec i s); [|lia]. destruct (Nat.ltb_spec i (s + snfa t)); [reflexivity|lia].
        -- intros r' n' k' i' Hr' Hq' Hk' Hi' X. apply Nat.add_cancel_l in X. apply cell4_inj in X; try lia; assumption.
      * replace i with (s + (i - s))%nat at 1 by lia. rewrite Ah by (try assumption; lia). destruct (Nat.ltb_spec i (s + snfa t)); [|lia]. destruct (Nat.ltb_spec i s); [lia|reflexivity].
      * rewrite Bh.
        -- rewrite Hsame by (specialize (Hin r n k i Hr Hq Hk Hi); lia). rewrite Hv by assumption. destruct (Nat.ltb_spec i s); [lia|]. destruct (Nat.ltb_spec i (s + snfa t)); [lia|reflexivity].
        -- intros r' n' k' i' Hr' Hq' Hk' Hi' X. apply Nat.add_cancel_l in X. apply cell4_inj in X; try lia; assumption.
    + exists m3. split.
      { cbn [uni_loop]. rewrite EQ. cbn [obind]. fold lr. destruct (Nat.leb_spec (rU lr) (esz m)) as [_|]; [|lia]. cbn [guard obind]. fold u1. rewrite E. cbn [obind fst snd]. rewrite Eh. cbn [obind]. exact E3. }
      split; [exact F3|]. intros r n k i Hr Hq Hk Hi. rewrite V3 by assumption. f_equal. unfold uv. cbn [map uni_value].
      repeat match goal with |- context [(?x <? ?y)%nat] => destruct (Nat.ltb_spec x y); try lia end; try reflexivity. f_equal. lia.
Qed.
Lemma uni_ok : forall l, l <> [] -> (forall s, In s l -> (1 <= rP (rq s))%nat) -> (forall s, In s l -> Q s = Some (rq s) /\ gspec (A s) (rq s) ex (P s) gdim (snfa s) (V s)) ->
  gspec (uni_apply f q A Q gdim (list_sum (map snfa l)) l) (uni_req gdim q f (list_sum (map snfa l)) (map rq l)) true 1 gdim (list_sum (map snfa l)) (uv l).
Proof.
  intros l Hl HP1 HA m u Hpre. set (nfa := list_sum (map snfa l)). assert (Hpre' := Hpre). destruct Hpre' as (P1 & P2 & P3 & P4 & P5 & P6 & P7). cbn [uni_req rU rE rP] in *. fold nfa in P1, P4.
  assert (HU : (q * gdim * (nfa * f) = gdim * q * f * nfa)%nat) by ring.
  assert (HP : (1 <= sum_of rP (map rq l))%nat).
  { destruct l as [|s l]; [congruence|]. unfold sum_of. cbn [map]. rewrite list_sum_cons. specialize (HP1 s (or_introl eq_refl)). lia. }
  destruct (fill_ok (q * gdim * (f * nfa)) u (fun _ => 0) (hp m)) as (h1 & E1 & L1 & A1 & B1); [lia|].
  destruct (uni_loop_ok nfa m u (gdim * q * f * nfa) l HA 0 (set_hp m h1) (fun _ _ _ _ => 0)) as (m2 & E2 & F2 & V2); try assumption; try (cbn [set_hp hp busy]; lia).
  { apply frame_hp; [apply frame_refl|exact L1|]. intros c H1 H2. apply B1. lia. }
  { intros r n k i Hr Hq Hk Hi. cbn [set_hp hp]. destruct (Nat.ltb_spec i 0); [lia|]. apply A1. assert (X := cell4_lt gdim q nfa f k n i r Hk Hq Hi Hr). lia. }
  assert (Hsh := sh_le (busy m)).
  destruct (put_start_ok m u _ (set_busy m2 (busy m + 1)) (fresh m 1) F2) as (m4 & E4 & F4 & Z1 & Z2 & H4 & B4); [reflexivity|rewrite fresh_os; lia|rewrite fresh_os; lia|].
  destruct (one_ok f q m u (uni_req gdim q f nfa (map rq l)) m4 (fresh m 1) gdim nfa (uv l)) as (m5 & E5 & B5 & Q5); auto; cbn [uni_req rU rP]; try lia.
  { intros r n k i Hr Hn Hk Hi. rewrite H4. cbn [set_busy hp]. rewrite V2 by assumption. destruct (Nat.ltb_spec i 0); [lia|]. now rewrite Nat.sub_0_r. }
  exists m5, (fresh m 1). split.
  { unfold uni_apply. fold nfa. rewrite E1. cbn [obind]. rewrite E2. cbn [obind]. rewrite E4. cbn [obind]. rewrite E5. reflexivity. }
  assert (Bm : busy m5 = (busy m + 1)%nat) by (rewrite B5, B4; reflexivity). split; [|split; [reflexivity|intros _; exact Bm]].
  replace m5 with (set_busy m5 (busy m5)) by (destruct m5; reflexivity). apply (Q5 (busy m5)). lia.
Qed.
End Uni.
End Five.
