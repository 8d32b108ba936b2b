(** Default curl and derivative, divergence of a composition. *)
From Verif Require Import Prelude RSum DirProofs2 CoreProofs SpModel CoreModel CoreSpec SpSpec SpProofs SpProofs2 SpProofs3 SpProofs4 SpProofs5.
Local Open Scope R_scope.

Lemma for_range_shift : forall {S} n a lo (b : nat -> S -> option S) s, for_range (a + lo) n b s = for_range lo n (fun i => b (a + i)%nat) s.
Proof.
  intros S n. induction n as [|n IH]; intros a lo b s; [reflexivity|]. cbn [for_range]. destruct (b (a + lo)%nat s) as [s'|]; [|reflexivity]. cbn [obind].
  rewrite <- IH. f_equal. lia.
Qed.
Lemma for_range_for : forall {S} n a (b : nat -> S -> option S) s, for_range a n b s = for_ n (fun i => b (a + i)%nat) s.
Proof. intros S n a b s. unfold for_. rewrite <- for_range_shift. now rewrite Nat.add_0_r. Qed.
Lemma for_id : forall {S} n (b : nat -> S -> option S) s, (forall i s, (i < n)%nat -> b i s = Some s) -> for_ n b s = Some s.
Proof.
  intros S n b s H. destruct (for_inv (fun _ s' => s' = s) n b s eq_refl) as (s' & E & ->); [|exact E]. intros i s' Hi ->. exists s. split; [now apply H|reflexivity].
Qed.
Definition inr (r0 r1 d : nat) : bool := ((r0 <=? d) && (d <? r1))%nat.
Lemma add_if_ok : forall r0 r1 d x c h (v : R), (inr r0 r1 d = true -> x = Some v) -> (c < length h)%nat ->
  exists h', add_if r0 r1 d x c h = Some h' /\ adds (pt c (if inr r0 r1 d then v else 0)) h h'.
Proof.
  intros r0 r1 d x c h v Hx Hc. unfold add_if. fold (inr r0 r1 d). destruct (inr r0 r1 d); [|exists h; split; [reflexivity|apply adds_id]].
  rewrite Hx by reflexivity. cbn [obind]. now apply adds_pt.
Qed.
Lemma penta_add : forall (T : nat -> Prop) Q F (I : nat -> nat) N K body tgt (w : nat -> nat -> nat -> nat -> nat -> R) h,
  (forall p r i n k, (p < Q)%nat -> (r < F)%nat -> (i < I p)%nat -> (n < N)%nat -> (k < K)%nat -> T (tgt p r i n k) /\ (tgt p r i n k < length h)%nat) ->
  (forall p r i n k p' r' i' n' k', (p < Q)%nat -> (r < F)%nat -> (i < I p)%nat -> (n < N)%nat -> (k < K)%nat -> (p' < Q)%nat -> (r' < F)%nat -> (i' < I p')%nat -> (n' < N)%nat -> (k' < K)%nat ->
     tgt p r i n k = tgt p' r' i' n' k' -> p = p' /\ r = r' /\ i = i' /\ n = n' /\ k = k') ->
  (forall p r i n k h1, (p < Q)%nat -> (r < F)%nat -> (i < I p)%nat -> (n < N)%nat -> (k < K)%nat -> agree T h h1 -> exists h2, body p r i n k h1 = Some h2 /\ adds (pt (tgt p r i n k) (w p r i n k)) h1 h2) ->
  exists h', for_ Q (fun p h => for_ F (fun r h => for_ (I p) (fun i h => for_ N (fun n h => for_ K (fun k h => body p r i n k h) h) h) h) h) h = Some h' /\ length h' = length h /\
    (forall p r i n k x, (p < Q)%nat -> (r < F)%nat -> (i < I p)%nat -> (n < N)%nat -> (k < K)%nat -> rd h (tgt p r i n k) = Some x -> rd h' (tgt p r i n k) = Some (x + w p r i n k)) /\
    (forall c, (forall p r i n k, (p < Q)%nat -> (r < F)%nat -> (i < I p)%nat -> (n < N)%nat -> (k < K)%nat -> c <> tgt p r i n k) -> rd h' c = rd h c).
Proof.
  intros T Q F I N K body tgt w h HT Hi Hb.
  assert (Z : forall p r i n k c, (p < Q)%nat -> (r < F)%nat -> (i < I p)%nat -> (n < N)%nat -> (k < K)%nat -> ~ T c -> pt (tgt p r i n k) (w p r i n k) c = 0).
  { intros p r i n k c Hp Hr Hii Hn Hk Hc. unfold pt. destruct (Nat.eqb_spec c (tgt p r i n k)) as [->|]; [|reflexivity]. exfalso. apply Hc. now apply HT. }
  destruct (for_addsT T (fun p c => Rsum F (fun r => Rsum (I p) (fun i => Rsum N (fun n => Rsum K (fun k => pt (tgt p r i n k) (w p r i n k) c))))) Q
    (fun p h => for_ F (fun r h => for_ (I p) (fun i h => for_ N (fun n h => for_ K (fun k h => body p r i n k h) h) h) h) h) h h (agree_refl _ _)) as (h' & E & L & A).
  { intros p c Hp Hc. repeat (apply Rsum_zero; intros). now apply Z. }
  { intros p h1 Hp A1. apply (for_addsT T _ _ _ h); [exact A1| |].
    { intros r c Hr Hc. repeat (apply Rsum_zero; intros). now apply Z. }
    intros r h2 Hr A2. apply (for_addsT T _ _ _ h); [exact A2| |].
    { intros i c Hii Hc. repeat (apply Rsum_zero; intros). now apply Z. }
    intros i h3 Hii A3. apply (for_addsT T _ _ _ h); [exact A3| |].
    { intros n c Hn Hc. repeat (apply Rsum_zero; intros). now apply Z. }
    intros n h4 Hn A4. apply (for_addsT T _ _ _ h); [exact A4| |].
    { intros k c Hk Hc. now apply Z. }
    intros k h5 Hk A5. now apply Hb. }
  exists h'. split; [exact E|]. split; [exact L|]. split.
  - intros p r i n k x Hp Hr Hii Hn Hk Ex. rewrite (A _ _ Ex). f_equal. f_equal.
    assert (Y : forall p' r' i' n' k', (p' < Q)%nat -> (r' < F)%nat -> (i' < I p')%nat -> (n' < N)%nat -> (k' < K)%nat -> (p' <> p \/ r' <> r \/ i' <> i \/ n' <> n \/ k' <> k) -> pt (tgt p' r' i' n' k') (w p' r' i' n' k') (tgt p r i n k) = 0).
    { intros p' r' i' n' k' Hp' Hr' Hi' Hn' Hk' Hne. unfold pt. destruct (Nat.eqb_spec (tgt p r i n k) (tgt p' r' i' n' k')) as [e|]; [|reflexivity].
      exfalso. apply Hi in e; auto. destruct e as (-> & -> & -> & -> & ->). intuition congruence. }
    rewrite (Rsum_single Q p); [|exact Hp|intros; repeat (apply Rsum_zero; intros); apply Y; auto].
    rewrite (Rsum_single F r); [|exact Hr|intros; repeat (apply Rsum_zero; intros); apply Y; auto].
    rewrite (Rsum_single (I p) i); [|exact Hii|intros; repeat (apply Rsum_zero; intros); apply Y; auto].
    rewrite (Rsum_single N n); [|exact Hn|intros; repeat (apply Rsum_zero; intros); apply Y; auto].
    rewrite (Rsum_single K k); [|exact Hk|intros; apply Y; auto 6].
    unfold pt. now rewrite Nat.eqb_refl.
  - intros c Hc. destruct (rd h c) as [x|] eqn:Ex; [|apply nth_error_None; apply nth_error_None in Ex; lia].
    rewrite (A c x Ex). f_equal. replace (Rsum Q _) with 0; [lra|]. symmetry. repeat (apply Rsum_zero; intros). unfold pt.
    destruct (Nat.eqb_spec c (tgt i i0 i1 i2 i3)) as [e|]; [|reflexivity]. exfalso. now apply (Hc i i0 i1 i2 i3).
Qed.

Section Six.
Variables f q : nat.
Notation holds := (holds f q). Notation post := (post f q). Notation gspec := (gspec f q).

(** what a loop over the parts of a matrix sees *)
Lemma holds_parts : forall m b d nf V lo hi, holds m b d nf V lo hi ->
  exists (R0 C0 rw cl of : nat -> nat),
    (forall p, (p < np b)%nat -> rd (coli m) (os b + p) = Some (C0 p) /\ rd (coli m) (os b + p + 1) = Some (C0 p + cl p)%nat /\
       rd (rowi m) (os b + p) = Some (R0 p) /\ rd (rowi m) (os b + p + 1) = Some (R0 p + rw p)%nat /\ rd (mtx m) (od b + p) = Some (of p, q * rw p)%nat) /\
    (forall p, (p < np b)%nat -> (R0 p + rw p <= d /\ C0 p + cl p <= nf)%nat) /\
    (forall i, (i < nf)%nat -> exists p, (p < np b)%nat /\ (C0 p <= i < C0 p + cl p)%nat) /\
    (forall p p' i i', (p < np b)%nat -> (p' < np b)%nat -> (i < cl p)%nat -> (i' < cl p')%nat -> (C0 p + i = C0 p' + i')%nat -> p = p' /\ i = i') /\
    (forall p r n i, (p < np b)%nat -> (r < f)%nat -> (n < q)%nat -> (i < cl p)%nat ->
       (forall h k, (forall c, (lo <= c < hi)%nat -> rd h c = rd (hp m) c) -> (k < rw p)%nat -> vrd h (of p, q * rw p)%nat (k + rw p * n) (i + cl p * r) = Some (V r n (R0 p + k)%nat (C0 p + i)%nat)) /\
       (forall k, (k < d)%nat -> ~ (R0 p <= k < R0 p + rw p)%nat -> V r n k (C0 p + i)%nat = 0)).
Proof.
  intros m b d nf V lo hi (bl & L & N & Er & Ec & Hv & Hr & Hc & Hh & Hi).
  exists (fun p => rows (firstn p bl)), (fun p => cols (firstn p bl)), (fun p => b_rw (bk bl p)), (fun p => b_cl (bk bl p)), (fun p => b_off (bk bl p)).
  assert (Ep : forall p, (p < np b)%nat -> nth_error bl p = Some (bk bl p)) by (intros p Hp; apply bk_at; lia).
  split; [|split; [|split; [|split]]].
  - intros p Hp. specialize (Ep p Hp). rewrite <- !Nat.add_assoc, (Nat.add_1_r p). rewrite (Hc p), (Hc (S p)), (Hr p), (Hr (S p)) by lia. rewrite (cols_S _ _ _ Ep), (rows_S _ _ _ Ep). rewrite (Hv p _ Ep). auto.
  - intros p Hp. specialize (Ep p Hp). rewrite <- Er, <- Ec. split; [now apply rows_at|now apply cols_at].
  - intros i Hii. destruct (col_block bl i ltac:(lia)) as (p & b' & E' & Hb). assert (Hp : (p < length bl)%nat) by (apply nth_error_Some; congruence).
    rewrite (Ep p ltac:(lia)) in E'. apply Some_inj' in E'. subst b'. exists p. split; [lia|exact Hb].
  - intros p p' i i' Hp Hp' Hii Hii' E. apply (col_unique bl); try assumption; lia.
  - intros p r n i Hp Hr' Hn Hii. specialize (Ep p Hp). destruct (Hh p _ Ep r n i Hr' Hn Hii) as [X Y]. split.
    + intros h k Hf Hk. rewrite <- (X k Hk). unfold vrd. cbn [fst snd]. fold (cell q (bk bl p) r n k i). apply Hf.
      assert (Z := cell_in f q (bk bl p) r n k i Hr' Hn Hk Hii). destruct (Hi p _ Ep). lia.
    + intros k Hk. apply Y. lia.
Qed.

(** *** BaseFemSpace::applyCURL *)
Lemma def_curl_ok : forall G g ex P nf V, gspec G g ex P 9 nf V -> (1 <= rP g)%nat ->
  gspec (def_curl f q G g nf) (over_req (3 * q * f * nf) g) true 1 3 nf (from_grad CURL V).
Proof.
  intros G g ex P nf V HG HrP m u Hpre. destruct (work_ok f q G g ex P 9 nf V m u _ HG Hpre) as (m1 & b & E & Fr & Od & Os & HP & Hle & _ & H); [cbn; lia|cbn; lia|].
  unfold def_curl. rewrite E. cbn [obind fst snd].
  destruct (holds_parts _ _ _ _ _ _ _ H) as (R0 & C0 & rw & cl & of & Hrd & Hle2 & Hcov & Huniq & Hval).
  assert (Hpre' := Hpre). destruct Hpre' as (P1 & P2 & P3 & P4 & P5 & P6 & P7). cbn [over_req rU rE rP] in *. assert (Hl := proj1 Fr).
  destruct (fill_ok (q * 3 * (f * nf)) u (fun _ => 0) (hp m1)) as (h1 & E1 & L1 & A1 & B1); [lia|]. rewrite E1. cbn [obind].
  set (da k := nth k [7; 2; 3]%nat 0%nat). set (db k := nth k [5; 6; 1]%nat 0%nat).
  assert (Hab : forall k, (k < 3)%nat -> (da k < 9 /\ db k < 9 /\ da k <> 0 /\ da k <> 4 /\ da k <> 8 /\ db k <> 0 /\ db k <> 4 /\ db k <> 8)%nat) by (intros [|[|[|k]]] Hk; cbn; lia).
  set (tgt := fun p r i n k => (u + ((k + 3 * n) + q * 3 * (C0 p + i + nf * r)))%nat).
  assert (Hin : forall r i n k, (r < f)%nat -> (i < nf)%nat -> (n < q)%nat -> (k < 3)%nat -> ((k + 3 * n) + q * 3 * (i + nf * r) < 3 * q * f * nf)%nat).
  { intros r i n k Hr Hi Hn Hk. assert (X := cell4_lt 3 q nf f k n i r Hk Hn Hi Hr). lia. }
  set (body := fun p r i n k h => do h <- add_if (R0 p) (R0 p + rw p) (da k) (vrd h (of p, q * rw p)%nat (da k - R0 p + rw p * n) (i + cl p * r)) (tgt p r i n k) h;
      add_if (R0 p) (R0 p + rw p) (db k) (option_map Ropp (vrd h (of p, q * rw p)%nat (db k - R0 p + rw p * n) (i + cl p * r))) (tgt p r i n k) h).
  destruct (penta_add (fun c => u <= c < u + 3 * q * f * nf)%nat (np b) f cl q 3 body tgt
    (fun p r i n k => V r n (da k) (C0 p + i)%nat - V r n (db k) (C0 p + i)%nat) h1) as (h2 & E2 & L2 & A2 & B2).
  { intros p r i n k Hp Hr Hi Hn Hk. destruct (Hle2 p Hp). assert (X := Hin r (C0 p + i)%nat n k Hr ltac:(lia) Hn Hk). unfold tgt. lia. }
  { intros p r i n k p' r' i' n' k' Hp Hr Hi Hn Hk Hp' Hr' Hi' Hn' Hk' X. unfold tgt in X. apply Nat.add_cancel_l in X. destruct (Hle2 p Hp). destruct (Hle2 p' Hp').
    apply cell4_inj in X; try lia. destruct X as (-> & -> & X & ->). destruct (Huniq p p' i i') as [-> ->]; auto. }
  { intros p r i n k h3 Hp Hr Hi Hn Hk Ha. unfold body. destruct (Hab k Hk) as (K1 & K2 & _). destruct (Hval p r n i Hp Hr Hn Hi) as [X Y]. destruct (Hle2 p Hp).
    assert (Hwork : forall h4, agree (fun c => u <= c < u + 3 * q * f * nf)%nat h1 h4 -> forall c, (edat m + (esz m - rU g) <= c < edat m + esz m)%nat -> rd h4 c = rd (hp m1) c).
    { intros h4 (_ & A4) c Hc. rewrite A4 by lia. apply B1. lia. }
    assert (Hv : forall h4 d, agree (fun c => u <= c < u + 3 * q * f * nf)%nat h1 h4 -> (d < 9)%nat -> inr (R0 p) (R0 p + rw p) d = true ->
      vrd h4 (of p, q * rw p)%nat (d - R0 p + rw p * n) (i + cl p * r) = Some (V r n d (C0 p + i)%nat)).
    { intros h4 d A4 Hd Hin'. unfold inr in Hin'. apply andb_true_iff in Hin'. destruct Hin' as [I1 I2]. apply Nat.leb_le in I1. apply Nat.ltb_lt in I2.
      rewrite (X h4 (d - R0 p)%nat (Hwork h4 A4)) by lia. f_equal. f_equal. lia. }
    assert (Hz : forall d, (d < 9)%nat -> (if inr (R0 p) (R0 p + rw p) d then V r n d (C0 p + i)%nat else 0) = V r n d (C0 p + i)%nat).
    { intros d Hd. destruct (inr (R0 p) (R0 p + rw p) d) eqn:Ei; [reflexivity|]. symmetry. apply Y; [exact Hd|]. intros [I1 I2]. unfold inr in Ei.
      destruct (Nat.leb_spec (R0 p) d); [|lia]. destruct (Nat.ltb_spec d (R0 p + rw p)); [discriminate|lia]. }
    assert (Hlt : (tgt p r i n k < length h3)%nat).
    { rewrite (proj1 Ha). assert (Z := Hin r (C0 p + i)%nat n k Hr ltac:(lia) Hn Hk). unfold tgt. lia. }
    destruct (add_if_ok (R0 p) (R0 p + rw p) (da k) _ (tgt p r i n k) h3 _ (fun e => Hv h3 (da k) Ha K1 e) Hlt) as (h4 & E4 & A4). rewrite E4. cbn [obind].
    assert (Ha4 : agree (fun c => u <= c < u + 3 * q * f * nf)%nat h1 h4).
    { apply (agree_trans _ _ h3); [exact Ha|]. apply (agree_adds _ _ _ _ A4). intros c Hc. unfold pt. destruct (Nat.eqb_spec c (tgt p r i n k)) as [->|]; [|reflexivity].
      exfalso. apply Hc. assert (Z := Hin r (C0 p + i)%nat n k Hr ltac:(lia) Hn Hk). unfold tgt. lia. }
    destruct (add_if_ok (R0 p) (R0 p + rw p) (db k) (option_map Ropp (vrd h4 (of p, q * rw p)%nat (db k - R0 p + rw p * n) (i + cl p * r))) (tgt p r i n k) h4 (- V r n (db k) (C0 p + i)%nat)) as (h5 & E5 & A5).
    { intros e. rewrite (Hv h4 (db k) Ha4 K2 e). reflexivity. }
    { rewrite (proj1 A4). exact Hlt. }
    exists h5. split; [exact E5|]. apply (adds_ext _ _ _ _ (adds_trans _ _ _ _ _ A4 A5)). intros c. unfold pt. destruct (c =? tgt p r i n k)%nat; [|lra].
    rewrite Hz by exact K1. assert (Z := Hz (db k) K2). destruct (inr (R0 p) (R0 p + rw p) (db k)); lra. }
  match goal with |- context [obind (for_ (np b) ?bd h1) _] => replace (for_ (np b) bd h1) with (Some h2) end.
  2:{ rewrite <- E2. apply GeoProofs2.for_ext. intros p h3 Hp. destruct (Hrd p Hp) as (X1 & X2 & X3 & X4 & X5). rewrite X1, X2, X3, X4, X5. cbn [obind].
      replace (C0 p + cl p - C0 p)%nat with (cl p) by lia. replace (R0 p + rw p - R0 p)%nat with (rw p) by lia.
      assert (Heq : for_ f (fun r h => for_ (cl p) (fun i h => for_ q (fun n h => for_ 3 (fun k h => body p r i n k h) h) h) h) h3 =
        for_ f (fun r h => for_range (C0 p) (cl p) (fun i h => for_ q (fun n h => for_ 3 (fun k h =>
      do da <- rd dlookup (2 * k); do db <- rd dlookup (2 * k + 1);
      let c := (u + ((k + 3 * n) + q * 3 * (i + nf * r)))%nat in
      do h <- add_if (R0 p) (R0 p + rw p) da (vrd h (of p, q * rw p)%nat (da - R0 p + rw p * n) ((i - C0 p) + cl p * r)) c h;
      add_if (R0 p) (R0 p + rw p) db (option_map Ropp (vrd h (of p, q * rw p)%nat (db - R0 p + rw p * n) ((i - C0 p) + cl p * r))) c h) h) h) h) h3).
      { apply GeoProofs2.for_ext. intros r h4 _. rewrite for_range_for. apply GeoProofs2.for_ext. intros i h5 _. apply GeoProofs2.for_ext. intros n h6 _. apply GeoProofs2.for_ext. intros k h7 Hk.
        replace (C0 p + i - C0 p)%nat with i by lia. destruct k as [|[|[|k]]]; [reflexivity|reflexivity|reflexivity|lia]. }
      destruct ((1 <? rw p) || negb ((R0 p =? 0) || (R0 p =? 4) || (R0 p =? 8)))%nat eqn:Ec; [exact Heq|].
      apply orb_false_iff in Ec. destruct Ec as [Ec1 Ec2]. apply Nat.ltb_ge in Ec1. apply negb_false_iff in Ec2. rewrite !orb_true_iff in Ec2. rewrite !Nat.eqb_eq in Ec2.
      apply for_id. intros r h4 _. apply for_id. intros i h5 _. apply for_id. intros n h6 _. apply for_id. intros k h7 Hk. unfold body.
      destruct (Hab k Hk) as (K1 & K2 & K3 & K4 & K5 & K6 & K7 & K8). clearbody da db.
      assert (Hno : forall d, (d <> 0 /\ d <> 4 /\ d <> 8)%nat -> ((R0 p <=? d) && (d <? R0 p + rw p))%nat = false).
      { intros d Hd. destruct (Nat.leb_spec (R0 p) d); [|reflexivity]. destruct (Nat.ltb_spec d (R0 p + rw p)); [lia|reflexivity]. }
      unfold add_if. rewrite Hno by auto. cbn [obind]. rewrite Hno by auto. reflexivity. }
  cbn [obind].
  assert (Hnp := holds_np _ _ _ _ _ _ _ _ _ H).
  assert (Hz : rd (rowi m1) (os b) = Some 0%nat /\ rd (coli m1) (os b) = Some 0%nat).
  { destruct H as (bl & _ & _ & _ & _ & _ & Hr & Hc & _). specialize (Hr 0%nat ltac:(lia)). specialize (Hc 0%nat ltac:(lia)). rewrite Nat.add_0_r in Hr, Hc. auto. }
  destruct (one_ok f q m u (over_req (3 * q * f * nf) g) (set_hp m1 h2) b 3 nf (from_grad CURL V)) as (m3 & E3 & B3 & Q3); auto; cbn [over_req rU rE rP]; try lia.
  { apply frame_hp; [apply (frame_weak _ _ 0); [exact Fr|lia]|congruence|]. intros c H1 H2. rewrite B2; [apply B1; lia|]. intros p r i n k Hp Hr Hi Hn Hk. destruct (Hle2 p Hp).
    assert (Y := Hin r (C0 p + i)%nat n k Hr ltac:(lia) Hn Hk). unfold tgt. lia. }
  { exact (proj1 Hz). } { exact (proj2 Hz). }
  { intros r n k i Hr Hn Hk Hi. cbn [set_hp hp]. destruct (Hcov i Hi) as (p & Hp & Hpi).
    replace (u + (k + 3 * n + q * 3 * (i + nf * r)))%nat with (tgt p r (i - C0 p)%nat n k) by (unfold tgt; replace (C0 p + (i - C0 p))%nat with i by lia; reflexivity).
    rewrite (A2 p r (i - C0 p)%nat n k 0); try assumption; try lia.
    - f_equal. replace (C0 p + (i - C0 p))%nat with i by lia. unfold from_grad. destruct k as [|[|[|k]]]; cbn; try lra. lia.
    - unfold tgt. replace (C0 p + (i - C0 p))%nat with i by lia. apply A1. specialize (Hin r i n k Hr Hi Hn Hk). lia. }
  rewrite E3. cbn [obind]. exists (set_busy m3 (busy m + 1)), {| np := 1; od := od b; os := os b |}. split; [reflexivity|].
  split; [apply Q3; lia|]. split; [reflexivity|]. reflexivity.
Qed.

(** *** BaseFemSpace::applyDUDX, one part *)
Lemma def_dudx_ok : forall G g ex c dd nf V, (c < 3)%nat -> (1 <= dd)%nat -> (1 <= rP g)%nat -> gspec G g ex 1 (dd * 3) nf V ->
  gspec (def_dudx f q G g c) (over_req (Nat.min (dd * q * f * nf) (rU g)) g) true 1 dd nf (from_grad (DUDX c) V).
Proof.
  intros G g ex c dd nf V Hc Hdd HrP HG m u Hpre. destruct (work_ok f q G g ex 1 (dd * 3) nf V m u _ HG Hpre) as (m1 & b & E & Fr & Od & Os & HP & Hle & _ & H); [cbn; lia|cbn; lia|].
  unfold def_dudx. rewrite E. cbn [obind fst snd]. rewrite HP, for_1.
  destruct (holds_view _ _ _ _ _ _ _ _ _ H HP) as (o & Ev & Ho1 & Ho2 & Z1 & Z2 & Hval). destruct (ends _ _ _ _ _ _ _ _ _ H) as [Ec Er]. rewrite HP in Ec, Er.
  assert (Hpre' := Hpre). destruct Hpre' as (P1 & P2 & P3 & P4 & P5 & P6 & P7). cbn [over_req rU rE rP] in *. assert (Hl := proj1 Fr).
  assert (HU : (Nat.min (dd * q * f * nf) (rU g) = dd * q * f * nf)%nat) by (apply Nat.min_l; nia). rewrite HU in *.
  cbv beta zeta. rewrite !Nat.add_0_r. rewrite Ec, Er, Z1, Z2. cbn [obind]. rewrite Ev. cbn [obind].
  assert (D1 : align_ge (Z.of_nat c) (Z.of_nat 0) = Z.of_nat c).
  { unfold align_ge. change (Z.of_nat 0 mod 3)%Z with 0%Z. destruct (Z.leb_spec 0 (Z.of_nat c)); [|lia]. change (Z.of_nat 0 / 3)%Z with 0%Z. lia. }
  assert (D2 : align_le (Z.of_nat c) (Z.of_nat (dd * 3) - 1) = (3 * (Z.of_nat dd - 1) + Z.of_nat c)%Z).
  { unfold align_le. assert (Hdm : (Z.of_nat (dd * 3) - 1 = 3 * (Z.of_nat dd - 1) + 2)%Z) by lia.
    assert (X1 : ((Z.of_nat (dd * 3) - 1) mod 3 = 2)%Z) by (symmetry; apply (Z.mod_unique _ _ (Z.of_nat dd - 1)); lia).
    assert (X2 : ((Z.of_nat (dd * 3) - 1) / 3 = Z.of_nat dd - 1)%Z) by (symmetry; apply (Z.div_unique _ _ _ 2); lia).
    rewrite X1, X2. destruct (Z.ltb_spec 2 (Z.of_nat c)); lia. }
  rewrite D1, D2. destruct (Z.leb_spec (Z.of_nat c) (3 * (Z.of_nat dd - 1) + Z.of_nat c)) as [_|]; [|lia].
  replace ((3 * (Z.of_nat dd - 1) + Z.of_nat c - Z.of_nat c) / 3)%Z with (Z.of_nat dd - 1)%Z by (apply (Z.div_unique _ _ _ 0); lia).
  replace (Z.to_nat (Z.of_nat dd - 1) + 1)%nat with dd by lia. rewrite Nat2Z.id, !Nat.sub_0_r. destruct (Nat.ltb_spec 0 dd) as [_|]; [|lia].
  assert (Hin : forall r i n k, (r < f)%nat -> (i < nf)%nat -> (n < q)%nat -> (k < dd)%nat -> ((k + dd * n) + q * dd * (i + nf * r) < dd * q * f * nf)%nat).
  { intros r i n k Hr Hi Hn Hk. assert (X := cell4_lt dd q nf f k n i r Hk Hn Hi Hr). lia. }
  destruct (quad_wr (fun y => u <= y < u + dd * q * f * nf)%nat f nf q dd
    (fun r i n id h => do x <- vrd h (o, q * (dd * 3))%nat (c + 3 * id + dd * 3 * n) (i + nf * r); wr h (u + ((id + dd * n) + q * dd * (i + nf * r))) x)
    (fun r i n id => u + ((id + dd * n) + q * dd * (i + nf * r)))%nat (fun r i n id => V r n (3 * id + c)%nat i) (hp m1)) as (h2 & E2 & L2 & A2 & B2).
  { intros r i n k Hr Hi Hn Hk. specialize (Hin r i n k Hr Hi Hn Hk). lia. }
  { intros r i n k r' i' n' k' Hr Hi Hn Hk Hr' Hi' Hn' Hk' X. apply Nat.add_cancel_l in X. apply cell4_inj in X; try assumption. destruct X as (-> & -> & -> & ->). reflexivity. }
  { intros r i n k h3 Hr Hi Hn Hk (_ & Ha). rewrite (Nat.add_comm c). rewrite (Hval h3 r n (3 * k + c)%nat i); try lia; [reflexivity|]. intros y Hy. apply Ha. lia. }
  rewrite E2. cbn [obind].
  destruct (one_ok f q m u (over_req (dd * q * f * nf) g) (set_hp m1 h2) b dd nf (from_grad (DUDX c) V)) as (m3 & E3 & B3 & Q3); auto; cbn [over_req rU rE rP]; try lia.
  { apply frame_hp; [apply (frame_weak _ _ 0); [exact Fr|lia]|congruence|]. intros y H1 H2. apply B2. intros r i n k Hr Hi Hn Hk. specialize (Hin r i n k Hr Hi Hn Hk). lia. }
  { intros r n k i Hr Hn Hk Hi. cbn [set_hp hp]. now apply (A2 r i n k). }
  rewrite !Nat.add_0_r. unfold put_part in E3. cbn [set_hp mtx rowi coli] in E3.
  destruct (wr (mtx m1) (od b) (u, (q * dd)%nat)) as [x|]; [|discriminate]. cbn [obind] in *.
  destruct (wr (rowi m1) (os b + 1) dd) as [r|]; [|discriminate]. cbn [obind] in *.
  destruct (wr (coli m1) (os b + 1) nf) as [y|]; [|discriminate]. cbn [obind] in *.
  apply Some_inj' in E3. exists (set_busy m3 (busy m + 1)), {| np := 1; od := od b; os := os b |}. split; [rewrite <- E3; reflexivity|].
  split; [apply Q3; lia|]. split; reflexivity.
Qed.

(** *** ComplexFemSpace::applyDIV *)
(** [cov m u n m' s nf W]: the columns s, ..., s + nf - 1 of the scalar matrix at u were set to W *)
Definition cov (nfa : nat) (m : mem) (u : nat) (m' : mem) (s nf : nat) (W : nat -> nat -> nat -> R) : Prop :=
  (forall r n i, (r < f)%nat -> (n < q)%nat -> (i < nf)%nat -> rd (hp m') (u + (n + q * (s + i + nfa * r))) = Some (W r n i)) /\
  (forall r n i, (r < f)%nat -> (n < q)%nat -> (i < nfa)%nat -> ~ (s <= i < s + nf)%nat -> rd (hp m') (u + (n + q * (i + nfa * r))) = rd (hp m) (u + (n + q * (i + nfa * r)))).
Lemma cell3_inj : forall nf n i r n' i' r', (n < q)%nat -> (i < nf)%nat -> (n' < q)%nat -> (i' < nf)%nat -> (n + q * (i + nf * r) = n' + q * (i' + nf * r'))%nat -> n = n' /\ i = i' /\ r = r'.
Proof.
  intros nf n i r n' i' r' Hn Hi Hn' Hi' E. apply cell_inj in E; try assumption. destruct E as [-> E]. apply cell_inj in E; try assumption. destruct E as [-> ->]. auto.
Qed.
Lemma cell3_lt : forall nf n i r, (n < q)%nat -> (i < nf)%nat -> (r < f)%nat -> (n + q * (i + nf * r) < q * f * nf)%nat.
Proof. intros nf n i r Hn Hi Hr. assert (X := cell_lt nf f i r Hi Hr). assert (Y := cell_lt q _ n _ Hn X). lia. Qed.

Definition partspec (m : mem) (u nfa : nat) (m' : mem) (s nf : nat) (W : nat -> nat -> nat -> R) : Prop :=
  frame m u (q * f * nfa) m' /\ busy m' = busy m /\ rd (rowi m') (busy m + sh (busy m)) = Some 0%nat /\ rd (coli m') (busy m + sh (busy m)) = Some 0%nat /\ cov nfa m u m' s nf W.
Lemma holds_zero : forall m b d nf V lo hi, holds m b d nf V lo hi -> rd (rowi m) (os b) = Some 0%nat /\ rd (coli m) (os b) = Some 0%nat.
Proof.
  intros m b d nf V lo hi (bl & _ & _ & _ & _ & _ & Hr & Hc & _). specialize (Hr 0%nat ltac:(lia)). specialize (Hc 0%nat ltac:(lia)). rewrite Nat.add_0_r in Hr, Hc. auto.
Qed.
Lemma div_part_ok : forall D g ex nf V m u lr nfa s, gspec D g ex 1 1 nf V -> pre m u lr -> rU lr = (q * f * nfa)%nat -> (rE g + rU g <= rE lr)%nat -> (rP g <= rP lr)%nat -> (s + nf <= nfa)%nat ->
  exists m', div_part f q D g nfa s nf u m = Some m' /\ partspec m u nfa m' s nf (fun r n i => V r n 0%nat i).
Proof.
  intros D g ex nf V m u lr nfa s HG Hpre HU HE HrP Hs. destruct (work_ok f q D g ex 1 1 nf V m u _ HG Hpre HE HrP) as (m1 & b & E & Fr & Od & Os & HP & Hle & _ & H).
  destruct Hpre as (P1 & P2 & P3 & P4 & P5 & P6 & P7). assert (Hl := proj1 Fr). rewrite HU in *.
  destruct (holds_view _ _ _ _ _ _ _ _ _ H HP) as (o & Ev & Ho1 & Ho2 & Z1 & Z2 & Hval).
  destruct (tri_wr (fun c => u <= c < u + q * f * nfa)%nat f nf q (fun r i n h => do x <- vrd h (o, q * 1)%nat n (i + nf * r); wr h (u + (n + q * (s + i + nfa * r))) x)
    (fun r i n => u + (n + q * (s + i + nfa * r)))%nat (fun r i n => V r n 0%nat i) (hp m1)) as (h2 & E2 & L2 & A2 & B2).
  { intros r i n Hr Hi Hn. assert (X := cell3_lt nfa n (s + i) r Hn ltac:(lia) Hr). lia. }
  { intros r i n r' i' n' Hr Hi Hn Hr' Hi' Hn' X. apply Nat.add_cancel_l in X. apply cell3_inj in X; try assumption; try lia. destruct X as (-> & X & ->). assert (i = i') by lia. now subst. }
  { intros r i n h1 Hr Hi Hn (_ & Ha). assert (X := Hval h1 r n 0%nat i). cbn [Nat.add] in X. rewrite Nat.mul_1_l in X. rewrite X; try assumption; try lia; [reflexivity|]. intros c Hc. apply Ha. lia. }
  exists (set_busy (set_hp m1 h2) (busy m)). split.
  { unfold div_part. rewrite E. cbn [obind fst snd]. rewrite HP. cbn [Nat.eqb guard obind]. rewrite Ev. cbn [obind]. unfold copy_scalar. rewrite E2. reflexivity. }
  assert (Hh : frame m u (q * f * nfa) (set_hp m1 h2)).
  { apply frame_hp; [apply (frame_weak _ _ 0); [exact Fr|lia]|exact L2|]. intros c H1 H2. apply B2. intros r i n Hr Hi Hn. assert (X := cell3_lt nfa n (s + i) r Hn ltac:(lia) Hr). lia. }
  split; [exact Hh|]. split; [reflexivity|]. cbn [set_busy set_hp rowi coli hp]. rewrite Os in Z1, Z2. split; [exact Z1|]. split; [exact Z2|]. split; cbn [set_busy set_hp hp].
  - intros r n i Hr Hn Hi. now apply A2.
  - intros r n i Hr Hn Hi Hne. rewrite B2.
    + apply (proj1 (proj2 Fr)); [lia|]. assert (X := cell3_lt nfa n i r Hn Hi Hr). lia.
    + intros r' i' n' Hr' Hi' Hn' X. apply Nat.add_cancel_l in X. apply cell3_inj in X; try assumption; lia.
Qed.
Lemma div_pair_ok : forall G g ex P nf V m u lr nfa s ds, gspec G g ex P 6 nf V -> pre m u lr -> rU lr = (q * f * nfa)%nat -> (rE g + rU g <= rE lr)%nat -> (rP g <= rP lr)%nat -> (s + nf <= nfa)%nat -> (ds <= 1)%nat ->
  (forall r n i, (r < f)%nat -> (n < q)%nat -> (i < nf)%nat -> rd (hp m) (u + (n + q * (s + i + nfa * r))) = Some 0) ->
  exists m', div_pair f q G g nfa s ds u m = Some m' /\ partspec m u nfa m' s nf (fun r n i => V r n ds i + V r n (ds + 4)%nat i).
Proof.
  intros G g ex P nf V m u lr nfa s ds HG Hpre HU HE HrP Hs Hds Hz0. destruct (work_ok f q G g ex P 6 nf V m u _ HG Hpre HE HrP) as (m1 & b & E & Fr & Od & Os & HP & Hle & _ & H).
  destruct Hpre as (P1 & P2 & P3 & P4 & P5 & P6 & P7). assert (Hl := proj1 Fr). rewrite HU in *.
  destruct (holds_parts _ _ _ _ _ _ _ H) as (R0 & C0 & rw & cl & of & Hrd & Hle2 & Hcov & Huniq & Hval).
  set (T := fun c => (u <= c < u + q * f * nfa)%nat).
  set (tgt := fun p r i n (_ : nat) => (u + (n + q * (s + (C0 p + i) + nfa * r)))%nat).
  set (body := fun p r i n (_ : nat) h => for_ 2 (fun k h => add_if (R0 p) (R0 p + rw p) (ds + 4 * k) (vrd h (of p, q * rw p)%nat (ds + 4 * k - R0 p + rw p * n) (i + cl p * r)) (tgt p r i n 0%nat) h) h).
  assert (Hin : forall r i n, (r < f)%nat -> (i < nfa)%nat -> (n < q)%nat -> (n + q * (i + nfa * r) < q * f * nfa)%nat) by (intros; now apply cell3_lt).
  destruct (penta_add T (np b) f cl q 1 body tgt (fun p r i n _ => V r n ds (C0 p + i)%nat + V r n (ds + 4)%nat (C0 p + i)%nat) (hp m1)) as (h2 & E2 & L2 & A2 & B2).
  { intros p r i n k Hp Hr Hi Hn Hk. destruct (Hle2 p Hp). assert (X := Hin r (s + (C0 p + i))%nat n Hr ltac:(lia) Hn). unfold tgt, T. lia. }
  { intros p r i n k p' r' i' n' k' Hp Hr Hi Hn Hk Hp' Hr' Hi' Hn' Hk' X. unfold tgt in X. apply Nat.add_cancel_l in X. destruct (Hle2 p Hp). destruct (Hle2 p' Hp').
    apply cell3_inj in X; try lia. destruct X as (-> & X & ->). destruct (Huniq p p' i i') as [-> ->]; auto; lia. }
  { intros p r i n k h3 Hp Hr Hi Hn Hk Ha. unfold body. destruct (Hval p r n i Hp Hr Hn Hi) as [X Y]. destruct (Hle2 p Hp).
    assert (Hlt : (tgt p r i n 0%nat < length (hp m1))%nat /\ T (tgt p r i n 0%nat)). { assert (Z := Hin r (s + (C0 p + i))%nat n Hr ltac:(lia) Hn). unfold tgt, T. lia. } destruct Hlt as [Hlt HT].
    destruct (for_addsT T (fun kk => pt (tgt p r i n 0%nat) (V r n (ds + 4 * kk)%nat (C0 p + i)%nat)) 2 (fun k h => add_if (R0 p) (R0 p + rw p) (ds + 4 * k) (vrd h (of p, q * rw p)%nat (ds + 4 * k - R0 p + rw p * n) (i + cl p * r)) (tgt p r i n 0%nat) h) (hp m1) h3 Ha) as (h4 & E4 & A4).
    { intros j c _ Hc. unfold pt. destruct (Nat.eqb_spec c (tgt p r i n 0%nat)) as [->|]; [contradiction|reflexivity]. }
    { intros kk h4 Hkk A4. set (d := (ds + 4 * kk)%nat). assert (Hd : (d < 6)%nat) by (unfold d; lia).
      destruct (add_if_ok (R0 p) (R0 p + rw p) d (vrd h4 (of p, q * rw p)%nat (d - R0 p + rw p * n) (i + cl p * r)) (tgt p r i n 0%nat) h4 (V r n d (C0 p + i)%nat)) as (h5 & E5 & A5).
      - intros e. unfold inr in e. apply andb_true_iff in e. destruct e as [I1 I2]. apply Nat.leb_le in I1. apply Nat.ltb_lt in I2.
        rewrite (X h4 (d - R0 p)%nat); [f_equal; f_equal; lia| |lia]. intros c Hc. apply (proj2 A4). unfold T. lia.
      - rewrite (proj1 A4). exact Hlt.
      - exists h5. split; [exact E5|]. apply (adds_ext _ _ _ _ A5). intros c. unfold pt. destruct (c =? tgt p r i n 0%nat)%nat; [|reflexivity].
        destruct (inr (R0 p) (R0 p + rw p) d) eqn:Ei; [reflexivity|]. symmetry. apply Y; [exact Hd|]. intros [I1 I2]. unfold inr in Ei.
        destruct (Nat.leb_spec (R0 p) d); [|lia]. destruct (Nat.ltb_spec d (R0 p + rw p)); [discriminate|lia]. }
    exists h4. split; [exact E4|]. apply (adds_ext _ _ _ _ A4). intros c. rewrite pt_sum. unfold tgt. cbn [Rsum]. rewrite Nat.mul_0_r, Nat.add_0_r. change (4 * 1)%nat with 4%nat. unfold pt. destruct (c =? _)%nat; lra. }
  exists (set_busy (set_hp m1 h2) (busy m)). split.
  { unfold div_pair. rewrite E. cbn [obind fst snd].
    match goal with |- context [obind (for_ (np b) ?bd (hp m1)) _] => replace (for_ (np b) bd (hp m1)) with (Some h2) end; [reflexivity|].
    rewrite <- E2. apply GeoProofs2.for_ext. intros p h3 Hp. destruct (Hrd p Hp) as (X1 & X2 & X3 & X4 & X5). rewrite X1, X2, X3, X4, X5. cbn [obind].
    replace (C0 p + cl p - C0 p)%nat with (cl p) by lia. replace (R0 p + rw p - R0 p)%nat with (rw p) by lia.
    apply GeoProofs2.for_ext. intros r h4 _. rewrite for_range_for. apply GeoProofs2.for_ext. intros i h5 _. apply GeoProofs2.for_ext. intros n h6 _. rewrite for_1. unfold body.
    apply GeoProofs2.for_ext. intros k h7 Hk. replace (C0 p + i - C0 p)%nat with i by lia. reflexivity. }
  assert (Hh : frame m u (q * f * nfa) (set_hp m1 h2)).
  { apply frame_hp; [apply (frame_weak _ _ 0); [exact Fr|lia]|exact L2|]. intros c H1 H2. apply B2. intros p r i n k Hp Hr Hi Hn Hk. destruct (Hle2 p Hp). assert (X := Hin r (s + (C0 p + i))%nat n Hr ltac:(lia) Hn). unfold tgt. lia. }
  destruct (holds_zero _ _ _ _ _ _ _ H) as [Z1 Z2]. rewrite Os in Z1, Z2.
  assert (Hsame : forall r n i, (r < f)%nat -> (n < q)%nat -> (i < nfa)%nat -> rd (hp m1) (u + (n + q * (i + nfa * r))) = rd (hp m) (u + (n + q * (i + nfa * r)))).
  { intros r n i Hr Hn Hi. apply (proj1 (proj2 Fr)); [lia|]. assert (X := Hin r i n Hr Hi Hn). lia. }
  split; [exact Hh|]. split; [reflexivity|]. cbn [set_busy set_hp rowi coli hp]. split; [exact Z1|]. split; [exact Z2|]. split; cbn [set_busy set_hp hp].
  - intros r n i Hr Hn Hi. destruct (Hcov i Hi) as (p & Hp & Hpi).
    assert (X := A2 p r (i - C0 p)%nat n 0%nat 0 Hp Hr ltac:(lia) Hn ltac:(lia)). unfold tgt in X. replace (C0 p + (i - C0 p))%nat with i in X by lia. rewrite X.
    + f_equal. lra.
    + rewrite Hsame by (try assumption; lia). now apply Hz0.
  - intros r n i Hr Hn Hi Hne. rewrite B2; [now apply Hsame|].
    intros p r' i' n' k' Hp Hr' Hi' Hn' Hk' X. unfold tgt in X. destruct (Hle2 p Hp). apply Nat.add_cancel_l in X. apply cell3_inj in X; try assumption; lia.
Qed.
Lemma frame_trans : forall m u n m1 m2, frame m u n m1 -> busy m1 = busy m -> frame m1 u n m2 -> frame m u n m2.
Proof.
  intros m u n m1 m2 (Lh & Fh & Lm & Fm & Lr & Fr & Lc & Fc & Ee & Es) B (Lh2 & Fh2 & Lm2 & Fm2 & Lr2 & Fr2 & Lc2 & Fc2 & Ee2 & Es2). rewrite B, Ee, Es in *.
  split; [congruence|]. split; [|split; [congruence|split; [|split; [congruence|split; [|split; [congruence|split; [|split; congruence]]]]]]].
  - intros c H1 H2. rewrite Fh2 by assumption. now apply Fh.
  - intros c H1. rewrite Fm2 by assumption. now apply Fm.
  - intros c H1. rewrite Fr2 by assumption. now apply Fr.
  - intros c H1. rewrite Fc2 by assumption. now apply Fc.
Qed.
Lemma pre_frame : forall m u n m1 lr, frame m u n m1 -> busy m1 = busy m -> pre m u lr -> pre m1 u lr.
Proof.
  intros m u n m1 lr (Lh & Fh & Lm & Fm & Lr & Fr & Lc & Fc & Ee & Es) B (P1 & P2 & P3 & P4 & P5 & P6 & P7). unfold pre. rewrite Lh, Lm, Lr, Lc, Ee, Es, B. repeat split; assumption.
Qed.
Lemma div_finish_ok : forall m0 m u lr nfa V, pre m0 u lr -> rU lr = (q * f * nfa)%nat -> (1 <= rP lr)%nat -> frame m0 u (q * f * nfa) m -> busy m = busy m0 ->
  rd (rowi m) (busy m0 + sh (busy m0)) = Some 0%nat -> rd (coli m) (busy m0 + sh (busy m0)) = Some 0%nat ->
  (forall r n i, (r < f)%nat -> (n < q)%nat -> (i < nfa)%nat -> rd (hp m) (u + (n + q * (i + nfa * r))) = Some (V r n 0%nat i)) ->
  exists m' b, div_finish q m u nfa = Some (m', b) /\ post m0 u lr m' b 1 nfa V /\ np b = 1%nat.
Proof.
  intros m0 m u lr nfa V Hpre HU HP HF HB Z1 Z2 HV.
  destruct (one_ok f q m0 u lr m (fresh m 1) 1 nfa V) as (m1 & E1 & B1 & Q1); auto; try (rewrite fresh_os, HB); auto.
  - now rewrite HU.
  - rewrite HU. lia.
  - intros r n k i Hr Hn Hk Hi. assert (k = 0%nat) by lia. subst k. rewrite <- HV by assumption. f_equal. lia.
  - exists m1, (fresh m 1). unfold div_finish. rewrite Nat.mul_1_r in E1. rewrite E1. split; [reflexivity|]. split; [|reflexivity].
    replace m1 with (set_busy m1 (busy m1)) by (destruct m1; reflexivity). apply (Q1 (busy m1)). lia.
Qed.
End Six.
