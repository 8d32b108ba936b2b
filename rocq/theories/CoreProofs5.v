(** Contraction with the normal, the product with V and the whole elemental matrix. *)
From Verif Require Import Prelude RSum DirProofs2 DenseProofs2 DenseProofs3 CoreModel CoreSpec CoreProofs CoreProofs2 CoreProofs3 CoreProofs4.
Local Open Scope R_scope.

Lemma Rsum_cells : forall q d f, Rsum (q * d) f = Rsum q (fun n => Rsum d (fun k => f (k + d * n)%nat)).
Proof.
  induction q as [|q IH]; intros d f; [reflexivity|]. cbn [Nat.mul]. replace (d + q * d)%nat with (q * d + d)%nat by lia.
  rewrite (Rsum_split (q * d + d) (q * d)) by lia. rewrite IH, Rsum_S. replace (q * d + d - q * d)%nat with d by lia. f_equal. apply Rsum_ext. intros k Hk. f_equal. lia.
Qed.

(** *** ProcessNormal: the value written at w only needs cells that are not yet overwritten *)
Section NRM.
Variables (q f nf jd : nat) (NRM l0 : list R).
Definition nval (c : nat) : option R :=
  let r := (c / (jd * q * nf))%nat in
  do a <- rd l0 (3 * c); do x <- rd NRM (3 * r); do b <- rd l0 (3 * c + 1); do y <- rd NRM (3 * r + 1); do e <- rd l0 (3 * c + 2); do z <- rd NRM (3 * r + 2);
  Some (a * x + b * y + e * z).
Definition Inv (w : nat) (l : list R) : Prop := length l = length l0 /\ forall c, rd l c = if (c <? w)%nat then nval c else rd l0 c.
Lemma nrm_ok : (3 * (jd * q * nf * f) <= length l0)%nat -> (3 * f <= length NRM)%nat ->
  exists l', process_normal q f nf jd NRM l0 = Some l' /\ length l' = length l0 /\ forall c, (c < jd * q * nf * f)%nat -> rd l' c = nval c.
Proof.
  intros HL HN. unfold process_normal.
  match goal with |- exists l', ?X = _ /\ _ => enough (H : exists l', X = Some l' /\ Inv (jd * q * nf * f) l') end.
  { destruct H as (l' & E & L & H). exists l'. split; [exact E|]. split; [exact L|]. intros c Hc. rewrite H. now rewrite (proj2 (Nat.ltb_lt _ _) Hc). }
  apply (for_inv (fun r l => Inv (jd * q * nf * r) l)).
  { split; [reflexivity|]. intros c. now rewrite Nat.mul_0_r. }
  intros r l1 Hr H1. replace (jd * q * nf * S r)%nat with (jd * q * (nf + nf * r))%nat by lia.
  apply (for_inv (fun i l => Inv (jd * q * (i + nf * r)) l)); [replace (jd * q * (0 + nf * r))%nat with (jd * q * nf * r)%nat by lia; exact H1|].
  clear l1 H1. intros i l1 Hi H1. replace (jd * q * (S i + nf * r))%nat with (jd * (q + q * (i + nf * r)))%nat by lia.
  apply (for_inv (fun n l => Inv (jd * (n + q * (i + nf * r))) l)); [replace (jd * (0 + q * (i + nf * r)))%nat with (jd * q * (i + nf * r))%nat by lia; exact H1|].
  clear l1 H1. intros n l1 Hn H1. replace (jd * (S n + q * (i + nf * r)))%nat with (jd + jd * (n + q * (i + nf * r)))%nat by lia.
  apply (for_inv (fun k l => Inv (k + jd * (n + q * (i + nf * r))) l)); [exact H1|].
  clear l1 H1. intros k l1 Hk (L1 & H1). set (w := (k + jd * (n + q * (i + nf * r)))%nat) in *.
  assert (Hw : (w < jd * q * nf * f)%nat) by (exact (idx4_lt jd q nf f k n i r Hk Hn Hi Hr)).
  assert (Er : (w / (jd * q * nf) = r)%nat).
  { replace w with ((k + jd * (n + q * i)) + (jd * q * nf) * r)%nat by (unfold w; lia).
    assert (k + jd * (n + q * i) < jd * q * nf)%nat by (pose proof (idx4_lt jd q nf 1 k n i 0 Hk Hn Hi ltac:(lia)) as H; unfold idx4 in H; lia).
    now destruct (cell_split (jd * q * nf) (k + jd * (n + q * i)) r). }
  replace (0 + 3 * (k + jd * n) + jd * 3 * q * (i + nf * r))%nat with (3 * w)%nat by (unfold w; lia).
  replace (1 + 3 * (k + jd * n) + jd * 3 * q * (i + nf * r))%nat with (3 * w + 1)%nat by (unfold w; lia).
  replace (2 + 3 * (k + jd * n) + jd * 3 * q * (i + nf * r))%nat with (3 * w + 2)%nat by (unfold w; lia).
  replace (k + jd * n + jd * q * (i + nf * r))%nat with w by (unfold w; lia).
  rewrite !H1. rewrite !(proj2 (Nat.ltb_ge _ _)) by lia.
  assert (EV : exists x, nval w = Some x /\ (do a <- rd l0 (3 * w); do x <- rd NRM (3 * r + 0); do b <- rd l0 (3 * w + 1); do y <- rd NRM (3 * r + 1); do c <- rd l0 (3 * w + 2); do z <- rd NRM (3 * r + 2);
     wr l1 w (a * x + b * y + c * z)) = wr l1 w x).
  { unfold nval. rewrite Er. rewrite (Nat.add_0_r (3 * r)). destruct (rd_some l0 (3 * w)) as (a & ->); [lia|]. destruct (rd_some l0 (3 * w + 1)) as (b & ->); [lia|]. destruct (rd_some l0 (3 * w + 2)) as (c & ->); [lia|].
    destruct (rd_some NRM (3 * r)) as (x & ->); [lia|]. destruct (rd_some NRM (3 * r + 1)) as (y & ->); [lia|]. destruct (rd_some NRM (3 * r + 2)) as (z & ->); [lia|].
    cbn [obind]. eexists. split; reflexivity. }
  destruct EV as (x & Ex & ->). destruct (wr_some l1 w x) as (l2 & E2 & L2 & H2); [lia|]. exists l2. split; [exact E2|]. split; [congruence|]. intros c. rewrite H2.
  replace (S k + jd * (n + q * (i + nf * r)))%nat with (S w) by (unfold w; lia).
  destruct (Nat.eqb_spec c w) as [->|Hne]; [rewrite (proj2 (Nat.ltb_lt w (S w))) by lia; congruence|]. rewrite H1. destruct (Nat.ltb_spec c w), (Nat.ltb_spec c (S w)); try lia; reflexivity.
Qed.
End NRM.
Lemma process_normal_ok : forall q f nf jd NRM l0 g N,
  (forall k n i r, (k < jd * 3)%nat -> (n < q)%nat -> (i < nf)%nat -> (r < f)%nat -> rd l0 (idx4 (jd * 3) q nf k n i r) = Some (g k n i r)) ->
  (forall r c, (r < f)%nat -> (c < 3)%nat -> rd NRM (3 * r + c) = Some (N r c)) -> (3 * (jd * q * nf * f) <= length l0)%nat -> (3 * f <= length NRM)%nat ->
  exists l', process_normal q f nf jd NRM l0 = Some l' /\ length l' = length l0 /\
    forall k n i r, (k < jd)%nat -> (n < q)%nat -> (i < nf)%nat -> (r < f)%nat -> rd l' (idx4 jd q nf k n i r) = Some (Rsum 3 (fun c => N r c * g (c + 3 * k)%nat n i r)).
Proof.
  intros q f nf jd NRM l0 g N Hg HN HL HLN. destruct (nrm_ok q f nf jd NRM l0 HL HLN) as (l' & E & L & H). exists l'. split; [exact E|]. split; [exact L|].
  intros k n i r Hk Hn Hi Hr. rewrite H by (now apply idx4_lt). unfold nval. set (w := idx4 jd q nf k n i r).
  assert (Er : (w / (jd * q * nf) = r)%nat).
  { unfold w, idx4. replace (k + jd * (n + q * (i + nf * r)))%nat with ((k + jd * (n + q * i)) + (jd * q * nf) * r)%nat by lia.
    assert (k + jd * (n + q * i) < jd * q * nf)%nat by (pose proof (idx4_lt jd q nf 1 k n i 0 Hk Hn Hi ltac:(lia)) as H0; unfold idx4 in H0; lia).
    now destruct (cell_split (jd * q * nf) (k + jd * (n + q * i)) r). }
  rewrite Er.
  replace (3 * w)%nat with (idx4 (jd * 3) q nf (0 + 3 * k) n i r) by (unfold w, idx4; lia). rewrite Hg by lia. cbn [obind].
  replace (3 * r)%nat with (3 * r + 0)%nat at 1 by lia. rewrite HN by lia. cbn [obind].
  replace (idx4 (jd * 3) q nf (0 + 3 * k) n i r + 1)%nat with (idx4 (jd * 3) q nf (1 + 3 * k) n i r) by (unfold idx4; lia). rewrite Hg by lia. cbn [obind]. rewrite HN by lia. cbn [obind].
  replace (idx4 (jd * 3) q nf (0 + 3 * k) n i r + 2)%nat with (idx4 (jd * 3) q nf (2 + 3 * k) n i r) by (unfold idx4; lia). rewrite Hg by lia. cbn [obind]. rewrite HN by lia. cbn [obind].
  f_equal. unfold Rsum. lra.
Qed.

(** *** V^T DU *)
Section VT.
Variables (q f dimB nfA nfB : nat) (V : band) (v g : nat -> nat -> nat -> nat -> R) (DU : list R).
Hypothesis HV : band_of V dimB nfB q f v.
Hypothesis HG : forall k n i r, (k < dimB)%nat -> (n < q)%nat -> (i < nfA)%nat -> (r < f)%nat -> rd DU (idx4 dimB q nfA k n i r) = Some (g k n i r).
Definition entry (r ia ib : nat) : R := Rsum q (fun n => Rsum dimB (fun k => g k n ia r * v r n k ib)).
Local Notation row d := (nth d (st_row V) 0%nat).
Local Notation col d := (nth d (st_col V) 0%nat).

Lemma vt_single : forall DIFF EX A, nparts V = 1%nat -> (nfB * nfA * f <= length A)%nat ->
  exists A', vt_du q f dimB nfA nfB V DU DIFF EX A = Some A' /\ length A' = length A /\
   (forall r ia ib, (r < f)%nat -> (ia < nfA)%nat -> (ib < nfB)%nat -> rd A' (ib + nfB * (ia + nfA * r)) = Some (entry r ia ib)) /\ (forall c, (nfB * nfA * f <= c)%nat -> rd A' c = rd A c).
Proof.
  intros DIFF EX A H1 HA. unfold vt_du. rewrite H1, Nat.eqb_refl.
  destruct HV as (_ & _ & _ & R0 & RP & C0 & CP & _ & Hp & _). rewrite H1 in *. destruct (Hp 0%nat ltac:(lia)) as (data & Ep & Hd). unfold rd at 1. rewrite Ep. cbn [obind fst].
  rewrite R0, RP, C0, CP in *. rewrite !Nat.sub_0_r in *.
  destruct (at_mul_b_ok f (q * dimB) data 0 nfB DU 0 nfA A 0 (fun r jj i => v r (jj / dimB) (jj mod dimB) i)%nat (fun r jj i => g (jj mod dimB) (jj / dimB) i r)%nat) as (A' & E & L & HA' & HK).
  - intros r i j Hr Hi Hj. assert (dimB <> 0)%nat by nia. pose proof (Nat.div_mod j dimB ltac:(lia)). pose proof (Nat.mod_upper_bound j dimB ltac:(lia)). assert (j / dimB < q)%nat by (apply Nat.div_lt_upper_bound; lia).
    cbn [Nat.add]. rewrite <- Hd by lia. unfold rd. f_equal. rewrite !Nat.sub_0_r. lia.
  - intros r i j Hr Hi Hj. assert (dimB <> 0)%nat by nia. pose proof (Nat.div_mod j dimB ltac:(lia)). pose proof (Nat.mod_upper_bound j dimB ltac:(lia)). assert (j / dimB < q)%nat by (apply Nat.div_lt_upper_bound; lia).
    cbn [Nat.add]. rewrite <- HG by assumption. f_equal. unfold idx4. lia.
  - lia.
  - exists A'. split; [exact E|]. split; [exact L|]. split; [|intros c Hc; apply HK; lia]. intros r ia ib Hr Hia Hib. rewrite <- (Nat.add_0_l (ib + _)), HA' by assumption. f_equal. unfold entry. rewrite Rsum_cells. apply Rsum_ext. intros n Hn.
    apply Rsum_ext. intros k Hk. destruct (cell_split dimB k n Hk) as [-> ->]. lra.
Qed.

(* contribution of one part is the whole entry *)
Lemma entry_part : forall d r ia ib, (d < nparts V)%nat -> (r < f)%nat -> (col d <= ib < col (S d))%nat ->
  entry r ia ib = Rsum q (fun n => Rsum (row (S d) - row d) (fun k => g (row d + k)%nat n ia r * v r n (row d + k)%nat ib)).
Proof.
  intros d r ia ib Hd Hr Hib. destruct (band_st q f dimB nfB V v HV d Hd) as (_ & _ & _ & _ & M1 & M2 & B1 & B2). unfold entry. apply Rsum_ext. intros n Hn.
  rewrite (Rsum_block dimB (row d) (row (S d) - row d)); [apply Rsum_ext; intros k Hk; reflexivity|lia|].
  intros k Hk Hne. destruct HV as (_ & _ & _ & R0 & RP & _ & _ & _ & _ & Hz). destruct (starts_find (fun d => row d) (nparts V) dimB k R0 RP Hk) as (d' & Hd' & Hs).
  rewrite (Hz d' d r n k ib); [lra|exact Hd'|exact Hd| |exact Hr|exact Hn|exact Hs|lia]. intros ->. lia.
Qed.

Lemma part_ok : forall d DIFF EX, (d < nparts V)%nat -> (dimB * nfA * q * f <= length DIFF)%nat -> (nfA * nfB * f <= length EX)%nat ->
  exists DIFF' EX', part_product q f dimB nfA V DU d (DIFF, EX, q * row d * nfA * f, col d * nfA * f)%nat = Some (DIFF', EX', q * row (S d) * nfA * f, col (S d) * nfA * f)%nat /\
    length DIFF' = length DIFF /\ length EX' = length EX /\
    (forall r ia ib, (r < f)%nat -> (ia < nfA)%nat -> (col d <= ib < col (S d))%nat -> rd EX' (col d * nfA * f + ((ib - col d) + (col (S d) - col d) * (ia + nfA * r))) = Some (entry r ia ib)) /\
    (forall c, (c < col d * nfA * f)%nat -> rd EX' c = rd EX c).
Proof.
  intros d DIFF EX Hd HD HE. unfold part_product. destruct (band_st q f dimB nfB V v HV d Hd) as (E1 & E2 & E3 & E4 & M1 & M2 & B1 & B2). rewrite E1, E2, E3, E4. cbn [obind].
  pose proof HV as (_ & _ & _ & R0 & RP & C0 & CP & _ & Hp & _). destruct (Hp d Hd) as (data & Ep & Hdat). unfold rd at 1. rewrite Ep. cbn [obind fst].
  set (ld := (row (S d) - row d)%nat) in *. set (lc := (col (S d) - col d)%nat) in *. set (oD := (q * row d * nfA * f)%nat).
  assert (HoD : (oD + q * ld * (nfA * f) <= length DIFF)%nat) by (pose proof (Nat.mul_le_mono_r (row d + ld) dimB (q * nfA * f) ltac:(unfold ld; lia)); unfold oD; lia).
  destruct (for_step_len (fun j c => exists n, (n < q)%nat /\ exists i, (row d <= i < row d + ld)%nat /\ c = (oD + ((i - row d + ld * n) + q * ld * j))%nat)
     (fun c x => exists j n i, (j < nfA * f)%nat /\ (n < q)%nat /\ (row d <= i < row d + ld)%nat /\ c = (oD + ((i - row d + ld * n) + q * ld * j))%nat /\ Some x = rd DU (i + dimB * (n + q * j))) (nfA * f)
     (fun j D => for_ q (fun n D => for_range (row d) ld (fun i D => do v <- rd DU (i + dimB * (n + q * j)); wr D (oD + ((i - row d + ld * n) + q * ld * j)) v) D) D) DIFF) as (D' & ED & LD & AD & _).
  { intros j l1 Hj L1. apply for_step_len. intros n l2 Hn L2. apply for_range_step_len. intros i l3 Hi L3.
    assert (nfA <> 0)%nat by nia. pose proof (Nat.div_mod j nfA ltac:(lia)). pose proof (Nat.mod_upper_bound j nfA ltac:(lia)). assert (j / nfA < f)%nat by (apply Nat.div_lt_upper_bound; lia).
    assert (EG : rd DU (i + dimB * (n + q * j)) = Some (g i n (j mod nfA) (j / nfA))%nat) by (rewrite <- HG by lia; f_equal; unfold idx4; rewrite (Nat.add_comm (j mod nfA)), <- (Nat.div_mod j nfA) by lia; reflexivity).
    rewrite EG. cbn [obind]. apply step_wr.
    - assert (i - row d + ld * n < q * ld)%nat by (rewrite (Nat.mul_comm q); apply cell_lt; lia). assert (i - row d + ld * n + q * ld * j < q * ld * (nfA * f))%nat by (apply cell_lt; assumption). lia.
    - exists j, n, i. repeat split; auto; try lia. }
  rewrite ED. cbn [obind].
  destruct (at_mul_b_ok f (q * ld) data 0 lc D' oD nfA EX (col d * nfA * f) (fun r jj i => v r (jj / ld) (row d + jj mod ld) (col d + i))%nat (fun r jj i => g (row d + jj mod ld) (jj / ld) i r)%nat) as (EX' & EE & LE & HA' & HK).
  - intros r i j Hr Hi Hj. assert (ld <> 0)%nat by nia. pose proof (Nat.div_mod j ld ltac:(lia)). pose proof (Nat.mod_upper_bound j ld ltac:(lia)). assert (j / ld < q)%nat by (apply Nat.div_lt_upper_bound; lia).
    cbn [Nat.add]. rewrite <- Hdat by (unfold ld, lc in *; lia). unfold rd. f_equal. replace (row d + j mod ld - row d)%nat with (j mod ld)%nat by lia. replace (col d + i - col d)%nat with i by lia. lia.
  - intros r i j Hr Hi Hj. assert (ld <> 0)%nat by nia. pose proof (Nat.div_mod j ld ltac:(lia)) as Ej. pose proof (Nat.mod_upper_bound j ld ltac:(lia)) as Hm. assert (Hjn : (j / ld < q)%nat) by (apply Nat.div_lt_upper_bound; lia).
    assert (Hcol : (i + nfA * r < nfA * f)%nat) by (apply cell_lt; assumption).
    destruct (AD (oD + (j + q * ld * (i + nfA * r)))%nat) as (x & Ex & (j' & n' & i' & Hj' & Hn' & Hi' & Ec & Ev)).
    { exists (i + nfA * r)%nat. split; [exact Hcol|]. exists (j / ld)%nat. split; [exact Hjn|]. exists (row d + j mod ld)%nat. split; [lia|]. replace (row d + j mod ld - row d)%nat with (j mod ld)%nat by lia. lia. }
    rewrite Ex, Ev. apply Nat.add_cancel_l in Ec. assert (Hb : (i' - row d + ld * n' < q * ld)%nat) by (rewrite (Nat.mul_comm q); apply cell_lt; lia).
    destruct (cell_inj (q * ld) j _ _ _ Hj Hb Ec) as [E5 <-]. rewrite Ej in E5. rewrite (Nat.add_comm (ld * (j / ld))) in E5. destruct (cell_inj ld (j mod ld) (j / ld) (i' - row d) n' Hm ltac:(lia) E5) as [E6 <-].
    replace i' with (row d + j mod ld)%nat by lia. rewrite <- HG by lia. f_equal.
  - pose proof (Nat.mul_le_mono_r (col d + lc) nfB (nfA * f) ltac:(unfold lc; lia)). lia.
  - rewrite EE. cbn [obind]. exists D', EX'. split.
    { f_equal. f_equal; [f_equal|]; [replace (row (S d)) with (row d + ld)%nat by (unfold ld; lia); unfold oD; ring|replace (col (S d)) with (col d + lc)%nat by (unfold lc; lia); ring]. }
    split; [exact LD|]. split; [exact LE|]. split; [|intros c Hc; apply HK; lia].
    intros r ia ib Hr Hia Hib. rewrite HA' by (auto; unfold lc; lia). f_equal. rewrite (entry_part d) by assumption. fold ld. rewrite Rsum_cells. apply Rsum_ext. intros n Hn. apply Rsum_ext. intros k Hk.
    destruct (cell_split ld k n Hk) as [-> ->]. replace (col d + (ib - col d))%nat with ib by lia. lra.
Qed.

Lemma vt_ok : forall DIFF EX A, (nfB * nfA * f <= length A)%nat -> (nparts V = 1%nat \/ (dimB * nfA * q * f <= length DIFF /\ nfA * nfB * f <= length EX)%nat) ->
  exists A', vt_du q f dimB nfA nfB V DU DIFF EX A = Some A' /\ length A' = length A /\
   (forall r ia ib, (r < f)%nat -> (ia < nfA)%nat -> (ib < nfB)%nat -> rd A' (ib + nfB * (ia + nfA * r)) = Some (entry r ia ib)) /\ (forall c, (nfB * nfA * f <= c)%nat -> rd A' c = rd A c).
Proof.
  intros DIFF EX A HA Hm. destruct (Nat.eq_dec (nparts V) 1) as [H1|H1]; [now apply vt_single|]. destruct Hm as [|[HD HE]]; [lia|].
  unfold vt_du. rewrite (proj2 (Nat.eqb_neq _ _) H1).
  destruct (for_inv (fun d st => exists D E, st = (D, E, (q * row d * nfA * f)%nat, (col d * nfA * f)%nat) /\ length D = length DIFF /\ length E = length EX /\
     forall d' r ia ib, (d' < d)%nat -> (r < f)%nat -> (ia < nfA)%nat -> (col d' <= ib < col (S d'))%nat -> rd E (col d' * nfA * f + ((ib - col d') + (col (S d') - col d') * (ia + nfA * r))) = Some (entry r ia ib))
     (nparts V) (part_product q f dimB nfA V DU) (DIFF, EX, 0%nat, 0%nat)) as (st & E & D1 & EX1 & -> & LD1 & LE1 & HEX).
  { destruct HV as (_ & _ & _ & R0 & _ & C0 & _). exists DIFF, EX. rewrite R0, C0, !Nat.mul_0_r. repeat split; auto. intros; lia. }
  { intros d st Hd (D & E & -> & LD & LE & HE'). destruct (part_ok d D E Hd) as (D2 & E2 & EE & L2 & L3 & Hn & Hk); [lia|lia|]. rewrite EE. eexists. split; [reflexivity|]. exists D2, E2. split; [reflexivity|].
    split; [congruence|]. split; [congruence|]. intros d' r ia ib Hd' Hr Hia Hib. destruct (Nat.eq_dec d' d) as [->|Hne]; [now apply Hn|]. rewrite Hk; [apply HE'; auto; lia|].
    assert (col (S d') <= col d)%nat by (apply (starts_mono (fun d => col d) (nparts V)); [intros e He; now apply HV|lia]).
    assert ((ib - col d') + (col (S d') - col d') * (ia + nfA * r) < (col (S d') - col d') * (nfA * f))%nat by (apply cell_lt; [lia|apply cell_lt; assumption]). nia. }
  rewrite E. cbn [obind].
  destruct (for_step_len (fun j c => exists d, (d < nparts V)%nat /\ exists i, (col d <= i < col d + (col (S d) - col d))%nat /\ c = (i + nfB * j)%nat)
    (fun c x => exists j i, (j < nfA * f)%nat /\ (i < nfB)%nat /\ c = (i + nfB * j)%nat /\ x = entry (j / nfA) (j mod nfA) i) (nfA * f)
    (fun j A =>
      do st <- for_ (nparts V) (fun d st => let '(A, oA) := st in
        do c0 <- rd (st_col V) d; do c1 <- rd (st_col V) (S d);
        let lnfb := (c1 - c0)%nat in
        do A <- for_range c0 lnfb (fun i A => do v <- rd EX1 (oA + ((i - c0) + lnfb * j)); wr A (i + nfB * j) v) A;
        Some (A, oA + lnfb * nfA * f)%nat) (A, 0%nat);
      Some (fst st)) A) as (A' & EA & LA & AA & KA).
  { intros j l1 Hj L1. set (P := fun (c : nat) (x : R) => exists j i, (j < nfA * f)%nat /\ (i < nfB)%nat /\ c = (i + nfB * j)%nat /\ x = entry (j / nfA) (j mod nfA) i).
    destruct (for_inv (fun d st => snd st = (col d * nfA * f)%nat /\ step (fun c => exists d', (d' < d)%nat /\ exists i, (col d' <= i < col d' + (col (S d') - col d'))%nat /\ c = (i + nfB * j)%nat) P l1 (fst st)) (nparts V)
     (fun d st => let '(A, oA) := st in
        do c0 <- rd (st_col V) d; do c1 <- rd (st_col V) (S d);
        let lnfb := (c1 - c0)%nat in
        do A <- for_range c0 lnfb (fun i A => do v <- rd EX1 (oA + ((i - c0) + lnfb * j)); wr A (i + nfB * j) v) A;
        Some (A, oA + lnfb * nfA * f)%nat) (l1, 0%nat)) as (st & E3 & _ & St).
    - cbn [fst snd]. split; [destruct HV as (_ & _ & _ & _ & _ & C0 & _); rewrite C0; lia|]. apply (step_weak (fun _ => False) _ P P); [apply step_refl| |auto]. intros c. split; [intros []|]. intros (d & Hd & _). lia.
    - intros d [l2 oA] Hd (Eo & St). cbn [fst snd] in *. subst oA. destruct (band_st q f dimB nfB V v HV d Hd) as (E1 & E2 & _ & _ & _ & M2 & _ & B2). rewrite E1, E2. cbn [obind].
      destruct (for_range_step_len (fun i c => c = (i + nfB * j)%nat) P (col (S d) - col d) (col d) (fun i A => do v <- rd EX1 (col d * nfA * f + ((i - col d) + (col (S d) - col d) * j)); wr A (i + nfB * j) v) l2) as (l3 & E4 & S4).
      + intros i l4 Hi L4. assert (nfA <> 0)%nat by nia. pose proof (Nat.div_mod j nfA ltac:(lia)) as Ej. pose proof (Nat.mod_upper_bound j nfA ltac:(lia)). assert (j / nfA < f)%nat by (apply Nat.div_lt_upper_bound; lia).
        assert (EV : rd EX1 (col d * nfA * f + ((i - col d) + (col (S d) - col d) * j)) = Some (entry (j / nfA) (j mod nfA) i)).
        { rewrite Ej at 1. rewrite (Nat.add_comm (nfA * (j / nfA))). apply HEX; auto; lia. }
        rewrite EV. cbn [obind]. apply step_wr; [destruct St as (L & _); assert (i + nfB * j < nfB * (nfA * f))%nat by (apply cell_lt; lia); lia|]. exists j, i. repeat split; auto; lia.
      + rewrite E4. cbn [obind]. eexists. split; [reflexivity|]. cbn [fst snd]. split; [replace (col (S d)) with (col d + (col (S d) - col d))%nat at 2 by lia; ring|]. eapply step_weak; [exact (step_trans _ _ _ _ _ _ St S4)| |auto]. intros c. split.
        * intros [(d' & Hd' & i & Hi & ->)|(i & Hi & ->)]; [exists d'|exists d]; (split; [lia|]); now exists i.
        * intros (d' & Hd' & i & Hi & ->). destruct (Nat.eq_dec d' d) as [->|]; [right; now exists i|left; exists d'; split; [lia|]; now exists i].
    - rewrite E3. cbn [obind]. exists (fst st). split; [reflexivity|exact St]. }
  exists A'. split; [exact EA|]. split; [exact LA|]. split.
  - intros r ia ib Hr Hia Hib. assert (Hj : (ia + nfA * r < nfA * f)%nat) by (now apply cell_lt). pose proof HV as (_ & _ & _ & _ & _ & C0 & CP & _). destruct (starts_find (fun d => col d) (nparts V) nfB ib C0 CP Hib) as (d & Hd & Hs).
    destruct (AA (ib + nfB * (ia + nfA * r))%nat) as (x & Ex & (j' & i' & Hj' & Hi' & Ec & ->)); [exists (ia + nfA * r)%nat; split; [exact Hj|]; exists d; split; [exact Hd|]; exists ib; split; [lia|reflexivity]|].
    rewrite Ex. f_equal. destruct (cell_inj nfB ib _ i' j' Hib Hi' Ec) as [<- <-]. destruct (cell_split nfA ia r Hia) as [-> ->]. reflexivity.
  - intros c Hc. destruct (KA c) as [|(j & Hj & d & Hd & i & Hi & ->)]; [assumption|]. exfalso. destruct (band_st q f dimB nfB V v HV d Hd) as (_ & _ & _ & _ & _ & M2 & _ & B2).
    assert (i + nfB * j < nfB * (nfA * f))%nat by (apply cell_lt; lia). lia.
Qed.
End VT.
