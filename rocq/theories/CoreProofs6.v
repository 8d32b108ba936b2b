(** The whole elemental matrix, evaluation of expressions, fusive tensors. *)
From Verif Require Import Prelude RSum DirProofs2 DenseProofs2 DenseProofs3 CoreModel CoreSpec CoreProofs CoreProofs2 CoreProofs3 CoreProofs4 CoreProofs5.
Local Open Scope R_scope.

Lemma rd_nth_arr : forall (l : list R) n, (n <= length l)%nat -> forall i, (i < n)%nat -> rd l i = Some (nth i l 0).
Proof. intros. apply rd_nth0. lia. Qed.

(** everything after the evaluation of the tensors *)
Definition finish (normal : bool) (q f dimB nfA nfB : nat) (V : band) (NRM DIFF EX DU A : list R) : option (list R) :=
  do DU <- (if normal then process_normal q f nfA dimB NRM DU else Some DU);
  vt_du q f dimB nfA nfB V DU DIFF EX A.
Lemma finish_ok : forall (normal : bool) q f dimA dimB nfA nfB V u v wt vol NRM DIFF EX DU A (D : nat -> nat -> nat -> nat -> R),
  band_of V dimB nfB q f v ->
  (forall k n i r, (k < dimB * (if normal then 3 else 1))%nat -> (n < q)%nat -> (i < nfA)%nat -> (r < f)%nat ->
     rd DU (idx4 (dimB * (if normal then 3 else 1)) q nfA k n i r) = Some (vv dimA u wt vol D k n i r)) ->
  (dimB * (if normal then 3 else 1) * q * nfA * f <= length DU)%nat -> (3 * f <= length NRM)%nat -> (nfB * nfA * f <= length A)%nat ->
  (dimB * nfA * q * f <= length DIFF)%nat -> (nfA * nfB * f <= length EX)%nat ->
  exists A', finish normal q f dimB nfA nfB V NRM DIFF EX DU A = Some A' /\ length A' = length A /\
    (forall r ia ib, (r < f)%nat -> (ia < nfA)%nat -> (ib < nfB)%nat -> rd A' (ib + nfB * (ia + nfA * r)) =
      Some (form q dimA dimB wt (vol r) (D r) (fun c => nth (3 * r + c) NRM 0) normal (fun n j => u r n j ia) (fun n k => v r n k ib))) /\
    (forall c, (nfB * nfA * f <= c)%nat -> rd A' c = rd A c).
Proof.
  intros normal q f dimA dimB nfA nfB V u v wt vol NRM DIFF EX DU A D HV HG HL HN HA HD HE. unfold finish. destruct normal.
  - destruct (process_normal_ok q f nfA dimB NRM DU (vv dimA u wt vol D) (fun r c => nth (3 * r + c) NRM 0)) as (DU' & E & L & HG').
    + exact HG.
    + intros r c Hr Hc. apply rd_nth0. lia.
    + lia.
    + exact HN.
    + rewrite E. cbn [obind]. destruct (vt_ok q f dimB nfA nfB V v _ DU' HV HG' DIFF EX A HA) as (A' & EA & LA & HA' & HK); [right; split; assumption|].
      exists A'. split; [exact EA|]. split; [exact LA|]. split; [|exact HK]. intros r ia ib Hr Hia Hib. rewrite HA' by assumption. f_equal. unfold entry, form, flux, vv. apply Rsum_ext. intros n Hn.
      rewrite <- Rsum_scal. apply Rsum_ext. intros k Hk. cbn [Rsum]. ring.
  - cbn [obind]. destruct (vt_ok q f dimB nfA nfB V v (vv dimA u wt vol D) DU HV) with (DIFF := DIFF) (EX := EX) (A := A) as (A' & EA & LA & HA' & HK); auto.
    + intros k n i r Hk Hn Hi Hr. specialize (HG k n i r). rewrite Nat.mul_1_r in HG. now apply HG.
    + exists A'. split; [exact EA|]. split; [exact LA|]. split; [|exact HK]. intros r ia ib Hr Hia Hib. rewrite HA' by assumption. f_equal. unfold entry, form, flux, vv. apply Rsum_ext. intros n Hn.
      rewrite <- Rsum_scal. apply Rsum_ext. intros k Hk. ring.
Qed.

Lemma ready_zero : forall q f jdim nfa U v DU DU', (forall c, (c < jdim * q * nfa * f)%nat -> exists x, rd DU' c = Some x /\ x = 0) -> DU = DU' -> ready q f jdim nfa U v DU.
Proof. intros q f jdim nfa U v DU DU' H ->. right. intros k n i r Hk Hn Hi Hr. destruct (H (idx4 jdim q nfa k n i r)) as (x & E & ->); [now apply idx4_lt|]. exists 0. auto. Qed.

(** zero filling of DU when U has several parts *)
Lemma zero_ok : forall q f jdim dimB nD nfA U u dimA v DU, band_of U dimA nfA q f u -> jdim = (dimB * nD)%nat -> (jdim * q * nfA * f <= length DU)%nat ->
  exists DU', (if (1 <? nparts U)%nat then for_ (q * f * dimB * nfA * nD) (fun i DU => wr DU i 0) DU else Some DU) = Some DU' /\ length DU' = length DU /\ ready q f jdim nfA U v DU'.
Proof.
  intros q f jdim dimB nD nfA U u dimA v DU HU -> HL. destruct (Nat.ltb_spec 1 (nparts U)) as [H|H].
  - destruct (for_step_len (fun i c => c = i) (fun c x => x = 0) (q * f * dimB * nfA * nD) (fun i DU => wr DU i 0) DU) as (DU' & E & L & A & _); [intros i l Hi Ll; apply step_wr; [|reflexivity]; replace (dimB * nD * q * nfA * f)%nat with (q * f * dimB * nfA * nD)%nat in HL by ring; lia|].
    exists DU'. split; [exact E|]. split; [exact L|]. apply (ready_zero _ _ _ _ _ _ DU' DU'); [|reflexivity]. intros c Hc. apply A. exists c. split; [|reflexivity]. replace (q * f * dimB * nfA * nD)%nat with (dimB * nD * q * nfA * f)%nat by ring. exact Hc.
  - exists DU. split; [reflexivity|]. split; [reflexivity|]. left. destruct HU as (H1 & _). lia.
Qed.

Theorem fem3Dtet_ok : forall F constant sp (normal : bool) q f dimA dimB nfA nfB U V u v w mes XYG NRM DIFF EX DU A,
  let nD := (if normal then 3 else 1)%nat in
  (0 < q)%nat -> (0 < f)%nat -> (0 < dimA)%nat -> (0 < dimB)%nat ->
  band_of U dimA nfA q f u -> band_of V dimB nfB q f v ->
  promise F constant sp q f (xyz q XYG) -> (constant = false -> sel_index F q f XYG sp) ->
  (forall r n, (r < f)%nat -> (n < q)%nat -> tensor_ok (dimB * nD) dimA nfA (F (xyz q XYG r n) r)) ->
  (q <= length w)%nat -> (f <= length mes)%nat -> (3 * (q * f) <= length XYG)%nat -> (3 * f <= length NRM)%nat ->
  (dimB * nD * dimA * q * f <= length DIFF)%nat -> (dimB * nfA * q * f <= length DIFF)%nat -> (nfA * nfB * f <= length EX)%nat -> (dimB * nD * q * nfA * f <= length DU)%nat -> (nfB * nfA * f <= length A)%nat ->
  exists A', fem3Dtet F constant sp normal q f dimA dimB nfA nfB U V w mes XYG NRM DIFF EX DU A = Some A' /\ length A' = length A /\
    (forall r ia ib, (r < f)%nat -> (ia < nfA)%nat -> (ib < nfB)%nat -> rd A' (ib + nfB * (ia + nfA * r)) =
      Some (form q dimA dimB (fun n => nth n w 0) (nth r mes 0) (fun n => tmat (F (xyz q XYG r n) r) (dimB * nD) dimA) (fun c => nth (3 * r + c) NRM 0) normal (fun n j => u r n j ia) (fun n k => v r n k ib))) /\
    (forall c, (nfB * nfA * f <= c)%nat -> rd A' c = rd A c).
Proof.
  intros F constant sp normal q f dimA dimB nfA nfB U V u v w mes XYG NRM DIFF EX DU A nD Hq Hf HdA HdB HU HV HP Hsel HT Lw Lm LX LN LD1 LD2 LE LU LA.
  unfold fem3Dtet. fold nD. set (jd := (dimB * nD)%nat) in *.
  assert (Hjd : (0 < jd)%nat) by (unfold jd, nD; destruct normal; lia).
  destruct (zero_ok q f jd dimB nD nfA U u dimA (vv dimA u (fun n => nth n w 0) (fun r => nth r mes 0) (Dm F q jd dimA XYG)) DU HU eq_refl LU) as (DU1 & E1 & L1 & R1). rewrite E1. cbn [obind].
  destruct (apply_DU_ok F q f jd dimA nfA U u w mes XYG (fun n => nth n w 0) (fun r => nth r mes 0) HU (rd_nth_arr w q Lw) (rd_nth_arr mes f Lm) Hq Hf HdA Hjd HT LX constant sp DIFF DU1 HP Hsel) as (DU2 & E2 & S2); [lia|lia|exact R1|].
  rewrite E2. cbn [obind].
  apply (finish_ok normal q f dimA dimB nfA nfB V u v (fun n => nth n w 0) (fun r => nth r mes 0) NRM DIFF EX DU2 A (Dm F q jd dimA XYG)); auto.
  - exact (result_of_step q f jd nfA _ DU1 DU2 S2).
  - destruct S2 as (L2 & _). fold nD. fold jd. lia.
Qed.

(** *** fusive tensors: the user stores all matrices at once *)
Lemma dfunc_fusive_ok : forall k sym FV q f jdim idim nfa (T : nat -> nat -> tensor) D lmem, (0 < q)%nat -> (0 < f)%nat -> (0 < idim)%nat -> (0 < jdim)%nat ->
  (forall r n, (r < f)%nat -> (n < q)%nat -> tensor_ok jdim idim nfa (T r n) /\
     match T r n with TNull => k = KNull /\ FV r n = [] | TScalar s => k = KScalar /\ FV r n = [s] | TSym m => k = KFull /\ sym = true /\ FV r n = m | TGen m => k = KFull /\ sym = false /\ FV r n = m end) ->
  (idim * jdim * (q * f) <= length D)%nat -> (idim * jdim <= length lmem)%nat ->
  exists D', dfunc_fusive k sym FV q f jdim idim D lmem = Some D' /\
    forall r n e x, (r < f)%nat -> (n < q)%nat -> W jdim idim (T r n) e = Some x -> rd D' (off_at q idim jdim r n + e) = Some x.
Proof.
  intros k sym FV q f jdim idim nfa T D lmem Hq Hf Hi0 Hj0 HT HL HM. unfold dfunc_fusive.
  set (B := (jdim * idim)%nat). assert (HB0 : (0 < B)%nat) by (unfold B; nia).
  assert (Hsl : forall r n, (r < f)%nat -> (n < q)%nat -> (B * (n + q * r) + B <= length D)%nat) by (intros r n Hr Hn; pose proof (cell_lt q f n r Hn Hr); unfold B; nia).
  assert (HFV : forall r n, (r < f)%nat -> (n < q)%nat -> (length (FV r n) <= B)%nat).
  { intros r n Hr Hn. destruct (HT r n Hr Hn) as (Ht & Hm). unfold B. destruct (T r n) as [|s|m|m]; cbn [tensor_ok] in Ht; [destruct Hm as (_ & ->)|destruct Hm as (_ & ->)|destruct Hm as (_ & _ & ->)|destruct Hm as (_ & _ & ->)]; cbn [length]; try lia; nia. }
  set (P1 := fun (c : nat) (x : R) => exists r n i, (r < f)%nat /\ (n < q)%nat /\ (i < B)%nat /\ c = (B * (n + q * r) + i)%nat /\ rd (FV r n) i = Some x).
  destruct (for_step_len (fun r c => exists n, (n < q)%nat /\ exists i, (i < length (FV r n))%nat /\ c = (B * (n + q * r) + i)%nat) P1 f
     (fun r D => for_ q (fun n D => for_ (length (FV r n)) (fun i D => do v <- rd (FV r n) i; wr D (B * (n + q * r) + i) v) D) D) D) as (D1 & E1 & L1 & A1 & _).
  { intros r l1 Hr Ll1. apply for_step_len. intros n l2 Hn Ll2. apply for_step_len. intros i l3 Hi Ll3. destruct (rd_some (FV r n) i Hi) as (x & Ex). rewrite Ex. cbn [obind]. specialize (Hsl r n Hr Hn). specialize (HFV r n Hr Hn).
    apply step_wr; [lia|]. exists r, n, i. repeat split; auto. lia. }
  rewrite E1. cbn [obind].
  assert (H1 : forall r n i, (r < f)%nat -> (n < q)%nat -> (i < length (FV r n))%nat -> rd D1 (B * (n + q * r) + i) = rd (FV r n) i).
  { intros r n i Hr Hn Hi. destruct (A1 (B * (n + q * r) + i)%nat) as (x & Ex & (r' & n' & i' & Hr' & Hn' & Hi' & Ec & Ev)); [exists r; split; [exact Hr|]; exists n; split; [exact Hn|]; now exists i|].
    pose proof (HFV r n Hr Hn). destruct (cell_inj B i (n + q * r) i' (n' + q * r')) as [<- Es]; [lia|exact Hi'|lia|]. destruct (cell_inj q n r n' r' Hn Hn' Es) as [<- <-]. congruence. }
  assert (Keep : (k = KFull -> sym = true) -> forall r n e x, (r < f)%nat -> (n < q)%nat -> W jdim idim (T r n) e = Some x -> rd D1 (off_at q idim jdim r n + e) = Some x).
  { intros Hks r n e x Hr Hn HW. unfold off_at. replace (idim * jdim)%nat with B by (unfold B; lia). destruct (HT r n Hr Hn) as (Ht & Hm). pose proof (W_lt jdim idim Hi0 Hj0 _ _ _ HW) as He.
    destruct (T r n) as [|s|m|m]; cbn [W] in HW; [discriminate| | |].
    - destruct Hm as (_ & EF). destruct (Nat.eqb_spec e 0) as [->|]; [|discriminate]. rewrite H1 by (auto; rewrite EF; cbn; lia). rewrite EF. exact HW.
    - destruct Hm as (_ & _ & EF). destruct Ht as (Eij & Lm & Hs). destruct (Nat.ltb_spec e (idim * jdim)) as [_|]; [|discriminate]. rewrite H1 by (auto; rewrite EF; lia). rewrite EF, rd_nth0 by lia. rewrite <- HW. f_equal.
      cbn [tmat]. subst jdim. pose proof (Nat.div_mod e idim ltac:(lia)). pose proof (Nat.mod_upper_bound e idim ltac:(lia)). assert (e / idim < idim)%nat by (apply Nat.div_lt_upper_bound; lia).
      rewrite Hs by assumption. f_equal. lia.
    - destruct Hm as (Ek & Es & _). specialize (Hks Ek). congruence. }
  destruct k; [exists D1; split; [destruct sym; reflexivity|apply Keep; discriminate]|exists D1; split; [destruct sym; reflexivity|apply Keep; discriminate]|].
  destruct sym; [exists D1; split; [reflexivity|apply Keep; reflexivity]|]. clear Keep.
  assert (HG : forall r n, (r < f)%nat -> (n < q)%nat -> exists m, T r n = TGen m /\ FV r n = m /\ length m = B).
  { intros r n Hr Hn. destruct (HT r n Hr Hn) as (Ht & Hm). destruct (T r n) as [|s|m|m]; [destruct Hm; discriminate|destruct Hm; discriminate|destruct Hm as (_ & ? & _); discriminate|]. exists m. destruct Hm as (_ & _ & ->). auto. }
  (* after treating slot s, blocks of slots < s are transposed, the others are as stored *)
  set (blk := fun (s : nat) (D : list R) => length D = length D1 /\ forall r n i, (r < f)%nat -> (n < q)%nat -> (i < B)%nat ->
     rd D (B * (n + q * r) + i) = if (n + q * r <? s)%nat then W jdim idim (T r n) i else rd (FV r n) i).
  match goal with |- context [for_ f ?b (D1, lmem)] => destruct (for_inv (fun r st => blk (q * r)%nat (fst st) /\ length (snd st) = length lmem) f b (D1, lmem)) as (st & E & Hst & _) end.
  { cbn [fst snd]. split; [|reflexivity]. split; [reflexivity|]. intros r n i Hr Hn Hi. rewrite Nat.mul_0_r. cbn. destruct (HG r n Hr Hn) as (m & _ & EF & Lm). apply H1; auto. rewrite EF; lia. }
  { intros r st Hr Hst. match goal with |- exists s', for_ q ?b st = Some s' /\ _ => destruct (for_inv (fun n st => blk (n + q * r)%nat (fst st) /\ length (snd st) = length lmem) q b st) as (st' & E & Hst') end.
    - exact Hst.
    - intros n [Dc lm] Hn (Hb & Llm). cbn [fst snd] in *. destruct Hb as (LD & Hb). specialize (Hsl r n Hr Hn).
      destruct (HG r n Hr Hn) as (m & ET & EF & Lm). fold B.
      destruct (for_step_len (fun i c => c = i) (fun c x => (c < B)%nat /\ rd m c = Some x) B (fun i lmem => do v <- rd Dc (B * (n + q * r) + i); wr lmem i v) lm) as (lm' & El & Ll & Al & _).
      { intros i l Hi Li. rewrite Hb by assumption. rewrite (proj2 (Nat.ltb_ge _ _)) by lia. rewrite EF. destruct (rd_some m i) as (x & Ex); [lia|]. rewrite Ex. cbn [obind]. apply step_wr; [replace (idim * jdim)%nat with B in HM by (unfold B; lia); lia|auto]. }
      rewrite El. cbn [obind].
      assert (Hlm : forall i, (i < B)%nat -> rd lm' i = rd m i) by (intros i Hi; destruct (Al i) as (x & Ex & _ & Ex'); [now exists i|congruence]).
      set (o := (B * (n + q * r))%nat) in *.
      destruct (for_step_len (fun i c => exists j, (j < jdim)%nat /\ c = (o + i + idim * j)%nat) (fun c x => exists i j, (i < idim)%nat /\ (j < jdim)%nat /\ c = (o + i + idim * j)%nat /\ rd m (j + jdim * i) = Some x) idim
         (fun i D => for_ jdim (fun j D => do v <- rd lm' (j + jdim * i); wr D (o + i + idim * j) v) D) Dc) as (D2 & E2 & L2 & A2 & K2).
      { intros i l Hi Li. apply for_step_len. intros j l2 Hj Lj. pose proof (cell_lt jdim idim j i Hj Hi). pose proof (cell_lt idim jdim i j Hi Hj). rewrite Hlm by (unfold B; lia). destruct (rd_some m (j + jdim * i)) as (x & Ex); [unfold B in Lm; lia|]. rewrite Ex. cbn [obind].
        apply step_wr; [unfold B in Hsl; lia|]. exists i, j. auto. }
      rewrite E2. cbn [obind]. eexists. split; [reflexivity|]. cbn [fst snd]. split; [|congruence]. split; [congruence|]. intros r' n' i Hr' Hn' Hi.
      destruct (Nat.eq_dec (n' + q * r') (n + q * r)) as [Es|Es].
      + destruct (cell_inj q n' r' n r Hn' Hn Es) as [-> ->]. rewrite (proj2 (Nat.ltb_lt _ _)) by lia. fold o. rewrite ET. cbn [W]. assert (HiB : (i < idim * jdim)%nat) by (unfold B in Hi; lia). rewrite (proj2 (Nat.ltb_lt _ _) HiB).
        pose proof (Nat.div_mod i idim ltac:(lia)) as Ei. pose proof (Nat.mod_upper_bound i idim ltac:(lia)) as Hmi. assert (Hdi : (i / idim < jdim)%nat) by (apply Nat.div_lt_upper_bound; lia).
        destruct (A2 (o + i)%nat) as (x & Ex & (i2 & j2 & Hi2 & Hj2 & Ec & Ev)); [exists (i mod idim)%nat; split; [exact Hmi|]; exists (i / idim)%nat; split; [exact Hdi|lia]|].
        rewrite Ex. cbn [tmat]. assert (E5 : (i mod idim + idim * (i / idim) = i2 + idim * j2)%nat) by lia. destruct (cell_inj idim _ _ _ _ Hmi Hi2 E5) as [-> ->]. rewrite <- Ev. apply rd_nth0. pose proof (cell_lt jdim idim j2 i2 Hj2 Hi2). unfold B in Lm. lia.
      + assert (Hne : rd D2 (B * (n' + q * r') + i) = rd Dc (B * (n' + q * r') + i)).
        { destruct (K2 (B * (n' + q * r') + i)%nat) as [->|(i2 & Hi2 & j2 & Hj2 & Ec)]; [reflexivity|]. exfalso. unfold o in Ec. pose proof (cell_lt idim jdim i2 j2 Hi2 Hj2).
          destruct (cell_inj B i (n' + q * r') (i2 + idim * j2) (n + q * r)) as [_ ?]; [exact Hi|unfold B; lia|lia|]. lia. }
        rewrite Hne, Hb by assumption. destruct (Nat.ltb_spec (n' + q * r') (n + q * r)), (Nat.ltb_spec (n' + q * r') (S n + q * r)); try lia; reflexivity.
    - exists st'. split; [exact E|]. replace (q * S r)%nat with (q + q * r)%nat by lia. exact Hst'. }
  rewrite E. cbn [obind]. exists (fst st). split; [reflexivity|]. destruct Hst as (_ & Hb). intros r n e x Hr Hn HW. unfold off_at. replace (idim * jdim)%nat with B by (unfold B; lia).
  pose proof (W_lt jdim idim Hi0 Hj0 _ _ _ HW). rewrite Hb by (auto; unfold B; lia). pose proof (cell_lt q f n r Hn Hr). now rewrite (proj2 (Nat.ltb_lt _ _)).
Qed.
