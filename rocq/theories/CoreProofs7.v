(** Fusive tensors in applyDU, evaluation of expressions. *)
From Verif Require Import Prelude RSum DirProofs2 DenseProofs2 DenseProofs3 CoreModel CoreSpec CoreProofs CoreProofs2 CoreProofs3 CoreProofs4 CoreProofs5 CoreProofs6.
Local Open Scope R_scope.

Definition fus_vals (k : tkind) (sym : bool) (t : tensor) (m : list R) : Prop :=
  match t with
  | TNull => k = KNull /\ m = [] | TScalar s => k = KScalar /\ m = [s]
  | TSym e => k = KFull /\ sym = true /\ m = e | TGen e => k = KFull /\ sym = false /\ m = e
  end.
Lemma kind_ok_gen : forall q f jdim idim nfa (T : nat -> nat -> tensor) k D o, (0 < q)%nat -> (0 < f)%nat -> (0 < idim)%nat -> (0 < jdim)%nat ->
  (forall r n, (r < f)%nat -> (n < q)%nat -> tensor_ok jdim idim nfa (T r n) /\ kind (T r n) = k) ->
  (forall r n e x, (r < f)%nat -> (n < q)%nat -> W jdim idim (T r n) e = Some x -> rd D (o r n + e) = Some x) ->
  kind_ok q f jdim idim nfa (fun r n => tmat (T r n) jdim idim) k D o.
Proof.
  intros q f jdim idim nfa T k D o Hq Hf Hi0 Hj0 HT HD. destruct (HT 0%nat 0%nat Hf Hq) as [H0 K0]. destruct k; cbn [kind_ok].
  - split; [destruct (T 0 0)%nat; cbn in K0; try discriminate; exact H0|]. intros r n k j Hr Hn _ _. destruct (HT r n Hr Hn) as [_ Hk]. destruct (T r n); cbn in Hk; try discriminate. reflexivity.
  - split; [destruct (T 0 0)%nat; cbn in K0; try discriminate; exact H0|]. exists (fun r n => match T r n with TScalar s => s | _ => 0 end). intros r n Hr Hn. destruct (HT r n Hr Hn) as [_ Hk].
    pose proof (HD r n 0%nat) as HD0. destruct (T r n) as [|s|m|m]; cbn in Hk; try discriminate. split; [|reflexivity]. specialize (HD0 s Hr Hn eq_refl). now rewrite Nat.add_0_r in HD0.
  - intros r n k j Hr Hn Hk' Hj. destruct (HT r n Hr Hn) as [_ Hk]. apply HD; auto. apply W_full; auto.
Qed.
Lemma apply_DU_fusive_ok : forall k sym FV (constant : bool) q f jdim idim nfa U u w mes wt vol (T : nat -> nat -> tensor) DIFF lmem DU,
  band_of U idim nfa q f u -> (forall n, (n < q)%nat -> rd w n = Some (wt n)) -> (forall r, (r < f)%nat -> rd mes r = Some (vol r)) ->
  (0 < q)%nat -> (0 < f)%nat -> (0 < idim)%nat -> (0 < jdim)%nat ->
  (forall r n, (r < f)%nat -> (n < q)%nat -> tensor_ok jdim idim nfa (T r n) /\ fus_vals k sym (T r n) (FV r n)) ->
  (constant = true -> forall r n, (r < f)%nat -> (n < q)%nat -> T r n = T 0%nat 0%nat) ->
  (idim * jdim * (q * f) <= length DIFF)%nat -> (idim * jdim <= length lmem)%nat -> (jdim * q * nfa * f <= length DU)%nat ->
  ready q f jdim nfa U (vv idim u wt vol (fun r n => tmat (T r n) jdim idim)) DU ->
  exists DU', apply_DU_fusive k sym FV constant q f jdim idim nfa U w mes DIFF lmem DU = Some DU' /\
    step (fun c => exists r, (r < f)%nat /\ Sr q jdim nfa r c) (Pv q f jdim nfa (vv idim u wt vol (fun r n => tmat (T r n) jdim idim))) DU DU'.
Proof.
  intros k sym FV constant q f jdim idim nfa U u w mes wt vol T DIFF lmem DU HU Hw Hm Hq Hf Hi0 Hj0 HT HC HL HM HLU HR. unfold apply_DU_fusive.
  destruct (dfunc_fusive_ok k sym FV q f jdim idim nfa T DIFF lmem Hq Hf Hi0 Hj0 HT HL HM) as (D & E & HD). rewrite E. cbn [obind].
  apply (du_by_kind_ok q f jdim idim nfa U u w mes wt vol); auto. apply kind_ok_gen; auto.
  - intros r n Hr Hn. destruct (HT r n Hr Hn) as [Ht Hf']. split; [exact Ht|]. destruct (T r n); cbn in Hf' |- *; intuition congruence.
  - destruct constant; [|exact HD]. intros r n e x Hr Hn HW. rewrite HC in HW by auto. specialize (HD 0%nat 0%nat e x Hf Hq HW). unfold off_at in HD. rewrite <- HD. f_equal. lia.
Qed.

(** *** evaluation on one element *)
Section AP.
Variables (q dim nf : nat) (U : band) (u : nat -> nat -> nat -> nat -> R) (dofs : list R).
Hypothesis HU : band_of U dim nf q 1 u.
Hypothesis HD : (nf <= length dofs)%nat.
Local Notation row d := (nth d (st_row U) 0%nat).
Local Notation col d := (nth d (st_col U) 0%nat).
Definition opv (n k : nat) : R := Rsum nf (fun i => u 0%nat n k i * nth i dofs 0).

Lemma opv_part : forall d n k, (d < nparts U)%nat -> (n < q)%nat -> (row d <= k < row (S d))%nat ->
  opv n k = Rsum (col (S d) - col d) (fun i => u 0%nat n k (col d + i)%nat * nth (col d + i) dofs 0).
Proof.
  intros d n k Hd Hn Hk. destruct (band_st q 1 dim nf U u HU d Hd) as (_ & _ & _ & _ & M1 & M2 & B1 & B2). unfold opv.
  rewrite (Rsum_block nf (col d) (col (S d) - col d)); [reflexivity|lia|]. intros i Hi Hne.
  destruct HU as (_ & _ & _ & _ & _ & C0 & CP & _ & _ & Hz). destruct (starts_find (fun d => col d) (nparts U) nf i C0 CP Hi) as (d' & Hd' & Hs).
  rewrite (Hz d d' 0%nat n k i); [lra|exact Hd|exact Hd'| |lia|exact Hn|exact Hk|exact Hs]. intros ->. lia.
Qed.

Lemma apply_single : forall EX opU, nparts U = 1%nat -> (dim * q <= length opU)%nat ->
  exists op', fem3Dapply q 1 dim nf U dofs EX opU = Some op' /\ length op' = length opU /\ (forall n k, (n < q)%nat -> (k < dim)%nat -> rd op' (k + dim * n) = Some (opv n k)) /\ (forall c, (dim * q <= c)%nat -> rd op' c = rd opU c).
Proof.
  intros EX opU H1 HL. unfold fem3Dapply. rewrite H1, Nat.eqb_refl. pose proof HU as (_ & _ & _ & R0 & RP & C0 & CP & _ & Hp & _). rewrite H1 in *. destruct (Hp 0%nat ltac:(lia)) as (data & Ep & Hd). unfold rd at 1. rewrite Ep. cbn [obind fst].
  rewrite R0, RP, C0, CP in *. rewrite !Nat.sub_0_r in *.
  destruct (a_mul_b_ok 1 nf data 0 (dim * q) dofs 0 1 opU 0 (fun r i j => u 0 (i / dim) (i mod dim) j)%nat (fun r j i => nth j dofs 0) (fun r i j => nth i opU 0)) as (op' & E & L & HA & HK).
  - intros r i j Hr Hi Hj. assert (dim <> 0)%nat by nia. pose proof (Nat.div_mod i dim ltac:(lia)). pose proof (Nat.mod_upper_bound i dim ltac:(lia)). assert (i / dim < q)%nat by (apply Nat.div_lt_upper_bound; lia).
    rewrite <- Hd by lia. unfold rd. f_equal. rewrite !Nat.sub_0_r. replace r with 0%nat by lia. rewrite (Nat.mul_comm dim q). lia.
  - intros r i j Hr Hi Hj. replace (0 + (j + nf * (i + 1 * r)))%nat with j by nia. apply rd_nth0. lia.
  - cbn [Nat.max]. lia.
  - intros r i j Hr Hi Hj. replace (0 + (i + dim * q * (j + 1 * r)))%nat with i by nia. apply rd_nth0. lia.
  - exists op'. split; [exact E|]. split; [exact L|]. split; [|intros c Hc; apply HK; cbn [Nat.max]; lia]. intros n k Hn Hk. assert (Hi : (k + dim * n < dim * q)%nat) by (now apply cell_lt).
    specialize (HA 0%nat (k + dim * n)%nat 0%nat ltac:(lia) Hi ltac:(lia)). replace (0 + (k + dim * n + dim * q * (0 + 1 * 0)))%nat with (k + dim * n)%nat in HA by lia. rewrite HA. f_equal. cbn [Nat.eqb]. rewrite Rplus_0_l. unfold opv.
    apply Rsum_ext. intros i _. destruct (cell_split dim k n Hk) as [-> ->]. reflexivity.
Qed.

Lemma apply_part_ok : forall T, (dim * q <= length T)%nat ->
  exists T', apply_part q 1 dim nf U dofs T = Some T' /\ length T' = length T /\
    (forall d n k, (d < nparts U)%nat -> (n < q)%nat -> (row d <= k < row (S d))%nat -> rd T' (row d * q + ((k - row d) + (row (S d) - row d) * n)) = Some (opv n k)) /\
    (forall c, (dim * q <= c)%nat -> rd T' c = rd T c).
Proof.
  intros T HL. unfold apply_part.
  match goal with |- context [for_ (nparts U) ?b T] => destruct (for_inv (fun d T' => length T' = length T /\
    (forall d' n k, (d' < d)%nat -> (n < q)%nat -> (row d' <= k < row (S d'))%nat -> rd T' (row d' * q + ((k - row d') + (row (S d') - row d') * n)) = Some (opv n k)) /\
    (forall c, (dim * q <= c)%nat -> rd T' c = rd T c)) (nparts U) b T) as (T' & E & L & H & K) end.
  - split; [reflexivity|]. split; [intros; lia|reflexivity].
  - intros d l Hd (Ll & Hl & Kl). unfold for_ at 1. cbn [for_range]. destruct (band_st q 1 dim nf U u HU d Hd) as (E1 & E2 & E3 & E4 & M1 & M2 & B1 & B2). rewrite E1, E2, E3, E4. cbn [obind].
    pose proof HU as (_ & _ & _ & R0 & RP & C0 & CP & Hmono & Hp & _). destruct (Hp d Hd) as (data & Ep & Hdat). unfold rd at 1. rewrite Ep. cbn [obind fst]. rewrite Nat.div_1_r.
    set (vr := (row (S d) - row d)%nat) in *. set (vc := (col (S d) - col d)%nat) in *. rewrite !Nat.mul_0_r. cbn [Nat.mul Nat.add].
    assert (Hq2 : (row d * q + q * vr <= dim * q)%nat) by (pose proof (Nat.mul_le_mono_r (row d + vr) dim q ltac:(unfold vr; lia)); lia).
    destruct (a_mul_b_ok 1 vc data 0 (q * vr) dofs (col d) 1 l (row d * q) (fun r i j => u 0 (i / vr) (row d + i mod vr) (col d + j))%nat (fun r j i => nth (col d + j) dofs 0) (fun r i j => nth (row d * q + i) l 0)) as (l' & E & L' & HA & HK).
    + intros r i j Hr Hi Hj. assert (vr <> 0)%nat by nia. pose proof (Nat.div_mod i vr ltac:(lia)). pose proof (Nat.mod_upper_bound i vr ltac:(lia)). assert (i / vr < q)%nat by (apply Nat.div_lt_upper_bound; lia).
      rewrite <- Hdat by (unfold vr, vc in *; lia). unfold rd. f_equal. replace (row d + i mod vr - row d)%nat with (i mod vr)%nat by lia. replace (col d + j - col d)%nat with j by lia. replace r with 0%nat by lia. lia.
    + intros r i j Hr Hi Hj. replace (col d + (j + vc * (i + 1 * r)))%nat with (col d + j)%nat by nia. apply rd_nth0. unfold vc in Hj. lia.
    + cbn [Nat.max]. rewrite !Nat.mul_1_r. lia.
    + intros r i j Hr Hi Hj. replace (row d * q + (i + q * vr * (j + 1 * r)))%nat with (row d * q + i)%nat by nia. apply rd_nth0. lia.
    + rewrite E. exists l'. split; [reflexivity|]. split; [congruence|]. split.
      * intros d' n k Hd' Hn Hk. destruct (Nat.eq_dec d' d) as [->|Hne].
        -- fold vr. assert (Hkk : (k - row d < vr)%nat) by (unfold vr; lia). assert (Hi : (k - row d + vr * n < q * vr)%nat) by (rewrite (Nat.mul_comm q); now apply cell_lt).
           specialize (HA 0%nat (k - row d + vr * n)%nat 0%nat ltac:(lia) Hi ltac:(lia)). replace (row d * q + (k - row d + vr * n + q * vr * (0 + 1 * 0)))%nat with (row d * q + (k - row d + vr * n))%nat in HA by lia. rewrite HA. f_equal. cbn [Nat.eqb]. rewrite Rplus_0_l.
           rewrite (opv_part d) by assumption. fold vc. apply Rsum_ext. intros i _. destruct (cell_split vr (k - row d) n Hkk) as [-> ->]. replace (row d + (k - row d))%nat with k by lia. reflexivity.
        -- rewrite HK; [apply Hl; auto; lia|]. left. assert (row (S d') <= row d)%nat by (apply (starts_mono (fun d => row d) (nparts U)); [intros e He; now apply Hmono|lia]).
           assert ((k - row d') + (row (S d') - row d') * n < (row (S d') - row d') * q)%nat by (apply cell_lt; lia).
           pose proof (Nat.mul_le_mono_r (row d' + (row (S d') - row d')) (row d) q ltac:(lia)). lia.
      * intros c Hc. rewrite HK; [now apply Kl|]. right. cbn [Nat.max]. lia.
  - exists T'. split; [exact E|]. split; [exact L|]. split; [exact H|exact K].
Qed.

Lemma fem3Dapply_ok : forall EX opU, (0 < q)%nat -> (dim * q <= length opU)%nat -> (nparts U = 1%nat \/ q = 1%nat \/ (dim * q <= length EX)%nat) ->
  exists op', fem3Dapply q 1 dim nf U dofs EX opU = Some op' /\ length op' = length opU /\ (forall n k, (n < q)%nat -> (k < dim)%nat -> rd op' (k + dim * n) = Some (opv n k)) /\ (forall c, (dim * q <= c)%nat -> rd op' c = rd opU c).
Proof.
  intros EX opU Hq HL Hm. destruct (Nat.eq_dec (nparts U) 1) as [H1|H1]; [now apply apply_single|].
  unfold fem3Dapply. rewrite (proj2 (Nat.eqb_neq _ _) H1). pose proof HU as (_ & _ & _ & R0 & RP & _ & _ & Hmono & _). destruct (Nat.leb_spec q 1) as [Hq1|Hq1].
  - destruct (apply_part_ok opU HL) as (T' & E & L & H & K). exists T'. split; [exact E|]. split; [exact L|]. split; [|exact K]. intros n k Hn Hk. destruct (starts_find (fun d => row d) (nparts U) dim k R0 RP Hk) as (d & Hd & Hs).
    rewrite <- (H d n k Hd Hn Hs). f_equal. replace n with 0%nat by lia. replace q with 1%nat by lia. lia.
  - destruct Hm as [|[|HE]]; [lia|lia|]. destruct (apply_part_ok EX HE) as (T & E & L & H & _). rewrite E. cbn [obind].
    destruct (for_step_len (fun n c => exists d, (d < nparts U)%nat /\ exists i, (i < row (S d) - row d)%nat /\ c = (dim * n + row d + i)%nat)
      (fun c x => exists n k, (n < q)%nat /\ (k < dim)%nat /\ c = (k + dim * n)%nat /\ x = opv n k) q
      (fun n opU => for_ (nparts U) (fun d opU =>
      do r0 <- rd (st_row U) d; do r1 <- rd (st_row U) (S d);
      let ldim := (r1 - r0)%nat in
      for_ ldim (fun i opU => do v <- rd T (r0 * q + ldim * n + i); wr opU (dim * n + r0 + i) v) opU) opU) opU) as (op' & E' & L' & A' & K').
    + intros n l1 Hn L1. apply for_step_len. intros d l2 Hd L2. destruct (band_st q 1 dim nf U u HU d Hd) as (_ & _ & E3 & E4 & M1 & _ & B1 & _). rewrite E3, E4. cbn [obind].
      apply for_step_len. intros i l3 Hi L3. replace (row d * q + (row (S d) - row d) * n + i)%nat with (row d * q + ((row d + i - row d) + (row (S d) - row d) * n))%nat by lia. rewrite H by (auto; lia). cbn [obind].
      assert (row d + i + dim * n < dim * q)%nat by (apply cell_lt; lia). apply step_wr; [lia|]. exists n, (row d + i)%nat. repeat split; auto; lia.
    + exists op'. split; [exact E'|]. split; [exact L'|]. split.
      * intros n k Hn Hk. destruct (starts_find (fun d => row d) (nparts U) dim k R0 RP Hk) as (d & Hd & Hs).
        destruct (A' (k + dim * n)%nat) as (x & Ex & (n' & k' & Hn' & Hk' & Ec & ->)); [exists n; split; [exact Hn|]; exists d; split; [exact Hd|]; exists (k - row d)%nat; split; [lia|lia]|].
        rewrite Ex. destruct (cell_inj dim k n k' n' Hk Hk' Ec) as [<- <-]. reflexivity.
      * intros c Hc. destruct (K' c) as [|(n & Hn & d & Hd & i & Hi & ->)]; [assumption|]. exfalso. destruct (band_st q 1 dim nf U u HU d Hd) as (_ & _ & _ & _ & M1 & _ & B1 & _).
        assert (row d + i + dim * n < dim * q)%nat by (apply cell_lt; lia). lia.
Qed.
End AP.

Theorem fem3Dtet_fusive_ok : forall k sym FV (constant normal : bool) q f dimA dimB nfA nfB U V u v w mes NRM DIFF lmem EX DU A (T : nat -> nat -> tensor),
  let nD := (if normal then 3 else 1)%nat in
  (0 < q)%nat -> (0 < f)%nat -> (0 < dimA)%nat -> (0 < dimB)%nat ->
  band_of U dimA nfA q f u -> band_of V dimB nfB q f v ->
  (forall r n, (r < f)%nat -> (n < q)%nat -> tensor_ok (dimB * nD) dimA nfA (T r n) /\ fus_vals k sym (T r n) (FV r n)) ->
  (constant = true -> forall r n, (r < f)%nat -> (n < q)%nat -> T r n = T 0%nat 0%nat) ->
  (q <= length w)%nat -> (f <= length mes)%nat -> (3 * f <= length NRM)%nat -> (dimB * nD * dimA <= length lmem)%nat ->
  (dimB * nD * dimA * q * f <= length DIFF)%nat -> (dimB * nfA * q * f <= length DIFF)%nat -> (nfA * nfB * f <= length EX)%nat -> (dimB * nD * q * nfA * f <= length DU)%nat -> (nfB * nfA * f <= length A)%nat ->
  exists A', fem3Dtet_fusive k sym FV constant normal q f dimA dimB nfA nfB U V w mes NRM DIFF lmem EX DU A = Some A' /\ length A' = length A /\
    (forall r ia ib, (r < f)%nat -> (ia < nfA)%nat -> (ib < nfB)%nat -> rd A' (ib + nfB * (ia + nfA * r)) =
      Some (form q dimA dimB (fun n => nth n w 0) (nth r mes 0) (fun n => tmat (T r n) (dimB * nD) dimA) (fun c => nth (3 * r + c) NRM 0) normal (fun n j => u r n j ia) (fun n k => v r n k ib))) /\
    (forall c, (nfB * nfA * f <= c)%nat -> rd A' c = rd A c).
Proof.
  intros k sym FV constant normal q f dimA dimB nfA nfB U V u v w mes NRM DIFF lmem EX DU A T nD Hq Hf HdA HdB HU HV HT HC Lw Lm LN LM LD1 LD2 LE LU LA.
  unfold fem3Dtet_fusive. fold nD. set (jd := (dimB * nD)%nat) in *.
  assert (Hjd : (0 < jd)%nat) by (unfold jd, nD; destruct normal; lia).
  destruct (zero_ok q f jd dimB nD nfA U u dimA (vv dimA u (fun n => nth n w 0) (fun r => nth r mes 0) (fun r n => tmat (T r n) jd dimA)) DU HU eq_refl LU) as (DU1 & E1 & L1 & R1). rewrite E1. cbn [obind].
  destruct (apply_DU_fusive_ok k sym FV constant q f jd dimA nfA U u w mes (fun n => nth n w 0) (fun r => nth r mes 0) T DIFF lmem DU1 HU (rd_nth_arr w q Lw) (rd_nth_arr mes f Lm) Hq Hf HdA Hjd HT HC) as (DU2 & E2 & S2); [lia|lia|lia|exact R1|].
  rewrite E2. cbn [obind].
  apply (finish_ok normal q f dimA dimB nfA nfB V u v (fun n => nth n w 0) (fun r => nth r mes 0) NRM DIFF EX DU2 A (fun r n => tmat (T r n) jd dimA)); auto.
  - exact (result_of_step q f jd nfA _ DU1 DU2 S2).
  - destruct S2 as (L2 & _). fold nD. fold jd. lia.
Qed.
