(** applyDU for every combination of tensor traits. *)
From Verif Require Import Prelude RSum DirProofs2 DenseProofs2 DenseProofs3 CoreModel CoreSpec CoreProofs CoreProofs2 CoreProofs3.
Local Open Scope R_scope.

Section APP.
Variables (F : functor) (q f jdim idim nfa : nat) (U : band) (u : nat -> nat -> nat -> nat -> R) (w mes XYG : list R) (wt vol : nat -> R).
Hypothesis HU : band_of U idim nfa q f u.
Hypothesis Hw : forall n, (n < q)%nat -> rd w n = Some (wt n).
Hypothesis Hmes : forall r, (r < f)%nat -> rd mes r = Some (vol r).
Hypothesis Hq : (0 < q)%nat.
Hypothesis Hf : (0 < f)%nat.
Hypothesis Hi0 : (0 < idim)%nat.
Hypothesis Hj0 : (0 < jdim)%nat.
Local Notation X := (xyz q XYG).
Definition TT (r n : nat) : tensor := F (xyz q XYG r n) r.
Definition Dm (r n k j : nat) : R := tmat (TT r n) jdim idim k j.
Local Notation V := (vv idim u wt vol Dm).
Local Notation B := (idim * jdim)%nat.
Local Notation off := (off_at q idim jdim).
Local Notation ALL := (fun c => exists r, (r < f)%nat /\ Sr q jdim nfa r c).
Hypothesis HT : forall r n, (r < f)%nat -> (n < q)%nat -> tensor_ok jdim idim nfa (TT r n).
Hypothesis HX : (3 * (q * f) <= length XYG)%nat.

Lemma pnt_ok : forall r n, (r < f)%nat -> (n < q)%nat -> pnt q XYG r n = Some (X r n).
Proof.
  intros r n Hr Hn. unfold pnt, xyz. assert (n + r * q < q * f)%nat by (pose proof (cell_lt q f n r Hn Hr); lia).
  rewrite !rd_nth0 by lia. reflexivity.
Qed.
(** stored tensors, all of the same kind *)
Lemma kind_ok_of : forall k D o, (forall r n, (r < f)%nat -> (n < q)%nat -> kind (TT r n) = k) ->
  (forall r n e x, (r < f)%nat -> (n < q)%nat -> W jdim idim (TT r n) e = Some x -> rd D (o r n + e) = Some x) -> kind_ok q f jdim idim nfa Dm k D o.
Proof.
  intros k D o Hk HD. pose proof (HT 0 0 Hf Hq) as H0. pose proof (Hk 0%nat 0%nat Hf Hq) as K0. destruct k; cbn [kind_ok].
  - split; [destruct (TT 0 0); cbn in K0; try discriminate; exact H0|]. intros r n k j Hr Hn _ _. specialize (Hk r n Hr Hn). unfold Dm. destruct (TT r n); cbn in Hk; try discriminate. reflexivity.
  - split; [destruct (TT 0 0); cbn in K0; try discriminate; exact H0|]. exists (fun r n => match TT r n with TScalar s => s | _ => 0 end). intros r n Hr Hn. specialize (Hk r n Hr Hn).
    pose proof (HD r n 0%nat) as HD0. unfold Dm. destruct (TT r n) as [|s|m|m]; cbn in Hk; try discriminate. split; [|reflexivity]. specialize (HD0 s Hr Hn eq_refl). now rewrite Nat.add_0_r in HD0.
  - intros r n k j Hr Hn Hk' Hj. apply HD; auto. apply W_full; auto.
Qed.

Definition T' (m : nat) : tensor := TT (m / q) (m mod q).
Lemma T'_slot : forall r n, (n < q)%nat -> T' (n + q * r) = TT r n.
Proof. intros r n Hn. unfold T'. destruct (cell_split q n r Hn) as [E1 E2]. now rewrite E1, E2. Qed.
Lemma slot_bound : forall r n, (r < f)%nat -> (n < q)%nat -> (off r n + B <= B * (q * f))%nat.
Proof. intros r n Hr Hn. unfold off_at. pose proof (cell_lt q f n r Hn Hr). nia. Qed.
Lemma eval_point : forall r n it D, (r < f)%nat -> (n < q)%nat -> F (X r n) it = TT r n -> (B * (q * f) <= length D)%nat ->
  exists D', dfunc F (X r n) jdim idim it D (off r n) = Some (kind (TT r n), D') /\ step (Wset jdim idim (TT r n) (off r n)) (Sval jdim idim T') D D'.
Proof.
  intros r n it D Hr Hn ET HL. pose proof (slot_bound r n Hr Hn). destruct (dfunc_ok jdim idim nfa Hi0 Hj0 F (X r n) it D (off r n)) as (D' & E & St); [rewrite ET; auto|lia|].
  rewrite ET in *. exists D'. split; [exact E|]. eapply step_weak; [exact St|intros; reflexivity|]. intros c x _ Hx. apply (Wval_Sval jdim idim T' (n + q * r) (TT r n)); [now apply T'_slot|exact Hx].
Qed.
Lemma eval_rows : forall lo cnt (it : nat -> nat) D, (lo + cnt <= f)%nat -> (forall r n, (lo <= r < lo + cnt)%nat -> (n < q)%nat -> F (X r n) (it r) = TT r n) -> (B * (q * f) <= length D)%nat ->
  exists D', for_range lo cnt (fun r D => for_ q (fun n D => do x <- pnt q XYG r n; do kD <- dfunc F x jdim idim (it r) D (off r n); Some (snd kD)) D) D = Some D' /\
    step (fun c => exists r, (lo <= r < lo + cnt)%nat /\ exists n, (n < q)%nat /\ Wset jdim idim (TT r n) (off r n) c) (Sval jdim idim T') D D'.
Proof.
  intros lo cnt it D Hlo Hit HL. apply for_range_step_len. intros r l1 Hr L1. apply for_step_len. intros n l2 Hn L2. rewrite pnt_ok by lia. cbn [obind].
  destruct (eval_point r n (it r) l2) as (D' & E & St); auto; try lia. rewrite E. cbn [obind snd]. now exists D'.
Qed.
Lemma eval_all_ok : forall chk D, (forall r n, (r < f)%nat -> (n < q)%nat -> chk (kind (TT r n)) = true) -> (B * (q * f) <= length D)%nat ->
  exists D', eval_all F chk q f jdim idim XYG D = Some D' /\ forall r n e x, (r < f)%nat -> (n < q)%nat -> W jdim idim (TT r n) e = Some x -> rd D' (off r n + e) = Some x.
Proof.
  intros chk D Hchk HL. unfold eval_all.
  destruct (for_step_len (fun r c => exists n, (n < q)%nat /\ Wset jdim idim (TT r n) (off r n) c) (Sval jdim idim T') f
    (fun r D => for_ q (fun n D => do x <- pnt q XYG r n; do kD <- dfunc F x jdim idim r D (off r n); do _ <- guard (chk (fst kD)); Some (snd kD)) D) D) as (D' & E & _ & A & _).
  { intros r l1 Hr L1. apply for_step_len. intros n l2 Hn L2. rewrite pnt_ok by lia. cbn [obind].
    destruct (eval_point r n r l2) as (D' & E & St); auto; try lia. rewrite E. cbn [obind snd fst]. rewrite Hchk by assumption. cbn [guard obind]. now exists D'. }
  exists D'. split; [exact E|]. intros r n e x Hr Hn HW. destruct (A (off r n + e)%nat) as (y & Ey & Hy); [exists r; split; [exact Hr|]; exists n; split; [exact Hn|]; exists e, x; auto|].
  rewrite Ey. f_equal. apply (Sval_fun jdim idim Hi0 Hj0 T' (n + q * r) e y x); [exact Hy|]. now rewrite T'_slot.
Qed.

Lemma fill_all_ok : forall D, (B * (q * f) <= length D)%nat ->
  exists D', for_ f (fun r D => for_ q (fun n D => do x <- pnt q XYG r n; do kD <- dfunc F x jdim idim r D (off r n); fill_diag idim jdim nfa (fst kD) (snd kD) (off r n)) D) D = Some D' /\
    forall r n k j, (r < f)%nat -> (n < q)%nat -> (k < jdim)%nat -> (j < idim)%nat -> rd D' (off r n + (j + idim * k)) = Some (Dm r n k j).
Proof.
  intros D HL.
  destruct (for_step_len (fun r c => exists n, (n < q)%nat /\ (off r n <= c < off r n + B)%nat) (fun c x => exists r n, (n < q)%nat /\ Fval jdim idim (TT r n) (off r n) c x) f
    (fun r D => for_ q (fun n D => do x <- pnt q XYG r n; do kD <- dfunc F x jdim idim r D (off r n); fill_diag idim jdim nfa (fst kD) (snd kD) (off r n)) D) D) as (D' & E & _ & A & _).
  { intros r l1 Hr L1. apply for_step_len. intros n l2 Hn L2. rewrite pnt_ok by lia. cbn [obind]. pose proof (slot_bound r n Hr Hn).
    destruct (fill_ok jdim idim nfa Hi0 Hj0 F (X r n) r l2 (off r n)) as (kD & D' & E1 & E2 & St); [now apply HT|lia|]. rewrite E1. cbn [obind]. exists D'. split; [exact E2|].
    eapply step_weak; [exact St|reflexivity|]. intros c x _ Hx. exists r, n. auto. }
  exists D'. split; [exact E|]. intros r n k j Hr Hn Hk Hj. pose proof (cell_lt idim jdim j k Hj Hk) as Hc.
  destruct (A (off r n + (j + idim * k))%nat) as (y & Ey & (r' & n' & Hn' & e & He & Ec & ->)); [exists r; split; [exact Hr|]; exists n; split; [exact Hn|lia]|].
  rewrite Ey. f_equal. unfold off_at in Ec. destruct (slot_inj jdim idim Hi0 Hj0 _ _ _ _ Hc He Ec) as [Es <-]. destruct (cell_inj q n r n' r' Hn Hn' Es) as [<- <-].
  destruct (cell_split idim j k Hj) as [E1 E2]. rewrite E1, E2. reflexivity.
Qed.

Lemma kind_is_refl : forall k, kind_is k k = true.
Proof. destruct k; reflexivity. Qed.

(** PerTetra: the points of one element, stored from offset 0 *)
Lemma tetra_eval : forall r D, (r < f)%nat -> (B * q <= length D)%nat ->
  exists kD, dfunc F (X r 0%nat) jdim idim r D 0 = Some kD /\ fst kD = kind (TT r 0) /\ length (snd kD) = length D /\
   exists D', for_range 1 (q - 1) (fun n D => do x <- pnt q XYG r n; do kD <- dfunc F x jdim idim r D (B * n); Some (snd kD)) (snd kD) = Some D' /\ length D' = length D /\
     forall n e x, (n < q)%nat -> W jdim idim (TT r n) e = Some x -> rd D' (B * n + e) = Some x.
Proof.
  intros r D Hr HL. destruct (dfunc_ok jdim idim nfa Hi0 Hj0 F (X r 0%nat) r D 0) as (D1 & E1 & S1); [now apply HT|nia|].
  exists (kind (TT r 0), D1). split; [exact E1|]. split; [reflexivity|]. cbn [snd]. split; [apply S1|].
  assert (S1' : step (Wset jdim idim (TT r 0) (B * 0)) (Sval jdim idim (TT r)) D D1).
  { eapply step_weak; [exact S1|rewrite Nat.mul_0_r; reflexivity|]. intros c x _ Hx. apply (Wval_Sval jdim idim (TT r) 0 (TT r 0)); [reflexivity|]. now rewrite Nat.mul_0_r. }
  destruct (for_range_step_len (fun n c => Wset jdim idim (TT r n) (B * n) c) (Sval jdim idim (TT r)) (q - 1) 1
    (fun n D => do x <- pnt q XYG r n; do kD <- dfunc F x jdim idim r D (B * n); Some (snd kD)) D1) as (D2 & E2 & S2).
  { intros n l Hn Ll. rewrite pnt_ok by lia. cbn [obind]. destruct S1 as (L1 & _).
    destruct (dfunc_ok jdim idim nfa Hi0 Hj0 F (X r n) r l (B * n)) as (D' & E & St); [apply HT; lia|nia|]. rewrite E. cbn [obind snd]. exists D'. split; [reflexivity|].
    eapply step_weak; [exact St|reflexivity|]. intros c x _ Hx. apply (Wval_Sval jdim idim (TT r) n (TT r n)); auto. }
  exists D2. split; [exact E2|]. pose proof (step_trans _ _ _ _ _ _ S1' S2) as (L & A & _). split; [exact L|].
  intros n e x Hn HW. destruct (A (B * n + e)%nat) as (y & Ey & Hy).
  { destruct n as [|n]; [left|right; exists (S n); split; [lia|]]; exists e, x; auto. }
  rewrite Ey. f_equal. now apply (Sval_fun jdim idim Hi0 Hj0 (TT r) n e y x).
Qed.

Lemma per_tetra_ok : forall DIFF DU, (forall r n, (r < f)%nat -> (n < q)%nat -> kind (TT r n) = kind (TT r 0)) ->
  (B * (q * f) <= length DIFF)%nat -> (jdim * q * nfa * f <= length DU)%nat -> ready q f jdim nfa U V DU ->
  exists DU', apply_DU F false PerTetra q f jdim idim nfa U w mes XYG DIFF DU = Some DU' /\ step ALL (Pv q f jdim nfa V) DU DU'.
Proof.
  intros DIFF DU Hk HL HLU HR. unfold apply_DU.
  match goal with |- context [for_ f ?b (DIFF, DU)] => set (body := b) end.
  destruct (for_inv (fun r st => length (fst st) = length DIFF /\ step (fun c => exists r', (r' < r)%nat /\ Sr q jdim nfa r' c) (Pv q f jdim nfa V) DU (snd st)) f body (DIFF, DU)) as (st & E & _ & St).
  { cbn [fst snd]. split; [reflexivity|]. apply (step_weak (fun _ => False) _ (Pv q f jdim nfa V) (Pv q f jdim nfa V)); [apply step_refl| |auto]. intros c. split; [intros []|]. intros (r & Hr & _). lia. }
  { intros r [D l] Hr (LD & St). cbn [fst snd] in *. unfold body.
    assert (Hstep : forall l', step (Sr q jdim nfa r) (Pv q f jdim nfa V) l l' -> step (fun c => exists r', (r' < S r)%nat /\ Sr q jdim nfa r' c) (Pv q f jdim nfa V) DU l').
    { intros l' Sl. eapply step_weak; [exact (step_trans _ _ _ _ _ _ St Sl)| |auto]. intros c. split.
      - intros [(r' & Hr' & H)|H]; [exists r'|exists r]; split; auto; lia.
      - intros (r' & Hr' & H). destruct (Nat.eq_dec r' r) as [->|]; [now right|]. left. exists r'. split; [lia|exact H]. }
    assert (LU : (jdim * q * nfa * f <= length l)%nat) by (destruct St as (L & _); lia).
    assert (RU : ready q f jdim nfa U V l) by (eapply ready_step; [exact St|exact HR]).
    rewrite pnt_ok by (auto; lia). cbn [obind]. destruct (tetra_eval r D Hr) as (kD & E1 & Ek & LD1 & D2 & E2 & LD2 & HW); [nia|].
    rewrite E1. cbn [obind]. pose proof (HT r 0 Hr Hq) as Ht0. assert (Hkr : forall n, (n < q)%nat -> kind (TT r n) = fst kD) by (intros n Hn; rewrite Ek; now apply Hk).
    destruct (fst kD) eqn:Efk.
    - assert (Hc : compatP jdim idim nfa) by (destruct (TT r 0); cbn in Ek; try discriminate; exact Ht0). rewrite (compat_true _ _ _ Hc). cbn [guard obind].
      destruct (diag_elem_ok q f jdim idim nfa U u w mes wt vol HU Hw Hmes Hq Hf Hi0 Hj0 Dm (fun _ => Some 1) (fun _ => 1) r l Hr Hc LU RU) as (l1 & l2 & F1 & F2 & Sl); [reflexivity| |].
      { intros n k j Hn _ _. specialize (Hkr n Hn). unfold Dm. destruct (TT r n); cbn in Hkr; try discriminate. cbn. lra. }
      rewrite F1. cbn [obind]. rewrite F2. cbn [obind]. eexists. split; [reflexivity|]. cbn [fst snd]. split; [congruence|auto].
    - assert (Hc : compatP jdim idim nfa) by (destruct (TT r 0); cbn in Ek; try discriminate; exact Ht0). rewrite (compat_true _ _ _ Hc). cbn [guard obind].
      rewrite E2. cbn [obind].
      destruct (diag_elem_ok q f jdim idim nfa U u w mes wt vol HU Hw Hmes Hq Hf Hi0 Hj0 Dm (fun n => rd D2 (B * n)) (fun n => match TT r n with TScalar s => s | _ => 0 end) r l Hr Hc LU RU) as (l1 & l2 & F1 & F2 & Sl).
      { intros n Hn. specialize (Hkr n Hn). pose proof (HW n 0%nat) as HW0. destruct (TT r n) as [|s|m|m]; cbn in Hkr; try discriminate. rewrite <- (HW0 s Hn eq_refl). f_equal. lia. }
      { intros n k j Hn _ _. specialize (Hkr n Hn). unfold Dm. destruct (TT r n); cbn in Hkr; try discriminate. reflexivity. }
      rewrite F1. cbn [obind]. rewrite F2. cbn [obind]. eexists. split; [reflexivity|]. cbn [fst snd]. split; [congruence|auto].
    - rewrite E2. cbn [obind].
      destruct (du_gen_ok q f jdim idim nfa U u w mes wt vol HU Hw Hmes V D2 (fun n => (B * n)%nat) (Dm r) r l Hr LU) as (l1 & F1 & Sl).
      { intros n k j Hn Hk' Hj. apply HW; [exact Hn|]. apply W_full; auto. }
      { reflexivity. }
      rewrite F1. cbn [obind]. eexists. split; [reflexivity|]. cbn [fst snd]. split; [congruence|auto]. }
  rewrite E. cbn [obind]. exists (snd st). split; [reflexivity|exact St].
Qed.

Definition sel_index (sp : sparsity) : Prop :=
  sp = PerSelection -> kind (TT 0 0) = KFull -> forall r n, (r < f)%nat -> (n < q)%nat -> F (X r n) 0%nat = F (X r n) r.
Lemma apply_DU_ok : forall constant sp DIFF DU, promise F constant sp q f X -> (constant = false -> sel_index sp) ->
  (B * (q * f) <= length DIFF)%nat -> (jdim * q * nfa * f <= length DU)%nat -> ready q f jdim nfa U V DU ->
  exists DU', apply_DU F constant sp q f jdim idim nfa U w mes XYG DIFF DU = Some DU' /\ step ALL (Pv q f jdim nfa V) DU DU'.
Proof.
  intros constant sp DIFF DU (HC & HP) Hsel HL HLU HR.
  assert (GO : forall k D o, kind_ok q f jdim idim nfa Dm k D o -> exists DU', du_by_kind k q f jdim idim nfa U w mes D o DU = Some DU' /\ step ALL (Pv q f jdim nfa V) DU DU').
  { intros k D o Hk. apply (du_by_kind_ok q f jdim idim nfa U u w mes wt vol); auto. }
  destruct constant.
  - specialize (HC eq_refl). set (t0 := F (0, 0, 0) 0%nat) in *.
    assert (ET : forall r n, (r < f)%nat -> (n < q)%nat -> TT r n = t0) by (intros; unfold TT; now apply HC).
    destruct (dfunc_ok jdim idim nfa Hi0 Hj0 F (0, 0, 0) 0 DIFF 0) as (D & E & S1); [fold t0; rewrite <- (ET 0%nat 0%nat Hf Hq); now apply HT|nia|]. fold t0 in E, S1.
    assert (KO : kind_ok q f jdim idim nfa Dm (kind t0) D (fun _ _ => 0%nat)).
    { apply kind_ok_of; [intros; now rewrite ET|]. intros r n e x Hr Hn HW. rewrite ET in HW by assumption. destruct S1 as (_ & A & _).
      destruct (A (0 + e)%nat) as (y & Ey & (e' & He' & Ee)); [exists e, x; auto|]. rewrite Ey. f_equal. replace e' with e in He' by lia. congruence. }
    destruct sp as [| | |k]; unfold apply_DU; try (rewrite E; cbn [obind fst snd]; now apply GO).
    assert (K0 : kind t0 = k) by (rewrite <- (ET 0%nat 0%nat Hf Hq); now apply HP).
    destruct k.
    + apply GO. apply kind_ok_of; [intros; now rewrite ET|]. intros r n e x Hr Hn HW. rewrite ET in HW by assumption. destruct t0; cbn in K0; try discriminate.
    + rewrite E. cbn [obind fst snd]. rewrite K0, kind_is_refl. cbn [guard obind]. apply GO. now rewrite <- K0.
    + rewrite E. cbn [obind fst snd]. rewrite K0, kind_is_refl. cbn [guard obind]. apply GO. now rewrite <- K0.
  - clear HC. destruct sp as [| | |k]; unfold apply_DU.
    + destruct (fill_all_ok DIFF HL) as (D & E & HD). rewrite E. cbn [obind]. apply GO. exact HD.
    + apply per_tetra_ok; auto.
    + specialize (Hsel eq_refl eq_refl). rewrite pnt_ok by assumption. cbn [obind]. 
      destruct (eval_point 0 0 0 DIFF Hf Hq eq_refl HL) as (D1 & E1 & S1). replace (off 0 0) with 0%nat in E1 by (unfold off_at; lia). rewrite E1. cbn [obind fst snd].
      assert (K : forall r n, (r < f)%nat -> (n < q)%nat -> kind (TT r n) = kind (TT 0 0)) by exact HP.
      assert (Full : forall k it, k = kind (TT 0 0) -> (forall r n, (r < f)%nat -> (n < q)%nat -> F (X r n) (it r) = TT r n) -> exists D,
        (do D <- for_range 1 (q - 1) (fun n D => do x <- pnt q XYG 0 n; do kD <- dfunc F x jdim idim 0 D (off 0 n); Some (snd kD)) D1;
            for_range 1 (f - 1) (fun r D => for_ q (fun n D => do x <- pnt q XYG r n; do kD <- dfunc F x jdim idim (it r) D (off r n); Some (snd kD)) D) D) = Some D /\
        kind_ok q f jdim idim nfa Dm k D off).
      { intros k it -> Hit. destruct (for_range_step_len (fun n c => Wset jdim idim (TT 0 n) (off 0 n) c) (Sval jdim idim T') (q - 1) 1
          (fun n D => do x <- pnt q XYG 0 n; do kD <- dfunc F x jdim idim 0 D (off 0 n); Some (snd kD)) D1) as (D2 & E2 & S2).
        { intros n l Hn Ll. rewrite pnt_ok by lia. cbn [obind]. destruct S1 as (L1 & _). destruct (eval_point 0 n 0 l Hf ltac:(lia) eq_refl ltac:(lia)) as (D' & E & St). rewrite E. cbn [obind snd]. now exists D'. }
        rewrite E2. cbn [obind]. pose proof (step_trans _ _ _ _ _ _ S1 S2) as S12.
        destruct (eval_rows 1 (f - 1) it D2) as (D3 & E3 & S3); [lia|intros r n Hr Hn; apply Hit; lia|destruct S12 as (L & _); lia|].
        exists D3. split; [exact E3|]. apply kind_ok_of; [exact K|]. intros r n e x Hr Hn HW. pose proof (step_trans _ _ _ _ _ _ S12 S3) as (_ & A & _).
        destruct (A (off r n + e)%nat) as (y & Ey & Hy).
        { destruct r as [|r]; [left; destruct n as [|n]; [left|right; exists (S n); split; [lia|]]|right; exists (S r); split; [lia|]; exists n; split; [exact Hn|]]; exists e, x; auto. }
        rewrite Ey. f_equal. apply (Sval_fun jdim idim Hi0 Hj0 T' (n + q * r) e y x); [exact Hy|]. now rewrite T'_slot. }
      destruct (kind (TT 0 0)) eqn:K0; cbn [obind].
      * apply GO. apply kind_ok_of; [exact K|]. intros r n e x Hr Hn HW. specialize (K r n Hr Hn). destruct (TT r n); cbn in K; try discriminate.
      * destruct (Full KScalar (fun r => r) eq_refl) as (D & E & KO); [reflexivity|]. rewrite E. cbn [obind]. now apply GO.
      * destruct (Full KFull (fun _ => 0%nat) eq_refl) as (D & E & KO); [intros r n Hr Hn; now apply Hsel|]. rewrite E. cbn [obind]. now apply GO.
    + destruct k.
      * apply GO. apply kind_ok_of; [exact HP|]. intros r n e x Hr Hn HW. specialize (HP r n Hr Hn). unfold TT in HW. destruct (F (X r n) r); cbn in HP; try discriminate.
      * destruct (eval_all_ok (kind_is KScalar) DIFF) as (D & E & HD); [intros r n Hr Hn; unfold TT; rewrite HP by assumption; reflexivity|exact HL|]. rewrite E. cbn [obind]. apply GO. now apply kind_ok_of.
      * destruct (eval_all_ok (kind_is KFull) DIFF) as (D & E & HD); [intros r n Hr Hn; unfold TT; rewrite HP by assumption; reflexivity|exact HL|]. rewrite E. cbn [obind]. apply GO. now apply kind_ok_of.
Qed.
End APP.
