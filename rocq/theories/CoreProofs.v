(** Loops that write every cell at most with one meaning, and the fused products. *)
From Verif Require Import Prelude RSum DirProofs2 DenseProofs2 CoreModel CoreSpec.
Local Open Scope R_scope.

(** [step S P l l']: the cells of S now hold values allowed by P, nothing else changed *)
Definition step (S : nat -> Prop) (P : nat -> R -> Prop) (l l' : list R) : Prop :=
  length l' = length l /\ (forall c, S c -> exists x, rd l' c = Some x /\ P c x) /\ (forall c, rd l' c = rd l c \/ S c).
Lemma step_refl : forall P l, step (fun _ => False) P l l.
Proof. intros P l. split; [reflexivity|]. split; [intros c []|]. intros c. now left. Qed.
Lemma step_trans : forall S1 S2 P l1 l2 l3, step S1 P l1 l2 -> step S2 P l2 l3 -> step (fun c => S1 c \/ S2 c) P l1 l3.
Proof.
  intros S1 S2 P l1 l2 l3 (A1 & B1 & C1) (A2 & B2 & C2). split; [congruence|]. split.
  - intros c [H|H]; [|now apply B2]. destruct (C2 c) as [E|E]; [|now apply B2]. rewrite E. now apply B1.
  - intros c. destruct (C2 c) as [E|E]; [|tauto]. rewrite E. destruct (C1 c); tauto.
Qed.
Lemma step_weak : forall (S S' : nat -> Prop) (P P' : nat -> R -> Prop) l l', step S P l l' -> (forall c, S c <-> S' c) -> (forall c x, S c -> P c x -> P' c x) -> step S' P' l l'.
Proof.
  intros S S' P P' l l' (A & B & C) HS HP. split; [exact A|]. split.
  - intros c Hc. apply HS in Hc. destruct (B c Hc) as (x & E & Hx). exists x. split; [exact E|]. now apply HP.
  - intros c. destruct (C c) as [E|E]; [now left|]. right. now apply HS.
Qed.
Lemma step_wr : forall (P : nat -> R -> Prop) l c x, (c < length l)%nat -> P c x -> exists l', wr l c x = Some l' /\ step (fun c' => c' = c) P l l'.
Proof.
  intros P l c x Hc HP. destruct (wr_some l c x Hc) as (l' & E & L & H). exists l'. split; [exact E|]. split; [exact L|]. split.
  - intros c' ->. exists x. split; [|exact HP]. rewrite H. now rewrite Nat.eqb_refl.
  - intros c'. rewrite H. destruct (Nat.eqb_spec c' c); [now right|now left].
Qed.
Lemma step_keep : forall (S : nat -> Prop) P l l' c, step S P l l' -> ~ S c -> rd l' c = rd l c.
Proof. intros S P l l' c (_ & _ & C) H. destruct (C c); tauto. Qed.
Lemma for_range_step : forall (S : nat -> nat -> Prop) P (I : list R -> Prop) n lo body l, I l ->
  (forall i l, (lo <= i < lo + n)%nat -> I l -> exists l', body i l = Some l' /\ step (S i) P l l' /\ I l') ->
  exists l', for_range lo n body l = Some l' /\ step (fun c => exists i, (lo <= i < lo + n)%nat /\ S i c) P l l' /\ I l'.
Proof.
  intros S P I n. induction n as [|n IH]; intros lo body l H0 H.
  - exists l. split; [reflexivity|]. split; [|exact H0]. apply (step_weak (fun _ => False) _ P P); [apply step_refl| |auto]. intros c. split; [intros []|]. intros (i & Hi & _). lia.
  - destruct (H lo l) as (l1 & E1 & S1 & I1); [lia|exact H0|]. destruct (IH (Datatypes.S lo) body l1 I1) as (l2 & E2 & S2 & I2).
    + intros i l' Hi. apply H. lia.
    + exists l2. split; [cbn [for_range]; rewrite E1; exact E2|]. split; [|exact I2].
      eapply step_weak; [exact (step_trans _ _ _ _ _ _ S1 S2)| |auto]. intros c. split.
      * intros [Hc|(i & Hi & Hc)]; [exists lo; split; [lia|exact Hc]|exists i; split; [lia|exact Hc]].
      * intros (i & Hi & Hc). destruct (Nat.eq_dec i lo) as [->|]; [now left|]. right. exists i. split; [lia|exact Hc].
Qed.
Lemma for_step : forall (S : nat -> nat -> Prop) P (I : list R -> Prop) n body l, I l ->
  (forall i l, (i < n)%nat -> I l -> exists l', body i l = Some l' /\ step (S i) P l l' /\ I l') ->
  exists l', for_ n body l = Some l' /\ step (fun c => exists i, (i < n)%nat /\ S i c) P l l' /\ I l'.
Proof.
  intros S P I n body l H0 H. destruct (for_range_step S P I n 0 body l H0) as (l' & E & St & Hl).
  - intros i l' Hi. apply H. lia.
  - exists l'. split; [exact E|]. split; [|exact Hl]. eapply step_weak; [exact St| |auto]. intros c. split; intros (i & Hi & Hc); exists i; split; try lia; exact Hc.
Qed.
(** the common case: the only invariant is the length *)
Lemma for_step_len : forall (S : nat -> nat -> Prop) P n body l,
  (forall i l1, (i < n)%nat -> length l1 = length l -> exists l', body i l1 = Some l' /\ step (S i) P l1 l') ->
  exists l', for_ n body l = Some l' /\ step (fun c => exists i, (i < n)%nat /\ S i c) P l l'.
Proof.
  intros S P n body l H. destruct (for_step S P (fun l1 => length l1 = length l) n body l eq_refl) as (l' & E & St & _).
  - intros i l1 Hi L. destruct (H i l1 Hi L) as (l' & E & St). exists l'. split; [exact E|]. split; [exact St|]. destruct St as (A & _). congruence.
  - now exists l'.
Qed.
Lemma for_range_step_len : forall (S : nat -> nat -> Prop) P n lo body l,
  (forall i l1, (lo <= i < lo + n)%nat -> length l1 = length l -> exists l', body i l1 = Some l' /\ step (S i) P l1 l') ->
  exists l', for_range lo n body l = Some l' /\ step (fun c => exists i, (lo <= i < lo + n)%nat /\ S i c) P l l'.
Proof.
  intros S P n lo body l H. destruct (for_range_step S P (fun l1 => length l1 = length l) n lo body l eq_refl) as (l' & E & St & _).
  - intros i l1 Hi L. destruct (H i l1 Hi L) as (l' & E & St). exists l'. split; [exact E|]. split; [exact St|]. destruct St as (A & _). congruence.
  - now exists l'.
Qed.

(** sums over a sub-range *)
Lemma for_range_sum : forall n lo (f : nat -> R) body s0, (forall i s, (lo <= i < lo + n)%nat -> body i s = Some (s + f i)) ->
  for_range lo n body s0 = Some (s0 + Rsum n (fun i => f (lo + i)%nat)).
Proof.
  induction n as [|n IH]; intros lo f body s0 H; [cbn; f_equal; lra|]. cbn [for_range]. rewrite H by lia. cbn [obind].
  rewrite (IH (S lo) f) by (intros; apply H; lia). f_equal. rewrite (Rsum_head n (fun i => f (lo + i)%nat)). rewrite Nat.add_0_r.
  rewrite Rplus_assoc. f_equal. f_equal. apply Rsum_ext. intros i _. f_equal. lia.
Qed.

(** mixed-radix indices *)
Lemma idx_lt : forall a b i j, (i < a)%nat -> (j < b)%nat -> (i + a * j < a * b)%nat.
Proof. exact cell_lt. Qed.

(** [adds D l l']: every cell c grew by D c *)
Definition adds (D : nat -> R) (l l' : list R) : Prop := length l' = length l /\ forall c x, rd l c = Some x -> rd l' c = Some (x + D c).
Lemma for_adds : forall (D : nat -> nat -> R) n body l,
  (forall i l1, (i < n)%nat -> length l1 = length l -> exists l', body i l1 = Some l' /\ adds (D i) l1 l') ->
  exists l', for_ n body l = Some l' /\ adds (fun c => Rsum n (fun i => D i c)) l l'.
Proof.
  intros D n body l H. destruct (for_inv (fun i l1 => adds (fun c => Rsum i (fun i => D i c)) l l1) n body l) as (l' & E & A).
  - split; [reflexivity|]. intros c x E. rewrite E. cbn. f_equal. lra.
  - intros i l1 Hi (L & A). destruct (H i l1 Hi L) as (l2 & E & L2 & A2). exists l2. split; [exact E|]. split; [congruence|].
    intros c x Ec. rewrite (A2 c _ (A c x Ec)). rewrite Rsum_S. f_equal. lra.
  - now exists l'.
Qed.
Lemma adds_wr : forall l c x v, rd l c = Some x -> exists l', wr l c (x + v) = Some l' /\ adds (fun c' => if (c' =? c)%nat then v else 0) l l'.
Proof.
  intros l c x v E. destruct (wr_some l c (x + v) (rd_lt _ _ _ E)) as (l' & W & L & H). exists l'. split; [exact W|]. split; [exact L|].
  intros c' x' E'. rewrite H. destruct (Nat.eqb_spec c' c); [subst; congruence|]. rewrite E'. f_equal. lra.
Qed.

(** *** fusive_AT_mul_B *)
Lemma at_mul_b_ok : forall fuse nRow A oA ACol B oB BCol Rm oR (a b : nat -> nat -> nat -> R),
  (forall r i j, (r < fuse)%nat -> (i < ACol)%nat -> (j < nRow)%nat -> rd A (oA + (j + nRow * (i + ACol * r))) = Some (a r j i)) ->
  (forall r i j, (r < fuse)%nat -> (i < BCol)%nat -> (j < nRow)%nat -> rd B (oB + (j + nRow * (i + BCol * r))) = Some (b r j i)) ->
  (oR + ACol * BCol * fuse <= length Rm)%nat ->
  exists R', at_mul_b fuse nRow A oA ACol B oB BCol Rm oR = Some R' /\ length R' = length Rm /\
    (forall r ia ib, (r < fuse)%nat -> (ia < BCol)%nat -> (ib < ACol)%nat -> rd R' (oR + (ib + ACol * (ia + BCol * r))) = Some (Rsum nRow (fun j => a r j ib * b r j ia))) /\
    (forall c, (c < oR \/ oR + ACol * BCol * fuse <= c)%nat -> rd R' c = rd Rm c).
Proof.
  intros fuse nRow A oA ACol B oB BCol Rm oR a b HA HB HR.
  set (idx r ia ib := (oR + (ib + ACol * (ia + BCol * r)))%nat).
  assert (Hlt : forall r ia ib, (r < fuse)%nat -> (ia < BCol)%nat -> (ib < ACol)%nat -> (ib + ACol * (ia + BCol * r) < ACol * BCol * fuse)%nat).
  { intros r ia ib Hr Hia Hib. rewrite <- Nat.mul_assoc. apply cell_lt; [exact Hib|]. now apply cell_lt. }
  destruct (for_step_len (fun r c => exists ia, (ia < BCol)%nat /\ exists ib, (ib < ACol)%nat /\ c = idx r ia ib)
    (fun c x => exists r ia ib, (r < fuse)%nat /\ (ia < BCol)%nat /\ (ib < ACol)%nat /\ c = idx r ia ib /\ x = Rsum nRow (fun j => a r j ib * b r j ia))
    fuse (fun r Rm => for_ BCol (fun ia Rm => for_ ACol (fun ib Rm =>
    do s <- for_ nRow (fun j s =>
        do b <- rd B (oB + (j + nRow * (ia + BCol * r)));
        do a <- rd A (oA + (j + nRow * (ib + ACol * r)));
        Some (s + b * a)) 0;
    wr Rm (oR + (ib + ACol * (ia + BCol * r))) s) Rm) Rm) Rm) as (R' & E & St).
  - intros r l1 Hr L1. apply for_step_len. intros ia l2 Hia L2. apply for_step_len. intros ib l3 Hib L3.
    rewrite (for_sum nRow (fun j => a r j ib * b r j ia)).
    2:{ intros j s Hj. rewrite HB, HA by assumption. cbn [obind]. f_equal. lra. }
    cbn [obind]. apply step_wr; [specialize (Hlt r ia ib Hr Hia Hib); unfold idx in *; rewrite L3, L2, L1; clear - Hlt HR; lia|]. exists r, ia, ib. repeat split; auto. lra.
  - exists R'. split; [exact E|]. destruct St as (L & S1 & S2). split; [exact L|]. split.
    + intros r ia ib Hr Hia Hib. destruct (S1 (idx r ia ib)) as (x & Ex & (r' & ia' & ib' & Hr' & Hia' & Hib' & Ec & ->)).
      * exists r. split; [exact Hr|]. exists ia. split; [exact Hia|]. exists ib. auto.
      * unfold idx in Ec. apply Nat.add_cancel_l in Ec. destruct (cell_inj ACol ib _ ib' _ Hib Hib' Ec) as [-> Ec2].
        destruct (cell_inj BCol ia r ia' r' Hia Hia' Ec2) as [-> ->]. exact Ex.
    + intros c Hc. destruct (S2 c) as [Hs|(r & Hr & ia & Hia & ib & Hib & ->)]; [exact Hs|]. exfalso. specialize (Hlt r ia ib Hr Hia Hib). unfold idx in Hc. lia.
Qed.

(** *** fusive_A_mul_B *)
Lemma a_mul_b_ok : forall fuse ACol A oA ARow B oB BCol Rm oR (a b old : nat -> nat -> nat -> R),
  (forall r i j, (r < fuse)%nat -> (i < ARow)%nat -> (j < ACol)%nat -> rd A (oA + (i + ARow * (j + ACol * r))) = Some (a r i j)) ->
  (forall r i j, (r < fuse)%nat -> (i < BCol)%nat -> (j < ACol)%nat -> rd B (oB + (j + ACol * (i + BCol * r))) = Some (b r j i)) ->
  (oR + ARow * BCol * Nat.max 1 fuse <= length Rm)%nat ->
  (forall r i j, (r < fuse)%nat -> (i < ARow)%nat -> (j < BCol)%nat -> rd Rm (oR + (i + ARow * (j + BCol * r))) = Some (old r i j)) ->
  exists R', a_mul_b fuse ACol A oA ARow B oB BCol Rm oR = Some R' /\ length R' = length Rm /\
    (forall r i j, (r < fuse)%nat -> (i < ARow)%nat -> (j < BCol)%nat -> rd R' (oR + (i + ARow * (j + BCol * r))) =
       Some ((if (r =? 0)%nat then 0 else old r i j) + Rsum ACol (fun m => a r i m * b r m j))) /\
    (forall c, (c < oR \/ oR + ARow * BCol * Nat.max 1 fuse <= c)%nat -> rd R' c = rd Rm c).
Proof.
  intros fuse ACol A oA ARow B oB BCol Rm oR a b old HA HB HR HO.
  assert (Hlt : forall r ib ia, (r < fuse)%nat -> (ia < BCol)%nat -> (ib < ARow)%nat -> (ib + ARow * (ia + BCol * r) < ARow * BCol * fuse)%nat).
  { intros r ib ia Hr Hia Hib. rewrite <- Nat.mul_assoc. apply cell_lt; [exact Hib|]. now apply cell_lt. }
  unfold a_mul_b.
  destruct (for_step_len (fun i c => c = (oR + i)%nat) (fun c x => x = 0) (ARow * BCol) (fun i Rm => wr Rm (oR + i) 0) Rm) as (R1 & E1 & L1 & S1 & S1').
  { intros i l1 Hi L1. apply step_wr; [nia|reflexivity]. }
  rewrite E1. cbn [obind].
  destruct (for_adds (fun r c => Rsum ACol (fun j => Rsum ARow (fun ib => Rsum BCol (fun ia => if (c =? oR + (ib + ARow * (ia + BCol * r)))%nat then a r ib j * b r j ia else 0)))) fuse
    (fun r Rm => for_ ACol (fun j Rm => for_ ARow (fun ib Rm => for_ BCol (fun ia Rm =>
    do a <- rd A (oA + (ib + ARow * (j + ACol * r)));
    do b <- rd B (oB + (j + ACol * (ia + BCol * r)));
    do x <- rd Rm (oR + (ib + ARow * (ia + BCol * r)));
    wr Rm (oR + (ib + ARow * (ia + BCol * r))) (x + a * b)) Rm) Rm) Rm) R1) as (R2 & E2 & L2 & A2).
  { intros r l1 Hr Hl1. apply (for_adds (fun j c => Rsum ARow (fun ib => Rsum BCol (fun ia => if (c =? oR + (ib + ARow * (ia + BCol * r)))%nat then a r ib j * b r j ia else 0)))).
    intros j l2 Hj Hl2. apply (for_adds (fun ib c => Rsum BCol (fun ia => if (c =? oR + (ib + ARow * (ia + BCol * r)))%nat then a r ib j * b r j ia else 0))).
    intros ib l3 Hib Hl3. apply (for_adds (fun ia c => if (c =? oR + (ib + ARow * (ia + BCol * r)))%nat then a r ib j * b r j ia else 0)).
    intros ia l4 Hia Hl4. rewrite HA, HB by assumption. cbn [obind]. specialize (Hlt r ib ia Hr Hia Hib).
    destruct (rd_some l4 (oR + (ib + ARow * (ia + BCol * r)))) as (x & Ex); [nia|]. rewrite Ex. cbn [obind]. now apply adds_wr. }
  rewrite E2. exists R2. split; [reflexivity|]. split; [congruence|]. split.
  - intros r i j Hr Hi Hj.
    assert (E3 : rd R1 (oR + (i + ARow * (j + BCol * r))) = Some (if (r =? 0)%nat then 0 else old r i j)).
    { destruct (Nat.eqb_spec r 0) as [->|Hr0].
      - destruct (S1 (oR + (i + ARow * (j + BCol * 0)))%nat) as (x & Ex & ->); [|exact Ex]. exists (i + ARow * (j + BCol * 0))%nat. split; [|reflexivity]. rewrite Nat.mul_0_r, Nat.add_0_r. now apply cell_lt.
      - destruct (S1' (oR + (i + ARow * (j + BCol * r)))%nat) as [Hs|(m & Hm & Ec)]; [rewrite Hs; now apply HO|]. exfalso. nia. }
    rewrite (A2 _ _ E3). f_equal. f_equal.
    rewrite (Rsum_single fuse r) by (try exact Hr; intros r' Hr' Hne; apply Rsum_zero; intros m Hm; apply Rsum_zero; intros ib Hib; apply Rsum_zero; intros ia Hia;
      match goal with |- context [(?x =? ?y)%nat] => destruct (Nat.eqb_spec x y) as [Ec|]; [|reflexivity] end;
      apply Nat.add_cancel_l in Ec; destruct (cell_inj ARow i _ ib _ Hi Hib Ec) as [_ Ec2]; destruct (cell_inj BCol j r ia r' Hj Hia Ec2); congruence).
    apply Rsum_ext. intros m Hm.
    rewrite (Rsum_single ARow i) by (try exact Hi; intros ib Hib Hne; apply Rsum_zero; intros ia Hia;
      match goal with |- context [(?x =? ?y)%nat] => destruct (Nat.eqb_spec x y) as [Ec|]; [|reflexivity] end;
      apply Nat.add_cancel_l in Ec; destruct (cell_inj ARow i _ ib _ Hi Hib Ec) as [? _]; congruence).
    rewrite (Rsum_single BCol j); [now rewrite Nat.eqb_refl|exact Hj|]. intros ia Hia Hne.
    match goal with |- context [(?x =? ?y)%nat] => destruct (Nat.eqb_spec x y) as [Ec|]; [|reflexivity] end.
    apply Nat.add_cancel_l in Ec; destruct (cell_inj ARow i _ i _ Hi Hi Ec) as [_ Ec2]; destruct (cell_inj BCol j r ia r Hj Hia Ec2); congruence.
  - intros c Hc. assert (Ec : rd R1 c = rd Rm c). { destruct (S1' c) as [Hs|(m & Hm & ->)]; [exact Hs|]. exfalso. nia. }
    rewrite <- Ec. destruct (rd R1 c) as [x|] eqn:Ex.
    + rewrite (A2 c x Ex). f_equal. rewrite Rsum_zero; [lra|]. intros r Hr. apply Rsum_zero; intros m Hm; apply Rsum_zero; intros ib Hib; apply Rsum_zero; intros ia Hia.
      match goal with |- context [(?x =? ?y)%nat] => destruct (Nat.eqb_spec x y) as [E|]; [|reflexivity] end. exfalso. specialize (Hlt r ib ia Hr Hia Hib). nia.
    + unfold rd in *. apply nth_error_None in Ex. apply nth_error_None. lia.
Qed.
