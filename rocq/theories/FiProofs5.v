(** What a run that succeeds needs *)
From Coq Require Import ZArith.
From Verif Require Import Prelude RSum GeoModel SpModel BasModel CoreModel FiModel.
Local Open Scope R_scope.

Lemma obind_inv : forall {A B} (x : option A) (f : A -> option B) y, obind x f = Some y -> exists a, x = Some a /\ f a = Some y.
Proof. intros A B [a|] f y H; [now exists a|discriminate]. Qed.
Lemma for_range_snoc : forall {T} n lo body (s s' : T), for_range lo (S n) body s = Some s' -> exists s1, for_range lo n body s = Some s1 /\ body (lo + n)%nat s1 = Some s'.
Proof.
  intros T n. induction n as [|n IH]; intros lo body s s' H.
  - exists s. split; [reflexivity|]. rewrite Nat.add_0_r. cbn in H. now destruct (body lo s).
  - cbn [for_range] in H. destruct (obind_inv _ _ _ H) as (s1 & E1 & H1). destruct (IH (S lo) body s1 s') as (s2 & E2 & E3).
    + exact H1.
    + exists s2. split; [cbn [for_range]; rewrite E1; exact E2|]. replace (lo + S n)%nat with (S lo + n)%nat by lia. exact E3.
Qed.
Lemma for_last : forall {T} n body (s s' : T), for_ (S n) body s = Some s' -> exists s1, for_ n body s = Some s1 /\ body n s1 = Some s'.
Proof. intros T n body s s' H. apply (for_range_snoc n 0 body s s' H). Qed.
Lemma for_range_len : forall n lo body (s s' : list R), (forall i a b, body i a = Some b -> length b = length a) -> for_range lo n body s = Some s' -> length s' = length s.
Proof.
  induction n as [|n IH]; intros lo body s s' H E; [now inversion E|]. cbn [for_range] in E. destruct (obind_inv _ _ _ E) as (s1 & E1 & E2). rewrite (IH (S lo) body s1 s' H E2). now apply (H lo).
Qed.
Lemma for_len : forall n body (s s' : list R), (forall i a b, body i a = Some b -> length b = length a) -> for_ n body s = Some s' -> length s' = length s.
Proof. intros n body s s' H E. exact (for_range_len n 0 body s s' H E). Qed.
Lemma wr_inv : forall {A} (l : list A) i v l', wr l i v = Some l' -> (i < length l)%nat /\ length l' = length l.
Proof.
  intros A l. induction l as [|a l IH]; intros [|i] v l' H; try discriminate H.
  - inversion H. cbn. lia.
  - cbn [wr] in H. destruct (obind_inv _ _ _ H) as (r & E & Q). inversion Q. destruct (IH i v r E). cbn. lia.
Qed.

Ltac inv_bind H := let x := fresh "x" in let E := fresh "E" in let G := fresh "G" in destruct (obind_inv _ _ _ H) as (x & E & G); clear H; rename G into H.
Lemma du_room : forall q jdim idim d nf U w mes DIFF off r DU DU', (0 < q)%nat -> (0 < jdim)%nat -> (0 < nf)%nat ->
  du_gen q jdim idim nf (one_part d q nf U) w mes DIFF off r DU = Some DU' -> (jdim * (q * (nf * S r)) <= length DU)%nat /\ length DU' = length DU.
Proof.
  intros q jdim idim d nf U w mes DIFF off r DU DU' Hq Hj Hn H. unfold du_gen in H. inv_bind H. change (nparts (one_part d q nf U)) with 1%nat in H. rename H into H0.
  destruct (for_last 0 _ _ _ H0) as (s1 & E1 & E2). inversion E1. subst s1. clear H0 E1. change (rd (st_col (one_part d q nf U)) 0) with (Some 0%nat) in E2. change (rd (st_col (one_part d q nf U)) 1) with (Some nf) in E2.
  change (rd (st_row (one_part d q nf U)) 0) with (Some 0%nat) in E2. change (rd (st_row (one_part d q nf U)) 1) with (Some d) in E2. change (rd (parts (one_part d q nf U)) 0) with (Some (U, (q * d)%nat)) in E2.
  cbn [obind] in E2. cbn zeta in E2. rewrite !Nat.sub_0_r in E2.
  destruct nf as [|nf']; [lia|]. destruct (for_range_snoc nf' 0 _ _ _ E2) as (s1 & E3 & E4). rewrite Nat.add_0_l in E4.
  assert (L1 : length s1 = length DU).
  { refine (for_range_len _ _ _ _ _ _ E3). intros i a b Q. refine (for_len _ _ _ _ _ Q). intros n a1 b1 Q1. inv_bind Q1. refine (for_len _ _ _ _ _ Q1). intros k a2 b2 Q2. inv_bind Q2. apply (wr_inv _ _ _ _ Q2). }
  destruct q as [|q']; [lia|]. destruct (for_last q' _ _ _ E4) as (s2 & E5 & E6).
  assert (L2 : length s2 = length s1).
  { refine (for_len _ _ _ _ _ E5). intros n a1 b1 Q1. inv_bind Q1. refine (for_len _ _ _ _ _ Q1). intros k a2 b2 Q2. inv_bind Q2. apply (wr_inv _ _ _ _ Q2). }
  inv_bind E6. destruct jdim as [|j']; [lia|]. destruct (for_last j' _ _ _ E6) as (s3 & E7 & E8).
  assert (L3 : length s3 = length s2).
  { refine (for_len _ _ _ _ _ E7). intros k a2 b2 Q2. inv_bind Q2. apply (wr_inv _ _ _ _ Q2). }
  inv_bind E8. destruct (wr_inv _ _ _ _ E8) as (W1 & W2). split; [|congruence].
  assert (Q : (S j' * (S q' * (S nf' * S r)) = S (j' + S j' * (q' + S q' * (nf' + S nf' * r))))%nat) by ring. rewrite Q. lia.
Qed.
(** A full tensor that does not depend on the point *)
Lemma integrate_room : forall F reg order f sA oA sB oB XY0 XY1 XY2 XY3 w A A' q xyl wg,
  integrate F true (Fixed KFull) reg order (S f) sA oA sB oB XY0 XY1 XY2 XY3 w A = Some A' -> load_points reg order (w_xyl w) (w_wg w) = Some (q, xyl, wg) ->
  (0 < q)%nat -> (0 < odims sB oB)%nat ->
  (odims sB oB * (if with_normal reg then 3 else 1) * (q * (nfa sA * S f)) <= length (w_du w))%nat.
Proof.
  intros F reg order f sA oA sB oB XY0 XY1 XY2 XY3 w A A' q xyl wg H EL Hq Hd. unfold integrate in H. inv_bind H. rewrite EL in H. cbn [obind] in H. unfold assemble in H.
  do 5 inv_bind H. unfold fem3Dtet in H. cbn zeta in H. inv_bind H. inv_bind H.
  match goal with E : apply_DU _ _ _ _ _ _ _ _ _ _ _ _ _ _ = _ |- _ => rename E into K end.
  apply Some_inj' in E5. subst x5.
  unfold apply_DU in K. do 2 inv_bind K. cbn [du_by_kind] in K. destruct (for_last f _ _ _ K) as (s1 & E7 & E8).
  assert (A1 : (0 < nfa sA)%nat) by (destruct sA; cbn; lia). assert (A2 : (0 < odims sB oB * (if with_normal reg then 3 else 1))%nat) by (destruct (with_normal reg); lia).
  match type of E7 with for_ _ _ ?d = _ => assert (L1 : length s1 = length d) end.
  { refine (for_len _ _ _ _ _ E7). intros i a b Q. apply (du_room _ _ _ _ _ _ _ _ _ _ _ _ _ Hq A2 A1 Q). }
  rewrite <- L1. apply (du_room _ _ _ _ _ _ _ _ _ _ _ _ _ Hq A2 A1 E8).
Qed.
