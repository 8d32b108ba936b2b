(** The union: from the weights to the dofs on every element. *)
From Verif Require Import Prelude RSum GeoModel GeoSpec DenseModel DenseSpec DenseProps BasModel BasSpec BasProofs2 BasProofs7 BasProofs8 BasProofs9 IntModel IntSpec IntProofs IntProofs2 IntProofs3 IntProofs4 IntProofs5.
Local Open Scope R_scope.

(** *** Lengths *)
Lemma range_keeps : forall {S} (P : S -> Prop) n lo body s s', for_range lo n body s = Some s' -> P s -> (forall i s s', body i s = Some s' -> P s -> P s') -> P s'.
Proof.
  intros S P n. induction n as [|n IH]; intros lo body s s' E Hs Hb; cbn [for_range] in E; [injection E as <-; exact Hs|]. destruct (body lo s) as [s1|] eqn:E1; [|discriminate E]. cbn [obind] in E. eapply IH; [exact E|exact (Hb _ _ _ E1 Hs)|exact Hb].
Qed.
Lemma wr_keeps : forall (m m' : list R) i v n, wr m i v = Some m' -> length m = n -> length m' = n.
Proof. intros m m' i v n E L. destruct (Nat.lt_ge_cases i (length m)) as [H|H]; [destruct (wr_some m i v H) as (m2 & E2 & L2 & _); congruence|]. rewrite wr_none in E by exact H. discriminate. Qed.
Ltac ob E y H := match type of E with obind ?x _ = _ => destruct x as [y|] eqn:H; [cbn [obind] in E|discriminate E] end.
Lemma gather_keeps : forall N M p B X X' n, gather_rows N M p B X = Some X' -> length X = n -> length X' = n.
Proof.
  intros N M p B X X' n E L. unfold gather_rows, for_ in E. apply (range_keeps (fun X => length X = n) _ _ _ _ _ E L). clear. intros i s s' E L. apply (range_keeps (fun X => length X = n) _ _ _ _ _ E L). clear. intros j s s' E L. ob E a Q1. ob E b Q2. exact (wr_keeps _ _ _ _ _ E L).
Qed.
Lemma inverse_length : forall eps N A Inv X, full_piv_lu_inverse eps N false A Inv = Some X -> length X = length Inv.
Proof.
  intros eps N A Inv X E. unfold full_piv_lu_inverse in E. ob E I1 Q.
  assert (L1 : length I1 = length Inv).
  { unfold fill_identity, for_ in Q. ob Q I0 Q0. apply (range_keeps (fun X => length X = length Inv) _ _ _ _ _ Q).
    - apply (range_keeps (fun X => length X = length Inv) _ _ _ _ _ Q0 eq_refl). clear. intros i s s' E. exact (wr_keeps _ _ _ _ _ E).
    - clear. intros i s s' E. exact (wr_keeps _ _ _ _ _ E). }
  unfold full_piv_lu_solve in E. ob E Am Q0. ob E Bm Q1. ob E st Q2. destruct st as [[LU p] q]. unfold lu_solve in E. ob E X1 Q3. ob E X2 Q4. ob E X3 Q5. ob E Bz Q6.
  apply (gather_keeps _ _ _ _ _ _ _ E). apply (gather_keeps _ _ _ _ _ _ _ Q3) in L1.
  assert (L4 : length X2 = length Inv).
  { unfold lu_forward, for_ in Q4. apply (range_keeps (fun X => length X = length Inv) _ _ _ _ _ Q4 L1). clear. intros i s s' E L. ob E a Q. apply (range_keeps (fun X => length X = length Inv) _ _ _ _ _ E L). clear. intros j s s' E L. ob E b Q. ob E c Q1. exact (wr_keeps _ _ _ _ _ E L). }
  unfold lu_backward, for_ in Q5. apply (range_keeps (fun X => length X = length Inv) _ _ _ _ _ Q5 L4). clear. intros i s s' E L. ob E a Q. ob E b Q0. ob E c Q1. ob E fz Q2. apply (wr_keeps _ _ _ _ _ Q2) in L.
  apply (range_keeps (fun X => length X = length Inv) _ _ _ _ _ E L). clear. intros j s s' E L. ob E a Q. ob E b Q0. ob E c Q1. exact (wr_keeps _ _ _ _ _ E L).
Qed.

Lemma nonzero_or : forall (f : nat -> R) n, (exists j, (j < n)%nat /\ f j <> 0) \/ forall j, (j < n)%nat -> f j = 0.
Proof.
  intros f n. induction n as [|n [(j & Hj & H)|IH]]; [right; intros; lia|left; exists j; split; [lia|exact H]|]. destruct (Req_dec (f n) 0) as [C|C]; [|left; exists n; split; [lia|exact C]]. right. intros j Hj. destruct (Nat.eq_dec j n) as [->|]; [exact C|]. apply IH. lia.
Qed.

Section Union.
Variables (e eps : R) (Q : quads) (phi : isp -> vec -> nat -> R) (l : list isp) (d : nat) (W : list R).
Hypothesis HQ : quads_ok e Q.
Hypothesis Hl : forall s, In s l -> flat s /\ leaves scalar_space s /\ idim s = d.
Hypothesis Hphi : forall s X i c, In s l -> (i < infa s)%nat -> (c < d)%nat -> phi s X (c + d * i)%nat = ishape s ref_x i c (of_vec X).
Hypothesis HW : setup_union eps Q phi l = Some W.
Notation nf := (list_sum (map infa l)).
Lemma union_weights : forall w g, (forall p, (p < nf * nf)%nat -> Rabs (nth p W 0) <= w) -> (forall j k, (j < nf)%nat -> (k < nf)%nat -> Rabs (gram l Q ref_x j k) <= g) -> (0 < nf)%nat ->
  length W = (nf * nf)%nat /\ forall i k, (i < nf)%nat -> (k < nf)%nat -> near (1 / 10 ^ 8 * (1 + g + 4 * e) + INR nf * w * (1 / 10 ^ 7 * (g + 4 * e) + 4 * e)) (Rsum nf (fun j => nth (i + nf * j) W 0 * gram l Q ref_x j k)) (delta i k).
Proof.
  intros w g Hw Hg Hnf. assert (He := e_pos e Q HQ). assert (HQ' := HQ). destruct HQ' as ((S1 & _) & (S2 & _) & (S3 & _)). assert (E := HW). unfold setup_union in E.
  assert (Tn : forall j k, (j < nf)%nat -> (k < nf)%nat -> near (4 * e) (tgt Q l j k) (gram l Q ref_x j k)). { intros j k Hj Hk. apply tgt_near; trivial. intros s Hs. apply Hl. exact Hs. }
  assert (Hg0 : 0 <= g) by (eapply Rle_trans; [apply Rabs_pos|apply (Hg 0%nat 0%nat); lia]). assert (Hw0 : 0 <= w) by (eapply Rle_trans; [apply Rabs_pos|apply (Hw 0%nat); nia]).
  assert (N1 : 1 <= INR nf) by (replace 1 with (INR 1) by reflexivity; apply le_INR; lia).
  destruct (Nat.eqb_spec nf 0) as [C|_]; [lia|]. destruct (Nat.leb_spec (length l) 1) as [C|C].
  - assert (Z : repeat 0 (nf * nf) = store nf nf (fun _ _ => 0)) by (rewrite (list_arr 0 (repeat 0 (nf * nf))), repeat_length; apply arr_ext; intros p _; apply nth_repeat). rewrite Z in E.
    destruct (for_rep0 (store nf nf) (fun n a => forall i j, a i j = if ((i =? j) && (i <? n))%nat then 1 else 0) nf (fun i A => wr A (i + nf * i) 1) (fun _ _ => 0)) as (a & Ea & Ha).
    { intros i j. destruct (Nat.ltb_spec i 0); [lia|]. now rewrite Bool.andb_false_r. }
    { intros i a Hi Ha. exists (upd2 a i i 1). split; [now apply (mwr_store nf nf)|]. intros i' j'. unfold upd2. rewrite Ha. destruct (Nat.eqb_spec i' i), (Nat.eqb_spec j' i), (Nat.eqb_spec i' j'), (Nat.ltb_spec i' (S i)), (Nat.ltb_spec i' i); cbn [andb]; trivial; lia. }
    rewrite Ea in E. apply Some_inj' in E. rewrite <- E in Hw |- *. split; [apply store_length|]. intros i k Hi Hk.
    assert (Nt : forall i j, (i < nf)%nat -> (j < nf)%nat -> nth (i + nf * j) (store nf nf a) 0 = delta i j).
    { intros i' j Hi' Hj. apply nth_error_nth. rewrite <- (mrd_store nf nf delta i' j) by assumption. unfold mrd, rd. f_equal. apply store_ext. intros p q Hp Hq. rewrite Ha. unfold delta. destruct (Nat.ltb_spec p nf); [|lia]. now rewrite Bool.andb_true_r. }
    rewrite (Rsum_single nf i) by first [exact Hi|intros j Hj Hne; rewrite Nt by assumption; unfold delta; destruct (Nat.eqb_spec i j); [congruence|ring]]. rewrite Nt by assumption. unfold delta at 1. rewrite Nat.eqb_refl, Rmult_1_l.
    assert (Sv : near (4 * e) (gram l Q ref_x i k) (delta i k)).
    { destruct (part_ex l i Hi) as (v & q & s & _ & Es & Hq & ->). destruct (part_ex l k Hk) as (v' & q' & s' & _ & Es' & Hq' & ->). assert (v < length l)%nat by (apply nth_error_Some; congruence). assert (v' < length l)%nat by (apply nth_error_Some; congruence). assert (v' = v) by lia. subst v'. assert (s' = s) by congruence. subst s'.
      rewrite (gram_at l Q ref_x v s q v s q') by assumption. replace (delta _ _) with (delta q q'). { apply (dual_flat e Q ref_x HQ ref_x_nondegenerate); trivial. apply Hl. exact (nth_error_In' _ _ _ Es). }
      unfold delta. destruct (Nat.eqb_spec q q'), (Nat.eqb_spec (list_sum (firstn v (map infa l)) + q) (list_sum (firstn v (map infa l)) + q')); trivial; lia. }
    assert (W1 : 1 <= w). { specialize (Hw (i + nf * i)%nat). rewrite Nt in Hw by assumption. unfold delta in Hw. rewrite Nat.eqb_refl, Rabs_R1 in Hw. apply Hw. now apply RSum.cell_lt. }
    unfold near in *. eapply Rle_trans; [exact Sv|]. assert (0 <= 1 / 10 ^ 8 * (1 + g + 4 * e)) by nra. assert (4 * e <= 1 / 10 ^ 7 * (g + 4 * e) + 4 * e) by nra. assert (1 <= INR nf * w) by nra. nra.
  - destruct (setup_gram_ok Q phi l d S1 S2 S3) as (b & Eb & Hb). { intros s Hs. destruct (Hl s Hs) as (F & _ & D). split; [now apply flat_iwf|exact D]. } { exact Hphi. }
    rewrite Eb in E. cbn [obind] in E. ob E A EA. assert (LA := inverse_length _ _ _ _ _ EA). rewrite repeat_length in LA.
    destruct (setup_check_ok nf A b LA) as (m & G & Ec & Hc & HG). rewrite Ec in E. cbn [obind fst snd] in E. destruct (Rlt_dec (1 / 10 ^ 8 * (1 + G)) m) as [|Hm]; [discriminate E|].
    destruct (setup_clean_ok nf A LA) as (W' & EW & LW & Hcl). rewrite EW in E. apply Some_inj' in E. subst W'. split; [exact LW|]. intros i k Hi Hk.
    assert (Bb : forall j k, (j < nf)%nat -> (k < nf)%nat -> Rabs (b j k) <= g + 4 * e).
    { intros j k' Hj Hk'. rewrite Hb by assumption. replace (tgt Q l j k') with (gram l Q ref_x j k' + (tgt Q l j k' - gram l Q ref_x j k')) by ring. eapply Rle_trans; [apply Rabs_triang|]. apply Rplus_le_compat; [now apply Hg|now apply Tn]. }
    assert (HG' : G <= g + 4 * e) by (apply HG; [lra|exact Bb]).
    destruct (Hc i k Hi Hk) as (N & _). unfold near in *.
    replace (Rsum nf (fun j => nth (i + nf * j) W 0 * gram l Q ref_x j k) - delta i k) with ((Rsum nf (fun j => nth (i + nf * j) A 0 * b j k) - delta i k) + Rsum nf (fun j => (nth (i + nf * j) W 0 - nth (i + nf * j) A 0) * b j k + nth (i + nf * j) W 0 * (gram l Q ref_x j k - b j k))).
    2:{ rewrite (Rsum_ext nf (fun j => (nth (i + nf * j) W 0 - nth (i + nf * j) A 0) * b j k + nth (i + nf * j) W 0 * (gram l Q ref_x j k - b j k)) (fun j => nth (i + nf * j) W 0 * gram l Q ref_x j k - nth (i + nf * j) A 0 * b j k)) by (intros; ring). rewrite Rsum_minus. ring. }
    eapply Rle_trans; [apply Rabs_triang|]. apply Rplus_le_compat; [lra|]. eapply Rle_trans; [apply Rsum_abs|]. rewrite Rmult_assoc. apply Rsum_bound. intros j Hj. assert (Hp : (i + nf * j < nf * nf)%nat) by (now apply RSum.cell_lt).
    eapply Rle_trans; [apply Rabs_triang|]. rewrite !Rabs_mult. assert (A1 := Hcl w Hw _ Hp). assert (A2 := Bb j k Hj Hk). assert (A3 := Hw _ Hp). assert (A4 := Tn j k Hj Hk). rewrite <- Hb in A4 by assumption. rewrite Rabs_minus_sym in A4.
    rewrite Rmult_plus_distr_l. apply Rplus_le_compat; [|apply Rmult_le_compat; trivial; apply Rabs_pos]. replace (w * (1 / 10 ^ 7 * (g + 4 * e))) with (1 / 10 ^ 7 * w * (g + 4 * e)) by ring. apply Rmult_le_compat; trivial; apply Rabs_pos.
Qed.
Lemma union_dual : forall w g x i k, (forall p, (p < nf * nf)%nat -> Rabs (nth p W 0) <= w) -> (forall j k, (j < nf)%nat -> (k < nf)%nat -> Rabs (gram l Q ref_x j k) <= g) -> nondegenerate x -> (i < nf)%nat -> (k < nf)%nat ->
  near (1 / 10 ^ 8 * (1 + g + 4 * e) + INR nf * w * (1 / 10 ^ 7 * (g + 4 * e) + 4 * e)) (cdof (IU l W) Q x i (basis_fun (IU l W) x k)) (delta i k).
Proof.
  intros w g x i k Hw Hg Hx Hi Hk. destruct (union_weights w g Hw Hg ltac:(lia)) as (_ & H). specialize (H i k Hi Hk). rewrite cdof_IU. erewrite Rsum_ext; [exact H|]. intros j Hj. cbv beta. f_equal.
  change (gram l Q x j k = gram l Q ref_x j k). assert (HQ' := HQ). destruct HQ' as (_ & (S2 & _) & (S3 & _)). apply (gram_element l Q x ref_x d); trivial. exact ref_x_nondegenerate.
Qed.
(** the union can be used: its weights have no zero rows *)
Lemma union_iwf : forall w g, (0 < nf)%nat -> (forall p, (p < nf * nf)%nat -> Rabs (nth p W 0) <= w) -> (forall j k, (j < nf)%nat -> (k < nf)%nat -> Rabs (gram l Q ref_x j k) <= g) ->
  1 / 10 ^ 8 * (1 + g + 4 * e) + INR nf * w * (1 / 10 ^ 7 * (g + 4 * e) + 4 * e) < 1 -> iwf (IU l W).
Proof.
  intros w g Hnf Hw Hg Hb. destruct (union_weights w g Hw Hg Hnf) as (L & H). cbn [iwf idim]. split; [|split; [|split; [exact L|]]].
  - assert (Hl' : forall s, In s l -> iwf s) by (intros s Hs; apply flat_iwf; now apply Hl). clear - Hl'. induction l as [|s m IH]; [exact I|]. split; [apply Hl'; now left|apply IH; intros; apply Hl'; now right].
  - intros s Hs. destruct (Hl s Hs) as (_ & _ & D). destruct l as [|s0 m] eqn:El; [contradiction|]. rewrite <- El in *. destruct (Hl s0) as (_ & _ & D0); [rewrite El; now left|]. congruence.
  - intros i Hi. specialize (H i i Hi Hi). destruct (nonzero_or (fun j => nth (i + nf * j) W 0) nf) as [C|C]; [exact C|]. exfalso. rewrite Rsum_zero in H.
    + unfold near, delta in H. rewrite Nat.eqb_refl in H. replace (0 - 1) with (- (1)) in H by ring. rewrite Rabs_Ropp, Rabs_R1 in H. lra.
    + intros j Hj. rewrite C by exact Hj. ring.
Qed.
End Union.
