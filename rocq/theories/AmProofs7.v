From Coq Require Import Lra Lia Permutation.
From Verif Require Import Prelude RSum GeoModel GeoSpec DenseSpec QrSpec SvdModel SvdSpec SvdProofs SvdProofs2 SvdProofs3 SvdProofs4 SvdProofs5 AmModel AmSpec AmSpec2 AmProofs AmProofs2 AmProofs3 AmProofs4 AmProofs6.
Local Open Scope R_scope.

Lemma diag_factors : forall d i j, (i < 3)%nat -> (j < 3)%nat -> factors 3 identity d identity i j = diag d i j.
Proof. intros d i j Hi Hj. unfold factors, identity, diag. destruct i as [|[|[|i]]], j as [|[|[|j]]]; try lia; cbn; ring. Qed.
Lemma diag_sym : forall d, symmetric 3 (diag d).
Proof. intros d i j _ _. unfold diag. rewrite (Nat.eqb_sym j i). destruct (Nat.eqb_spec i j) as [->|]; reflexivity. Qed.

Section Num.
Variables (eps : R) (sweeps : nat) (ke : R).
Hypothesis He : 0 <= eps.

Lemma analyze_diag : forall d, exists e q, analyze eps sweeps (m9 (diag d)) = Some (e3 e, m9 q) /\ basis q /\ rearranged 3 d identity e q /\ ascending e.
Proof.
  intros d. destruct (analyze_ok eps sweeps He (diag d)) as (e & q & E & B & A & _ & N & _). 
  assert (Sd : forall i j, (i < 3)%nat -> (j < 3)%nat -> symm (diag d) i j = diag d i j) by (apply symm_id, diag_sym).
  destruct sweeps as [|sw] eqn:Es.
  - exists e, q. split; [exact E|]. split; [exact B|]. split; [|exact A].
    assert (Ns : ~ solved eps 0 (diag d)). { intros (e' & V & Q). revert Q. unfold jacobi_eigen. rewrite jac_init_ok by reflexivity. cbn. discriminate. }
    apply N in Ns. destruct Ns as (s & H1 & H2 & H3 & H4). exists s. repeat split; auto. intros i Hi. rewrite H3 by assumption. unfold diag. now rewrite Nat.eqb_refl.
  - clear e q E B A N. unfold analyze. rewrite sym3_ok, (m9_ext _ _ Sd). cbn [obind]. rewrite <- store3. rewrite jacobi_eigen_done; [|reflexivity|reflexivity|].
    + cbn [obind]. rewrite arr3, store3. destruct (sort_asc_ok (fun i => diag d i i) identity) as (e & q & E & H & A). rewrite E. exists e, q. split; [reflexivity|]. split; [eapply basis_rearr; [exact H|apply basis_id]|]. split; [|exact A].
      destruct H as (s & H1 & H2 & H3 & H4). exists s. repeat split; auto. intros i Hi. rewrite H3 by assumption. unfold diag. now rewrite Nat.eqb_refl.
    + replace (off_diagonal 3 (diag d)) with 0 by (unfold off_diagonal, diag; cbn; ring). apply Rle_0_sqr.
Qed.
Lemma rearr_map : forall (f : R -> R) n e q e' q', rearranged n e q e' q' -> rearranged n (fun i => f (e i)) q (fun i => f (e' i)) q'.
Proof. intros f n e q e' q' (s & H1 & H2 & H3 & H4). exists s. repeat split; auto. intros i Hi. now rewrite H3. Qed.
Lemma map_diag : forall (f : R -> R) d e q, rearranged 3 d identity e q -> m9 (factors 3 q (fun i => f (e i)) q) = m9 (diag (fun i => f (d i))).
Proof. intros f d e q H. apply m9_ext. intros i j Hi Hj. rewrite (rearr_factors _ _ _ _ (rearr_map f _ _ _ _ _ H)) by assumption. now apply diag_factors. Qed.
Lemma clamp_evals_inside : forall tr d e q, sane ke tr -> inside tr d -> basis q -> rearranged 3 d identity e q -> ascending e -> exists ch e' q', clamp_evals ke tr (e3 e, m9 q) = Some (ch, (e3 e', m9 q')) /\ basis q' /\ rearranged 3 d identity e' q'.
Proof.
  intros tr d e q Hs [I1 I2] B R A. destruct (clamp_evals_ok ke tr e q Hs B) as (ch & e' & q' & E' & B' & _ & f & _ & e1 & q1 & R1 & _ & C). exists ch, e', q'. split; [exact E'|]. split; [exact B'|].
  destruct R as (s & S1 & S2 & S3 & S4), R1 as (t & T1 & T2 & T3 & T4).
  assert (R2 : rearranged 3 d identity e1 q1). { exists (fun i => s (t i)). split; [auto|]. split; [intros i j Hi Hj Q; apply T2; auto|]. split; [intros i Hi; rewrite T3, S3 by auto; apply nearest_id; auto|]. intros i j Hi Hj. now rewrite T4, S4 by auto. }
  destruct C as [(_ & -> & -> & _)|[C _]]; [exact R2|]. exfalso. destruct R2 as (u & U1 & _ & U3 & _). rewrite !U3 in C by lia. specialize (I2 (u 2%nat) (u 0%nat) ltac:(auto) ltac:(auto)). lra.
Qed.
Lemma clamp_diag : forall tr d, sane ke tr -> inside tr d -> exists ch, clamp_spectrum eps sweeps ke tr (m9 (diag d)) = Some (ch, m9 (diag d)).
Proof.
  intros tr d Hs Hi. unfold clamp_spectrum. destruct (analyze_diag d) as (e & q & E & B & R & A). rewrite E. cbn [obind]. destruct (clamp_evals_inside tr d e q Hs Hi B R A) as (ch & e' & q' & E' & B' & R'). rewrite E'. cbn [obind]. rewrite reconstruct_ok. cbn [obind].
  exists ch. do 2 f_equal. exact (map_diag (fun x => x) d e' q' R').
Qed.
Lemma rearr_prod : forall d q e q', rearranged 3 d q e q' -> e 0%nat * e 1%nat * e 2%nat = d 0%nat * d 1%nat * d 2%nat.
Proof.
  intros d q e q' (s & S1 & S2 & S3 & _). rewrite !S3 by lia. pose proof (S1 0%nat ltac:(lia)). pose proof (S1 1%nat ltac:(lia)). pose proof (S1 2%nat ltac:(lia)).
  assert (s 0%nat <> s 1%nat) by (intros Q; apply S2 in Q; lia). assert (s 0%nat <> s 2%nat) by (intros Q; apply S2 in Q; lia). assert (s 1%nat <> s 2%nat) by (intros Q; apply S2 in Q; lia).
  destruct (s 0%nat) as [|[|[|]]], (s 1%nat) as [|[|[|]]], (s 2%nat) as [|[|[|]]]; try lia; ring.
Qed.
Lemma absH_diag : forall tr d, sane ke tr -> inside tr d -> ke < d 0%nat * d 1%nat * d 2%nat -> absH_to_M eps sweeps ke tr (m9 (diag d)) = Some (m9 (diag (scaled d))).
Proof.
  intros tr d Hs Hi Hd. unfold absH_to_M. destruct (analyze_diag d) as (e & q & E & B & R & A). rewrite E. cbn [obind]. destruct (clamp_evals_inside tr d e q Hs Hi B R A) as (ch & e' & q' & E' & B' & R'). rewrite E'. cbn [obind]. rewrite reconstruct_ok. cbn [obind sdet e3 rd nth_error].
  rewrite (rearr_prod d identity e' q' R'). destruct (Rlt_dec _ _); [|contradiction]. pose proof (m9_inj _ _ (map_diag (fun x => x) d e' q' R')) as Q. rewrite dense_scale_ok. f_equal. apply m9_ext. intros i j Hi1 Hj1. specialize (Q i j Hi1 Hj1). cbv beta in Q. change (fun i => e' i) with e' in Q. rewrite Q. unfold diag, scaled, pow_m02. destruct (i =? j)%nat; ring.
Qed.
Lemma node_diag : forall tr any v m d, sane ke tr -> inside tr d -> ke < d 0%nat * d 1%nat * d 2%nat -> inside tr (scaled d) -> absH v = m9 (diag d) -> length (sv v) = 3%nat -> degen v = false -> (6 <= length m)%nat ->
  exists m', node_metric eps sweeps ke tr any [v] m = Some m' /\ kept m m' /\ forall i j, (i < 3)%nat -> (j < 3)%nat -> metric_of m' i j = diag (scaled d) i j.
Proof.
  intros tr any v m d Hs Hi Hd Hi' Hv Hl D Hm.
  assert (Rw : raw_metric eps sweeps ke tr any [v] = Some (m9 (diag (scaled d)))).
  { assert (Wv : wf v) by (split; [now rewrite Hv|exact Hl]). unfold raw_metric. cbn [existsb]. rewrite D. cbn [negb orb]. destruct (strategy tr =? 0)%nat.
    - unfold pick_max_det. rewrite (pick_single v Wv D). cbn [obind]. rewrite Hv. now apply absH_diag.
    - unfold geom_mean. rewrite zero9_ok. destruct (sum_logs_cons eps sweeps ke He tr v Hs Wv D) as (M & L & EM & EL & E). rewrite E. cbn [sum_logs obind Nat.eqb]. rewrite dense_scale_ok. cbn [obind].
      rewrite Hv, (absH_diag tr d Hs Hi Hd) in EM. assert (QM : m9 M = m9 (diag (scaled d))) by congruence. rewrite QM in EL. unfold matrix_log in EL. destruct (analyze_diag (scaled d)) as (e & q & E1 & B & R & A). rewrite E1 in EL. cbn [obind] in EL. rewrite each_ok in EL. cbn [obind] in EL. rewrite reconstruct_ok, (map_diag (fun x => ln (Rmax x ke)) _ _ _ R) in EL.
      assert (QL : m9 (diag (fun i => ln (Rmax (scaled d i) ke))) = m9 L) by congruence. pose proof (m9_inj _ _ QL) as HL.
      rewrite (m9_ext _ (diag (fun i => ln (scaled d i)))).
      + unfold matrix_exp. destruct (analyze_diag (fun i => ln (scaled d i))) as (e' & q' & E2 & B' & R' & A'). rewrite E2. cbn [obind]. rewrite each_ok. cbn [obind]. rewrite reconstruct_ok, (map_diag exp _ _ _ R'). f_equal. apply m9_ext. intros i j Hi1 Hj1. unfold diag. destruct (i =? j)%nat; [|reflexivity]. apply exp_ln. destruct Hi' as [P _]. destruct Hs as (? & ? & ?). specialize (P i Hi1). lra.
      + intros i j Hi1 Hj1. rewrite <- HL by assumption. unfold diag. destruct (Nat.eqb_spec i j) as [->|]; [|cbn [INR]; field]. destruct Hi' as [P _]. destruct Hs as (? & ? & ?). specialize (P j Hj1). rewrite Rmax_left by lra. cbn [INR]. field. }
  unfold node_metric. rewrite Rw. cbn [obind]. destruct (clamp_diag tr (scaled d) Hs Hi') as [ch Ec]. rewrite Ec. cbn [obind].
  apply to_voigt_ok; [apply diag_sym|exact Hm].
Qed.
End Num.
