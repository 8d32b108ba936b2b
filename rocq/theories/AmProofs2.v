From Coq Require Import Lra Lia.
From Verif Require Import Prelude RSum GeoModel DenseSpec QrSpec SvdModel SvdSpec SvdProofs SvdProofs2 SvdProofs3 SvdProofs4 AmModel AmSpec AmSpec2 AmProofs.
Local Open Scope R_scope.

Section Num.
Variables (eps : R) (sweeps : nat) (ke : R).
Hypothesis He : 0 <= eps.
Notation analyze := (analyze eps sweeps).

(** what the solver reported for the symmetric part of a *)
Definition solved (a : matrix) : Prop := exists e V, jacobi_eigen eps sweeps 3 (m9 (symm a)) [0; 0; 0] zero9 = Some (true, e, V).
Lemma analyze_ok : forall a, exists e q, analyze (m9 a) = Some (e3 e, m9 q) /\ basis q /\ ascending e /\
  (solved a -> eigen_pairs 3 (symm a) (jac_tol eps 3) e q) /\ (~ solved a -> rearranged 3 (fun i => a i i) identity e q) /\
  (solved a -> exists d, similar 3 (symm a) d q /\ (forall i, (i < 3)%nat -> e i = d i i)) .
Proof.
  intros a. unfold AmModel.analyze. rewrite sym3_ok. cbn [obind].
  destruct (jacobi_eigen_ok eps sweeps 3 (symm a) [0; 0; 0] zero9 He (symm_sym a) eq_refl eq_refl) as (ok & e' & a' & v & E & Hs & _ & _ & T & F).
  rewrite store3 in E. rewrite E. cbn [obind]. rewrite store3 in *.
  destruct ok.
  - destruct (T eq_refl) as [Off Ee]. rewrite arr3 in Ee. subst e'.
    destruct (sort_asc_ok (fun i => a' i i) v) as (e1 & q & Es & Hr & Ha). cbn [obind]. rewrite Es.
    exists e1, q. split; [reflexivity|]. split; [eapply basis_rearr; [exact Hr|]; split; apply Hs|]. split; [exact Ha|].
    assert (Hep : eigen_pairs 3 (symm a) (jac_tol eps 3) (fun i => a' i i) v) by (apply similar_eigen; [now apply jac_tol_pos|exact Hs|exact Off]).
    split; [intros _; eapply rearranged_eigen; eassumption|]. split; [intros N; exfalso; apply N; unfold solved; rewrite E; eauto|]. intros _.
    destruct Hr as (s & S1 & S2 & S3 & S4). exists (fun i j => a' (s i) (s j)). split; [|exact S3].
    destruct Hs as (Hs1 & Hs2 & Hs3 & Hs4). assert (Hr : rearranged 3 (fun i => a' i i) v e1 q) by (exists s; auto).
    split; [intros i j Hi Hj; apply Hs1; auto|]. split; [eapply rearranged_orth; eassumption|]. split; [eapply rearranged_rows; eassumption|].
    intros i j Hi Hj. rewrite <- Hs4 by auto. unfold inner, mult, column. apply Rsum_ext. intros r Hr'. rewrite S4 by assumption. f_equal. apply Rsum_ext. intros t Ht. now rewrite S4 by assumption.
  - change (eye9 1) with (eye9 1). rewrite (eye9_ok 1). replace (m9 (fun i j => 1 * identity i j)) with (m9 identity) by (apply m9_ext; intros; ring).
    cbn [obind m9 rd nth_error]. destruct (sort_asc_ok (fun i => a i i) identity) as (e1 & q & Es & Hr & Ha).
    change [a 0%nat 0%nat; a 1%nat 1%nat; a 2%nat 2%nat] with (e3 (fun i => a i i)). fold (m9 identity). rewrite Es.
    assert (Ns : ~ solved a) by (intros (e2 & V2 & E2); rewrite E in E2; discriminate).
    exists e1, q. split; [reflexivity|]. split; [eapply basis_rearr; [exact Hr|apply basis_id]|]. split; [exact Ha|]. split; [intros; contradiction|]. split; [auto|intros; contradiction].
Qed.

Lemma clamp_abs_ok : forall tr x, lam_min tr <= lam_max tr -> clamp_abs tr x = nearest (lam_min tr) (lam_max tr) x.
Proof. intros tr x H. unfold clamp_abs, nearest, Rmin, Rmax. repeat destruct (Rlt_dec _ _); repeat destruct (Rle_dec _ _); lra. Qed.
Lemma nearest_in : forall lo hi x, lo <= hi -> lo <= nearest lo hi x <= hi.
Proof. intros lo hi x H. unfold nearest, Rmin, Rmax. repeat destruct (Rle_dec _ _); lra. Qed.
Lemma cbrt_pos : forall x, 0 < x -> 0 < cbrt x.
Proof. intros x H. unfold cbrt. destruct (Rlt_dec 0 x); [apply exp_pos|contradiction]. Qed.
Lemma ratio_nearest : forall lo hi r x y, 0 < lo -> lo <= hi -> 1 <= r -> 0 < x -> y <= r * x -> nearest lo hi y <= r * nearest lo hi x.
Proof. intros lo hi r x y. unfold nearest, Rmin, Rmax. intros. repeat destruct (Rle_dec _ _); nra. Qed.

(** what the traits ask of eigenvalues *)
Definition admissible (tr : traits) (e : nat -> R) : Prop := ascending e /\ (forall i, (i < 3)%nat -> lam_min tr <= e i <= lam_max tr) /\ e 2%nat <= Rmax (lam_rel tr) 1 * e 0%nat.

Definition compress (r g x : R) : R := g * Rmin (sqrt r) (Rmax (1 / sqrt r) (x / g)).
Lemma compress_in : forall r g x, 1 <= r -> 0 < g -> g * (1 / sqrt r) <= compress r g x <= g * sqrt r.
Proof.
  intros r g x Hr Hg. assert (Hs : 1 <= sqrt r) by (rewrite <- sqrt_1; now apply sqrt_le_1_alt).
  assert (Hi : 1 / sqrt r <= sqrt r). { apply Rmult_le_reg_r with (sqrt r); [lra|]. replace (1 / sqrt r * sqrt r) with 1 by (field; lra). nra. }
  unfold compress. split; apply Rmult_le_compat_l; try lra; unfold Rmin, Rmax; repeat destruct (Rle_dec _ _); lra.
Qed.
Lemma clamp_evals_ok : forall tr e q, sane ke tr -> basis q -> exists ch e' q', clamp_evals ke tr (e3 e, m9 q) = Some (ch, (e3 e', m9 q')) /\ basis q' /\ admissible tr e' /\
  exists f, rearranged 3 f q e' q' /\ exists e1 q1, rearranged 3 (fun i => nearest (lam_min tr) (lam_max tr) (e i)) q e1 q1 /\ ascending e1 /\
    ((e1 2%nat <= Rmax (lam_rel tr) 1 * e1 0%nat /\ e' = e1 /\ q' = q1 /\ forall i, (i < 3)%nat -> f i = nearest (lam_min tr) (lam_max tr) (e i)) \/
     (Rmax (lam_rel tr) 1 * e1 0%nat < e1 2%nat /\ ch = true)).
Proof.
  intros tr e q (Hk0 & Hk & Hm) B. unfold clamp_evals. cbn [e3 rd nth_error obind]. fold (e3 e). rewrite each_ok. cbn [obind].
  rewrite (e3_ext (fun i => clamp_abs tr (e i)) (fun i => nearest (lam_min tr) (lam_max tr) (e i))) by (intros; now apply clamp_abs_ok).
  set (n := fun i => nearest (lam_min tr) (lam_max tr) (e i)).
  destruct (sort_asc_ok n q) as (e1 & q1 & E1 & H1 & A1). rewrite E1. cbn [obind e3 rd nth_error]. fold (e3 e1).
  assert (B1 : basis q1) by (eapply basis_rearr; eassumption).
  assert (In1 : forall i, (i < 3)%nat -> lam_min tr <= e1 i <= lam_max tr). { apply (rearr_all (fun x => lam_min tr <= x <= lam_max tr) _ _ _ _ H1). intros i _. now apply nearest_in. }
  set (r := Rmax (lam_rel tr) 1). assert (Hr : 1 <= r) by apply Rmax_r.
  destruct (In1 0%nat ltac:(lia)) as [L0 U0], (In1 1%nat ltac:(lia)) as [L1 U1], (In1 2%nat ltac:(lia)) as [L2 U2].
  destruct (Rlt_dec ke (e1 0%nat)) as [_|]; [|lra]. destruct (Rlt_dec r (e1 2%nat / e1 0%nat)) as [Hg|Hg].
  - set (g := cbrt (e1 0%nat * e1 1%nat * e1 2%nat)). assert (G : 0 < g) by (apply cbrt_pos; repeat apply Rmult_lt_0_compat; lra).
    rewrite each_ok. cbn [obind]. rewrite each_ok. cbn [obind].
    destruct (sort_asc_ok (fun i => nearest (lam_min tr) (lam_max tr) (compress r g (e1 i))) q1) as (e2 & q2 & E2 & H2 & A2).
    change (fun i : nat => Rmin (lam_max tr) (Rmax (lam_min tr) (g * Rmin (sqrt r) (Rmax (1 / sqrt r) (e1 i / g))))) with (fun i => nearest (lam_min tr) (lam_max tr) (compress r g (e1 i))).
    rewrite E2. cbn [obind]. exists true, e2, q2. split; [reflexivity|]. split; [eapply basis_rearr; eassumption|].
    split; [split; [exact A2|]; split|].
    + apply (rearr_all (fun x => lam_min tr <= x <= lam_max tr) _ _ _ _ H2). intros i _. now apply nearest_in.
    + destruct H2 as (s & S1 & _ & S3 & _). rewrite !S3 by lia. fold r.
      assert (Sr : 0 < sqrt r) by (apply sqrt_lt_R0; lra).
      destruct (compress_in r g (e1 (s 0%nat)) Hr G) as [C0 _], (compress_in r g (e1 (s 2%nat)) Hr G) as [_ C2].
      assert (0 < g * (1 / sqrt r)) by (apply Rmult_lt_0_compat; [lra|]; apply Rdiv_lt_0_compat; lra).
      apply ratio_nearest; try lra. apply Rle_trans with (g * sqrt r); [exact C2|].
      replace (g * sqrt r) with (r * (g * (1 / sqrt r))); [apply Rmult_le_compat_l; lra|].
      rewrite <- (sqrt_sqrt r) at 1 by lra. field. lra.
    + destruct H1 as (s1 & S1 & S2 & S3 & S4). destruct H2 as (s2 & T1 & T2 & T3 & T4).
      set (inv := fun k => if (s1 (s2 0%nat) =? k)%nat then e2 0%nat else if (s1 (s2 1%nat) =? k)%nat then e2 1%nat else e2 2%nat).
      exists inv. split.
      * exists (fun i => s1 (s2 i)). split; [auto|]. split; [intros i j Hi Hj Q; apply T2; auto|]. split.
        { intros i Hi. unfold inv. destruct (Nat.eqb_spec (s1 (s2 0%nat)) (s1 (s2 i))) as [Q|Q]; [apply S2 in Q; auto; apply T2 in Q; auto; now subst|].
          destruct (Nat.eqb_spec (s1 (s2 1%nat)) (s1 (s2 i))) as [Q'|Q']; [apply S2 in Q'; auto; apply T2 in Q'; auto; now subst|]. destruct i as [|[|[|i]]]; try contradiction; [reflexivity|lia]. }
        { intros i j Hi Hj. rewrite T4, S4 by auto. reflexivity. }
      * exists e1, q1. split; [exists s1; auto|]. split; [exact A1|]. right. split; [|reflexivity].
        apply Rmult_lt_compat_r with (r := e1 0%nat) in Hg; [|lra]. replace (e1 2%nat / e1 0%nat * e1 0%nat) with (e1 2%nat) in Hg by (field; lra). exact Hg.
  - assert (Q : e1 2%nat <= r * e1 0%nat). { apply Rnot_lt_le in Hg. apply Rmult_le_compat_r with (r := e1 0%nat) in Hg; [|lra]. replace (e1 2%nat / e1 0%nat * e1 0%nat) with (e1 2%nat) in Hg by (field; lra). exact Hg. }
    eexists _, e1, q1. split; [reflexivity|]. split; [exact B1|]. split; [split; [exact A1|]; split; [exact In1|exact Q]|].
    exists n. split; [exact H1|]. exists e1, q1. split; [exact H1|]. split; [exact A1|]. left. repeat split; auto.
Qed.

Lemma clamp_spectrum_ok : forall tr a, sane ke tr -> exists ch e q, clamp_spectrum eps sweeps ke tr (m9 a) = Some (ch, m9 (factors 3 q e q)) /\ basis q /\ admissible tr e.
Proof.
  intros tr a Hs. unfold clamp_spectrum. destruct (analyze_ok a) as (e & q & E & B & _). rewrite E. cbn [obind].
  destruct (clamp_evals_ok tr e q Hs B) as (ch & e' & q' & E' & B' & A & _). rewrite E'. cbn [obind]. rewrite reconstruct_ok. cbn [obind]. eauto 10.
Qed.
Lemma to_voigt_ok : forall a m, symmetric 3 a -> (6 <= length m)%nat -> exists m', dense_to_voigt (m9 a) m = Some m' /\ kept m m' /\
  forall i j, (i < 3)%nat -> (j < 3)%nat -> metric_of m' i j = a i j.
Proof.
  intros a m Hs Hl. destruct m as [|x0 [|x1 [|x2 [|x3 [|x4 [|x5 m]]]]]]; try (cbn in Hl; lia).
  eexists. split; [reflexivity|]. split; [split; [reflexivity|]; intros k Hk; do 6 (destruct k as [|k]; [lia|]); reflexivity|].
  intros i j Hi Hj. destruct i as [|[|[|i]]], j as [|[|[|j]]]; try lia; unfold metric_of; cbn -[Rplus Rmult Rdiv]; try reflexivity.
  all: rewrite ?(Hs 1%nat 0%nat), ?(Hs 2%nat 0%nat), ?(Hs 2%nat 1%nat) by lia; lra.
Qed.
Lemma absH_to_M_ok : forall tr a, sane ke tr -> exists M, absH_to_M eps sweeps ke tr (m9 a) = Some (m9 M).
Proof.
  intros tr a Hs. unfold absH_to_M. destruct (analyze_ok a) as (e & q & E & B & _). rewrite E. cbn [obind].
  destruct (clamp_evals_ok tr e q Hs B) as (ch & e' & q' & E' & B' & A & _). rewrite E'. cbn [obind]. rewrite reconstruct_ok. cbn [obind sdet e3 rd nth_error].
  destruct (Rlt_dec _ _); [rewrite dense_scale_ok; eauto|rewrite eye9_ok; eauto].
Qed.
Lemma matrix_log_ok : forall a, exists b, matrix_log eps sweeps ke (m9 a) = Some (m9 b).
Proof. intros a. unfold matrix_log. destruct (analyze_ok a) as (e & q & E & B & _). rewrite E. cbn [obind]. rewrite each_ok. cbn [obind]. rewrite reconstruct_ok. eauto. Qed.
Lemma matrix_exp_ok : forall a, exists b, matrix_exp eps sweeps (m9 a) = Some (m9 b).
Proof. intros a. unfold matrix_exp. destruct (analyze_ok a) as (e & q & E & B & _). rewrite E. cbn [obind]. rewrite each_ok. cbn [obind]. rewrite reconstruct_ok. eauto. Qed.
Lemma lift_zero_ok : forall t a, exists b, lift_zero eps sweeps t (m9 a) = Some (m9 b).
Proof.
  intros t a. unfold lift_zero. destruct (analyze_ok a) as (e & q & E & B & _). rewrite E. cbn [obind]. destruct (min_above t (e3 e)); [|eauto]. rewrite each_ok. cbn [obind].
  match goal with |- context [sort_asc (e3 ?f, _)] => destruct (sort_asc_ok f q) as (e1 & q1 & E1 & _) end. rewrite E1. cbn [obind]. rewrite reconstruct_ok. eauto.
Qed.

(** the views of cells *)
Lemma pick_from_ok : forall l best, Forall wf l -> (forall d v, best = Some (d, v) -> wf v) -> exists r, pick_from best l = Some r /\ (forall d v, r = Some (d, v) -> wf v).
Proof.
  induction l as [|v l IH]; intros best Hl Hb; cbn [pick_from]; [eauto|]. inversion Hl as [|? ? [Ha Hv] Hl']; subst. destruct (degen v); [now apply IH|].
  destruct (list3 (sv v) Hv) as [e Ee]. unfold vdet. rewrite Ee. cbn [sdet e3 rd nth_error obind]. apply IH; [assumption|]. intros d w. destruct best as [[b u]|]; [destruct (Rlt_dec _ _)|]; intros Q; inversion Q; subst; try (split; assumption); eapply Hb; reflexivity.
Qed.
Lemma sum_logs_ok : forall tr l a n, sane ke tr -> Forall wf l -> exists a' n', sum_logs eps sweeps ke tr l (m9 a, n) = Some (m9 a', n').
Proof.
  intros tr l. induction l as [|v l IH]; intros a n Hs Hl; cbn [sum_logs]; [eauto|]. inversion Hl as [|? ? [Ha Hv] Hl']; subst. destruct (degen v); [now apply IH|].
  destruct (list9 (absH v) Ha) as [b Eb]. rewrite Eb. destruct (absH_to_M_ok tr b Hs) as [M EM]. rewrite EM. cbn [obind]. destruct (matrix_log_ok M) as [L EL]. rewrite EL. cbn [obind fst snd]. rewrite dense_add_ok. cbn [obind]. now apply IH.
Qed.
Lemma pick_rank_ok : forall t l best, Forall wf l -> (forall d v, best = Some (d, v) -> wf v) -> forall d v, pick_rank t best l = Some (d, v) -> wf v.
Proof.
  intros t. induction l as [|v l IH]; intros best Hl Hb; cbn [pick_rank]; [exact Hb|]. inversion Hl; subst. apply IH; [assumption|]. intros d w. destruct best as [[[bn bp] u]|]; [destruct (_ <? _)%nat; [|destruct (_ =? _)%nat; [destruct (Rlt_dec _ _)|]]|]; intros Q; inversion Q; subst; try assumption; eapply Hb; reflexivity.
Qed.
Lemma weighted_ok : forall l st, Forall wf l -> exists r, fold_left (fun st v => do (c, w) <- st; do s <- rd (sv v) 2; Some (if Rlt_dec ke s then (c + vvol v * s, w + vvol v) else (c, w))) l (Some st) = Some r.
Proof. induction l as [|v l IH]; intros [c w] Hl; cbn [fold_left]; [eauto|]. inversion Hl as [|? ? [Ha Hv] Hl']; subst. destruct (list3 (sv v) Hv) as [e Ee]. rewrite Ee. cbn [obind e3 rd nth_error]. destruct (Rlt_dec _ _); now apply IH. Qed.
Lemma raw_ok : forall tr any patch, sane ke tr -> Forall wf patch -> exists a, raw_metric eps sweeps ke tr any patch = Some (m9 a).
Proof.
  intros tr any patch Hs Hp. unfold raw_metric. destruct patch as [|v0 l0]; [rewrite eye9_ok; eauto|]. set (patch := v0 :: l0) in *. destruct (existsb _ patch).
  - destruct (strategy tr =? 0)%nat.
    + unfold pick_max_det. destruct (pick_from_ok patch None Hp) as (r & E & H); [discriminate|]. rewrite E. cbn [obind]. destruct r as [[d v]|]; [|rewrite eye9_ok; eauto].
      destruct (H d v eq_refl) as [Ha _]. destruct (list9 (absH v) Ha) as [b Eb]. rewrite Eb. now apply absH_to_M_ok.
    + unfold geom_mean. rewrite zero9_ok. destruct (sum_logs_ok tr patch (fun _ _ => 0) 0 Hs Hp) as (a & n & E). rewrite E. cbn [obind]. destruct (n =? 0)%nat; [rewrite eye9_ok; eauto|]. rewrite dense_scale_ok. cbn [obind]. apply matrix_exp_ok.
  - unfold all_degenerate. assert (F : exists a, (if negb any then Some (eye9 (iso tr)) else do (c, w) <- weighted ke patch; Some (eye9 (if Rlt_dec 0 w then c / w else iso tr))) = Some (m9 a)).
    { destruct any; cbn [negb]; [|rewrite eye9_ok; eauto]. unfold weighted. destruct (weighted_ok patch (0, 0) Hp) as ((c & w) & E). rewrite E. cbn [obind]. rewrite eye9_ok. eauto. }
    pose proof (pick_rank_ok (lam_min tr) patch None Hp ltac:(discriminate)) as W. destruct (pick_rank (lam_min tr) None patch) as [[[n p] v]|]; [|exact F]. destruct n; [exact F|].
    destruct (W _ _ eq_refl) as [Ha _]. destruct (list9 (absH v) Ha) as [b Eb]. rewrite Eb. destruct (lift_zero_ok (lam_min tr) b) as [b' E']. rewrite E'. cbn [obind]. now apply absH_to_M_ok.
Qed.
Lemma node_ok : forall tr any patch m, sane ke tr -> Forall wf patch -> (6 <= length m)%nat -> exists m' e q, node_metric eps sweeps ke tr any patch m = Some m' /\ kept m m' /\ basis q /\ admissible tr e /\
  forall i j, (i < 3)%nat -> (j < 3)%nat -> metric_of m' i j = factors 3 q e q i j.
Proof.
  intros tr any patch m Hs Hp Hm. unfold node_metric. destruct (raw_ok tr any patch Hs Hp) as [a Ea]. rewrite Ea. cbn [obind]. destruct (clamp_spectrum_ok tr a Hs) as (ch & e & q & E & B & A). rewrite E. cbn [obind].
  destruct (to_voigt_ok (factors 3 q e q) m (factors_sym e q) Hm) as (m' & Em & K & Hm'). eauto 10.
Qed.
Lemma form_ext : forall a b x, (forall i j, (i < 3)%nat -> (j < 3)%nat -> a i j = b i j) -> form a x = form b x.
Proof. intros a b x H. unfold form, inner, mult. cbn [Rsum]. rewrite !H by lia. reflexivity. Qed.
End Num.
