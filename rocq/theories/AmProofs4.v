From Coq Require Import Lra Lia Permutation.
From Verif Require Import Prelude RSum GeoModel GeoSpec DenseSpec QrSpec SvdModel SvdSpec SvdProofs SvdProofs2 SvdProofs3 SvdProofs4 AmModel AmSpec AmSpec2 AmProofs AmProofs2 AmProofs3.
Local Open Scope R_scope.

Section Num.
Variables (eps : R) (sweeps : nat) (ke : R).
Hypothesis He : 0 <= eps.

Lemma form_add : forall a b x, form (fun i j => a i j + b i j) x = form a x + form b x.
Proof. intros. unfold form, inner, mult. cbn [Rsum]. ring. Qed.
Lemma form_scal : forall a c x, form (fun i j => a i j * c) x = form a x * c.
Proof. intros. unfold form, inner, mult. cbn [Rsum]. ring. Qed.
Lemma between_add : forall l h l' h' a b, between l h a -> between l' h' b -> between (l + l') (h + h') (fun i j => a i j + b i j).
Proof. intros l h l' h' a b H H' x. rewrite form_add. specialize (H x). specialize (H' x). lra. Qed.
Lemma between_scal : forall l h c a, 0 <= c -> between l h a -> between (l * c) (h * c) (fun i j => a i j * c).
Proof. intros l h c a Hc H x. rewrite form_scal. destruct (H x). split; [replace (l * c * sq x) with (l * sq x * c) by ring|replace (h * c * sq x) with (h * sq x * c) by ring]; now apply Rmult_le_compat_r. Qed.
Lemma between_zero : between 0 0 (fun _ _ => 0).
Proof. intros x. unfold form, inner, mult. cbn [Rsum]. lra. Qed.
Lemma sum_logs_between : forall tr lo hi l, sane ke tr -> 0 < ke <= lo -> Forall wf l ->
  (forall v M, In v l -> degen v = false -> absH_to_M eps sweeps ke tr (absH v) = Some (m9 M) -> between lo hi M) ->
  forall a n, between (INR n * ln lo) (INR n * ln hi) a -> exists a' n', sum_logs eps sweeps ke tr l (m9 a, n) = Some (m9 a', n') /\ between (INR n' * ln lo) (INR n' * ln hi) a' /\ (n <= n')%nat /\ (existsb usable l = true -> (n < n')%nat).
Proof.
  intros tr lo hi l Hs Hlo. induction l as [|v l IH]; intros Hl HM a n Ha.
  - exists a, n. split; [reflexivity|]. split; [exact Ha|]. split; [lia|discriminate].
  - inversion Hl as [|? ? Hv Hl']; subst. destruct (degen v) eqn:D.
    + cbn [sum_logs existsb]. unfold usable at 1. rewrite D. cbn [negb orb]. apply IH; auto. intros w M Hw. apply HM. now right.
    + destruct (sum_logs_cons eps sweeps ke He tr v Hs Hv D) as (M & L & EM & EL & E). rewrite E.
      destruct (log_between eps sweeps ke He lo hi M Hlo (HM v M ltac:(now left) D EM)) as (L' & EL' & HL). rewrite EL in EL'. assert (QL : m9 L = m9 L') by congruence.
      destruct (IH Hl' ltac:(intros w N Hw; apply HM; now right) (fun i j => a i j + L i j) (S n)) as (a' & n' & E' & H1 & H2 & _).
      { rewrite S_INR. replace ((INR n + 1) * ln lo) with (INR n * ln lo + ln lo) by ring. replace ((INR n + 1) * ln hi) with (INR n * ln hi + ln hi) by ring. apply between_add; [exact Ha|].
        intros x. rewrite (form_ext L L' x (m9_inj _ _ QL)). apply HL. }
      exists a', n'. split; [exact E'|]. split; [exact H1|]. split; lia.
Qed.
Lemma mean_between : forall tr lo hi l, sane ke tr -> 0 < ke <= lo -> lo <= hi -> Forall wf l -> existsb usable l = true ->
  (forall v M, In v l -> degen v = false -> absH_to_M eps sweeps ke tr (absH v) = Some (m9 M) -> between lo hi M) ->
  exists X, geom_mean eps sweeps ke tr l = Some (m9 X) /\ between lo hi X.
Proof.
  intros tr lo hi l Hs Hlo Hh Hl Hx HM. unfold geom_mean. rewrite zero9_ok. destruct (sum_logs_between tr lo hi l Hs Hlo Hl HM (fun _ _ => 0) 0) as (a & n & E & H & _ & Hn).
  { cbn [INR]. rewrite !Rmult_0_l. apply between_zero. }
  specialize (Hn Hx). rewrite E. cbn [obind]. destruct (Nat.eqb_spec n 0); [lia|]. rewrite dense_scale_ok. cbn [obind].
  assert (Pn : 0 < INR n) by (apply lt_0_INR; lia). assert (Hi : 0 <= 1 / INR n) by (left; now apply Rdiv_lt_0_compat; [lra|]).
  apply (between_scal _ _ _ _ Hi) in H. replace (INR n * ln lo * (1 / INR n)) with (ln lo) in H by (field; lra). replace (INR n * ln hi * (1 / INR n)) with (ln hi) in H by (field; lra).
  destruct (exp_between eps sweeps He _ _ _ H) as (X & EX & HX). rewrite !exp_ln in HX by lra. eauto.
Qed.
Lemma nearest_id : forall lo hi x, lo <= x <= hi -> nearest lo hi x = x.
Proof. intros lo hi x H. unfold nearest, Rmin, Rmax. repeat destruct (Rle_dec _ _); lra. Qed.
Lemma clamp_keeps : forall tr lo hi a, sane ke tr -> lam_min tr <= lo -> hi <= lam_max tr -> hi <= Rmax (lam_rel tr) 1 * lo -> between lo hi a ->
  exists ch e q, clamp_spectrum eps sweeps ke tr (m9 a) = Some (ch, m9 (factors 3 q e q)) /\ basis q /\ admissible tr e /\ between lo hi (factors 3 q e q).
Proof.
  intros tr lo hi a Hs H1 H2 H3 H. unfold clamp_spectrum. destruct (analyze_rayleigh eps sweeps He a) as (e & q & E & B & _ & Ray). rewrite E. cbn [obind].
  destruct (clamp_evals_ok ke tr e q Hs B) as (ch & e' & q' & E' & B' & A & f & _ & e1 & q1 & R1 & _ & C). rewrite E'. cbn [obind]. rewrite reconstruct_ok. cbn [obind]. exists ch, e', q'. split; [reflexivity|]. split; [exact B'|]. split; [exact A|].
  assert (I1 : forall i, (i < 3)%nat -> lo <= e1 i <= hi). { apply (rearr_all (fun x => lo <= x <= hi) _ _ _ _ R1). intros i Hi. rewrite Ray by assumption. destruct (rayleigh_in lo hi a q i H B Hi). rewrite nearest_id; lra. }
  destruct C as [(_ & -> & -> & _)|[C _]]; [now apply factors_between|]. exfalso. destruct (I1 0%nat ltac:(lia)), (I1 2%nat ltac:(lia)). assert (1 <= Rmax (lam_rel tr) 1) by apply Rmax_r.
  assert (Rmax (lam_rel tr) 1 * lo <= Rmax (lam_rel tr) 1 * e1 0%nat) by (apply Rmult_le_compat_l; lra). lra.
Qed.
(** multiples of the identity *)
Lemma between_scalar : forall c, between c c (fun i j => c * identity i j).
Proof. intros c x. unfold form, sq, inner, mult, identity. cbn [Rsum Nat.eqb]. lra. Qed.
Lemma factors_const : forall c e q, basis q -> (forall i, (i < 3)%nat -> e i = c) -> forall i j, (i < 3)%nat -> (j < 3)%nat -> factors 3 q e q i j = c * identity i j.
Proof.
  intros c e q [_ B] H i j Hi Hj. unfold factors. rewrite (Rsum_ext 3 _ (fun k => c * (q i k * q j k))) by (intros k Hk; rewrite H by assumption; ring). rewrite Rsum_scal. f_equal. exact (B i j Hi Hj).
Qed.
Lemma clamp_scalar : forall tr c, sane ke tr -> exists ch M, clamp_spectrum eps sweeps ke tr (eye9 c) = Some (ch, m9 M) /\ symmetric 3 M /\ forall i j, (i < 3)%nat -> (j < 3)%nat -> M i j = nearest (lam_min tr) (lam_max tr) c * identity i j.
Proof.
  intros tr c Hs. rewrite eye9_ok. unfold clamp_spectrum. destruct (analyze_rayleigh eps sweeps He (fun i j => c * identity i j)) as (e & q & E & B & _ & Ray). rewrite E. cbn [obind].
  destruct (clamp_evals_ok ke tr e q Hs B) as (ch & e' & q' & E' & B' & A & f & _ & e1 & q1 & R1 & _ & C). rewrite E'. cbn [obind]. rewrite reconstruct_ok. cbn [obind]. exists ch, (factors 3 q' e' q'). split; [reflexivity|]. split; [apply factors_sym|].
  set (c' := nearest (lam_min tr) (lam_max tr) c) in *.
  assert (I1 : forall i, (i < 3)%nat -> e1 i = c'). { apply (rearr_all (fun x => x = c') _ _ _ _ R1). intros i Hi. rewrite Ray by assumption. unfold c'. f_equal. destruct (rayleigh_in c c _ q i (between_scalar c) B Hi). lra. }
  destruct C as [(_ & -> & -> & _)|[C _]]; [now apply factors_const|]. exfalso. rewrite !I1 in C by lia. assert (1 <= Rmax (lam_rel tr) 1) by apply Rmax_r.
  destruct Hs as (? & ? & ?). assert (lam_min tr <= c') by (apply nearest_in; assumption). nra.
Qed.
Lemma node_scalar : forall tr any patch m c, sane ke tr -> (6 <= length m)%nat -> raw_metric eps sweeps ke tr any patch = Some (eye9 c) -> exists m', node_metric eps sweeps ke tr any patch m = Some m' /\ kept m m' /\ scalar_metric (nearest (lam_min tr) (lam_max tr) c) m'.
Proof.
  intros tr any patch m c Hs Hm Hr. unfold node_metric. rewrite Hr. cbn [obind]. destruct (clamp_scalar tr c Hs) as (ch & M & E & Sy & HM). rewrite E. cbn [obind]. destruct (to_voigt_ok M m Sy Hm) as (m' & Em & K & Hm').
  exists m'. split; [exact Em|]. split; [exact K|]. intros i j Hi Hj. now rewrite Hm', HM.
Qed.

(** patches without values above the threshold *)
Lemma small_count : forall t v, small t v -> count_above t (sv v) = 0%nat.
Proof. intros t v H. unfold count_above, above. replace (filter _ (sv v)) with (@nil R); [reflexivity|]. unfold small in H. induction (sv v) as [|x l IH]; [reflexivity|]. cbn [filter]. unfold gt at 1. destruct (Rlt_dec t x); [exfalso; specialize (H x ltac:(now left)); lra|]. apply IH. intros; apply H; now right. Qed.
Lemma rank_small : forall t l best, Forall (small t) l -> (forall n p v, best = Some (n, p, v) -> n = 0%nat) -> forall n p v, pick_rank t best l = Some (n, p, v) -> n = 0%nat.
Proof.
  intros t. induction l as [|v l IH]; intros best Hl Hb; cbn [pick_rank]; [exact Hb|]. inversion Hl; subst. apply IH; [assumption|]. rewrite small_count by assumption. intros n p w. destruct best as [[[bn bp] u]|]; [|now intros [= <- _ _]].
  rewrite (Hb bn bp u eq_refl). cbn [Nat.ltb Nat.leb Nat.eqb]. destruct (Rlt_dec _ _); now intros [= <- _ _].
Qed.
Definition heavy (v : view) : bool := if Rlt_dec ke (nth 2 (sv v) 0) then true else false.
Definition mean_value (l : list view) : R * R := (total (map (fun v => vvol v * nth 2 (sv v) 0) (filter heavy l)), total (map vvol (filter heavy l))).
Lemma weighted_value : forall l c w, Forall wf l -> fold_left (fun st v => do (c, w) <- st; do s <- rd (sv v) 2; Some (if Rlt_dec ke s then (c + vvol v * s, w + vvol v) else (c, w))) l (Some (c, w)) = Some (c + fst (mean_value l), w + snd (mean_value l)).
Proof.
  induction l as [|v l IH]; intros c w Hl; cbn [fold_left]; [unfold mean_value; cbn; now rewrite !Rplus_0_r|]. inversion Hl as [|? ? [_ Hv] Hl']; subst. unfold mean_value in *. cbn [filter]. destruct (list3 (sv v) Hv) as [e Ee]. assert (Hh : heavy v = if Rlt_dec ke (e 2%nat) then true else false) by (unfold heavy; now rewrite Ee). rewrite Hh. rewrite Ee. cbn [obind e3 rd nth_error nth].
  destruct (Rlt_dec ke (e 2%nat)); rewrite IH by assumption; cbn [map total fold_right fst snd]; [|reflexivity]. rewrite ?Ee. cbn [e3 nth]. unfold total. f_equal. apply f_equal2; ring.
Qed.
Lemma raw_small : forall tr any l, l <> [] -> Forall wf l -> existsb usable l = false -> Forall (small (lam_min tr)) l ->
  raw_metric eps sweeps ke tr any l = Some (eye9 (if any then if Rlt_dec 0 (snd (mean_value l)) then fst (mean_value l) / snd (mean_value l) else iso tr else iso tr)).
Proof.
  intros tr any l Hn Hl Hx Hsm. unfold raw_metric. fold usable. rewrite Hx. unfold all_degenerate. pose proof (rank_small (lam_min tr) l None Hsm ltac:(discriminate)) as Rk.
  destruct l as [|v0 l0]; [contradiction|]. set (l := v0 :: l0) in *.
  assert (F : (if negb any then Some (eye9 (iso tr)) else do (c, w) <- weighted ke l; Some (eye9 (if Rlt_dec 0 w then c / w else iso tr))) = Some (eye9 (if any then if Rlt_dec 0 (snd (mean_value l)) then fst (mean_value l) / snd (mean_value l) else iso tr else iso tr))).
  { destruct any; cbn [negb]; [|reflexivity]. unfold weighted. rewrite (weighted_value l 0 0 Hl). cbn [obind]. now rewrite !Rplus_0_l. }
  destruct (pick_rank (lam_min tr) None l) as [[[n p] v]|]; [|exact F]. rewrite (Rk n p v eq_refl). exact F.
Qed.
Lemma mean_small : forall t l, Forall wf l -> Forall (small t) l -> (forall v, In v l -> 0 <= vvol v) -> fst (mean_value l) <= t * snd (mean_value l).
Proof.
  intros t. induction l as [|v l IH]; intros Hw Hs Hv; [unfold mean_value; cbn; lra|]. inversion Hw as [|? ? [_ Hl3] Hw']; subst. inversion Hs as [|? ? Hsv Hs']; subst. specialize (IH Hw' Hs' ltac:(intros; apply Hv; now right)). unfold mean_value in *. cbn [filter].
  destruct (heavy v); [|exact IH]. cbn [map total fold_right fst snd] in *. assert (nth 2 (sv v) 0 <= t) by (apply Hsv, nth_In; lia). specialize (Hv v ltac:(now left)). unfold total in IH. nra.
Qed.

(** |H| *)
Lemma spectral_abs_ok : forall a, exists s q e, spectral_abs eps sweeps (m9 a) = Some (m9 (factors 3 q s q), e3 s) /\ basis q /\ ascending s /\ (forall k, (k < 3)%nat -> s k = Rabs (e k) /\ e k = form a (column q k)) /\
  (solved eps sweeps a -> eigen_pairs 3 (symm a) (jac_tol eps 3) e q).
Proof.
  intros a. unfold spectral_abs. destruct (analyze_ok eps sweeps He a) as (e0 & q0 & E0 & B0 & _ & Ep & _). destruct (analyze_rayleigh eps sweeps He a) as (e & q & E & B & _ & Ray). rewrite E0 in E. assert (Qe : e3 e0 = e3 e) by congruence. assert (Qq : m9 q0 = m9 q) by congruence.
  rewrite E0. cbn [obind]. rewrite each_ok. cbn [obind]. destruct (sort_asc_ok (fun i => Rabs (e0 i)) q0) as (s & q1 & E1 & R1 & A1). rewrite E1. cbn [obind]. rewrite reconstruct_ok. cbn [obind].
  assert (B1 : basis q1) by (eapply basis_rearr; eassumption). destruct R1 as (p & P1 & P2 & P3 & P4). exists s, q1, (fun k => e0 (p k)). split; [reflexivity|]. split; [exact B1|]. split; [exact A1|]. split.
  - intros k Hk. split; [now apply P3|]. pose proof (m9_inj _ _ Qq) as Hq. assert (e0 (p k) = e (p k)). { specialize (P1 k Hk). injection Qe as ? ? ?. destruct (p k) as [|[|[|]]]; try assumption; lia. }
    rewrite H, Ray by auto. unfold form, inner, mult, column. cbn [Rsum]. rewrite !P4, !Hq by (auto; lia). reflexivity.
  - intros So. apply (rearranged_eigen 3 (symm a) (jac_tol eps 3) e0 q0); [|auto]. exists p. auto.
Qed.
End Num.
