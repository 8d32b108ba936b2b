From Coq Require Import Lra Lia.
From Verif Require Import Prelude RSum GeoModel GeoSpec DenseSpec QrSpec SvdModel SvdSpec SvdProofs SvdProofs2 SvdProofs3 SvdProofs4 SvdProofs5 AmModel AmSpec AmSpec2 AmSpec3 AmProofs AmProofs2 AmProofs3 AmProofs4 AmProofs6 AmProofs7.
Local Open Scope R_scope.

Lemma nearest_mono : forall lo hi x y, x <= y -> nearest lo hi x <= nearest lo hi y.
Proof. intros lo hi x y H. unfold nearest, Rmin, Rmax. repeat destruct (Rle_dec _ _); lra. Qed.
Lemma sorted_unique : forall n q e q', rearranged 3 n q e q' -> ascending n -> ascending e -> forall k, (k < 3)%nat -> e k = n k.
Proof.
  intros n q e q' (s & S1 & S2 & S3 & _) A B. unfold ascending in *. rewrite !S3 in B by lia. pose proof (S1 0%nat ltac:(lia)). pose proof (S1 1%nat ltac:(lia)). pose proof (S1 2%nat ltac:(lia)).
  assert (s 0%nat <> s 1%nat) by (intros Q; apply S2 in Q; lia). assert (s 0%nat <> s 2%nat) by (intros Q; apply S2 in Q; lia). assert (s 1%nat <> s 2%nat) by (intros Q; apply S2 in Q; lia).
  intros k Hk. rewrite S3 by assumption. destruct k as [|[|[|k]]]; try lia; destruct (s 0%nat) as [|[|[|]]], (s 1%nat) as [|[|[|]]], (s 2%nat) as [|[|[|]]]; try lia; lra.
Qed.
Lemma Rmin_mult : forall g x y, 0 <= g -> Rmin (g * x) (g * y) = g * Rmin x y.
Proof. intros g x y H. unfold Rmin. destruct (Rle_dec x y), (Rle_dec (g * x) (g * y)); try reflexivity; [exfalso; apply n; now apply Rmult_le_compat_l|]. destruct (Rle_lt_or_eq_dec 0 g H) as [P|<-]; [|ring]. exfalso. apply n. apply Rmult_le_reg_l with g; assumption. Qed.
Lemma compress_nearest : forall r g x, 1 <= r -> 0 < g -> compress r g x = nearest (g / sqrt r) (g * sqrt r) x.
Proof.
  intros r g x Hr Hg. assert (Hs : 1 <= sqrt r) by (rewrite <- sqrt_1; now apply sqrt_le_1_alt). unfold compress, nearest.
  replace (g / sqrt r) with (g * (1 / sqrt r)) by (field; lra). replace x with (g * (x / g)) at 2 by (field; lra). rewrite RmaxRmult by lra. rewrite Rmin_mult; [reflexivity|lra].
Qed.
Lemma rearr_trans : forall n e q e1 q1 e2 q2, rearranged n e q e1 q1 -> rearranged n e1 q1 e2 q2 -> rearranged n e q e2 q2.
Proof.
  intros n e q e1 q1 e2 q2 (s & S1 & S2 & S3 & S4) (t & T1 & T2 & T3 & T4). exists (fun i => s (t i)). split; [auto|]. split; [intros i j Hi Hj Q; apply T2; auto|].
  split; [intros i Hi; now rewrite T3, S3 by auto|]. intros i j Hi Hj. now rewrite T4, S4 by auto.
Qed.
Lemma rearr_ext : forall n e f q e' q', (forall i, (i < n)%nat -> e i = f i) -> rearranged n e q e' q' -> rearranged n f q e' q'.
Proof. intros n e f q e' q' H (s & S1 & S2 & S3 & S4). exists s. repeat split; auto. intros i Hi. rewrite S3 by assumption. now apply H, S1. Qed.

Section Num.
Variables (eps : R) (sweeps : nat) (ke : R).
Hypothesis He : 0 <= eps.

Lemma clamp_evals_exact : forall tr e q, sane ke tr -> basis q -> ascending e -> exists ch e' q', clamp_evals ke tr (e3 e, m9 q) = Some (ch, (e3 e', m9 q')) /\ basis q' /\ rearranged 3 (limited tr e) q e' q'.
Proof.
  intros tr e q (Hk0 & Hk & Hm) B Ae. unfold clamp_evals. cbn [e3 rd nth_error obind]. fold (e3 e). rewrite each_ok. cbn [obind].
  rewrite (e3_ext (fun i => clamp_abs tr (e i)) (fun i => nearest (lam_min tr) (lam_max tr) (e i))) by (intros; now apply clamp_abs_ok).
  unfold limited. set (n := fun i => nearest (lam_min tr) (lam_max tr) (e i)). change (nearest (lam_min tr) (lam_max tr) (e 0%nat)) with (n 0%nat). change (nearest (lam_min tr) (lam_max tr) (e 1%nat)) with (n 1%nat). change (nearest (lam_min tr) (lam_max tr) (e 2%nat)) with (n 2%nat).
  assert (An : ascending n) by (split; apply nearest_mono; apply Ae).
  destruct (sort_asc_ok n q) as (e1 & q1 & E1 & H1 & A1). rewrite E1. cbn [obind e3 rd nth_error]. fold (e3 e1).
  pose proof (sorted_unique n q e1 q1 H1 An A1) as U. assert (B1 : basis q1) by (eapply basis_rearr; eassumption). rewrite !U by lia.
  assert (In1 : forall i, lam_min tr <= n i <= lam_max tr) by (intros i; now apply nearest_in).
  set (r := Rmax (lam_rel tr) 1). assert (Hr : 1 <= r) by apply Rmax_r.
  destruct (In1 0%nat) as [L0 U0], (In1 1%nat) as [L1 U1], (In1 2%nat) as [L2 U2].
  destruct (Rlt_dec ke (n 0%nat)) as [_|]; [|lra].
  assert (D : r < n 2%nat / n 0%nat <-> r * n 0%nat < n 2%nat).
  { replace (n 2%nat) with (n 2%nat / n 0%nat * n 0%nat) at 2 by (field; lra). split; intros Q; [apply Rmult_lt_compat_r; lra|apply Rmult_lt_reg_r with (n 0%nat); lra]. }
  destruct (Rlt_dec r (n 2%nat / n 0%nat)) as [Hg|Hg], (Rlt_dec (r * n 0%nat) (n 2%nat)) as [Hg'|Hg']; try tauto.
  - assert (G : cbrt (n 0%nat * n 1%nat * n 2%nat) = Rpower (n 0%nat * n 1%nat * n 2%nat) (1 / 3)). { unfold cbrt. destruct (Rlt_dec 0 _) as [|N]; [reflexivity|]. exfalso. apply N. repeat apply Rmult_lt_0_compat; lra. }
    set (g := cbrt (n 0%nat * n 1%nat * n 2%nat)) in *. rewrite <- G. assert (Gp : 0 < g) by (apply cbrt_pos; repeat apply Rmult_lt_0_compat; lra). clearbody g.
    rewrite each_ok. cbn [obind]. rewrite each_ok. cbn [obind].
    set (f := fun x => nearest (lam_min tr) (lam_max tr) (nearest (g / sqrt r) (g * sqrt r) x)).
    rewrite (e3_ext _ (fun i => f (e1 i))) by (intros i Hi; unfold f; rewrite <- compress_nearest by assumption; reflexivity).
    destruct (sort_asc_ok (fun i => f (e1 i)) q1) as (e2 & q2 & E2 & H2 & A2). rewrite E2. cbn [obind]. exists true, e2, q2. split; [reflexivity|]. split; [eapply basis_rearr; eassumption|].
    eapply rearr_trans; [exact (rearr_map f _ _ _ _ _ H1)|exact H2].
  - eexists _, e1, q1. split; [reflexivity|]. split; [exact B1|exact H1].
Qed.
Lemma analysed_ok : forall a, symmetric 3 a -> exists l q, analyze eps sweeps (m9 a) = Some (e3 l, m9 q) /\ basis q /\ analysed eps sweeps a l q.
Proof.
  intros a Sy. destruct (analyze_ok eps sweeps He a) as (e & q & E & B & A & P & _). destruct (analyze_rayleigh eps sweeps He a) as (e' & q' & E' & _ & _ & Ray). rewrite E in E'.
  exists e, q. split; [exact E|]. split; [exact B|]. split; [apply B|]. split; [apply B|]. split; [exact A|]. split.
  - intros k Hk. assert (Qe : e3 e = e3 e') by congruence. assert (Qq : m9 q = m9 q') by congruence. pose proof (m9_inj _ _ Qq) as Hq. assert (e k = e' k) as ->. { injection Qe as ? ? ?. destruct k as [|[|[|]]]; try assumption; lia. }
    rewrite Ray by assumption. unfold form, inner, mult, column. cbn [Rsum]. rewrite !Hq by lia. reflexivity.
  - intros (e0 & V0 & E0). assert (S0 : solved eps sweeps a). { unfold solved. rewrite (m9_ext (symm a) a (symm_id a Sy)). exists e0, V0. exact E0. }
    destruct (P S0) as [P1 P2]. split; [exact P1|]. intros j Hj. destruct (P2 j Hj) as [Q1 Q2].
    assert (Eq : forall i, (i < 3)%nat -> mult 3 (symm a) (column q j) i = mult 3 a (column q j) i) by (intros i Hi; apply Rsum_ext; intros k Hk; now rewrite symm_id). split.
    + rewrite <- Q1. apply Rsum_ext. intros i Hi. now rewrite Eq.
    + eapply Rle_trans; [|exact Q2]. right. unfold norm2. f_equal. apply Rsum_ext. intros i Hi. now rewrite Eq.
Qed.
Lemma clamp_exact : forall tr a l q, sane ke tr -> analyze eps sweeps (m9 a) = Some (e3 l, m9 q) -> basis q -> ascending l ->
  exists ch, clamp_spectrum eps sweeps ke tr (m9 a) = Some (ch, m9 (factors 3 q (limited tr l) q)).
Proof.
  intros tr a l q Hs E B A. unfold clamp_spectrum. rewrite E. cbn [obind]. destruct (clamp_evals_exact tr l q Hs B A) as (ch & e' & q' & E' & B' & Hr). rewrite E'. cbn [obind]. rewrite reconstruct_ok. cbn [obind].
  exists ch. do 2 f_equal. apply m9_ext. intros i j Hi Hj. now apply rearr_factors.
Qed.
Definition det3 (e : nat -> R) : R := e 0%nat * e 1%nat * e 2%nat.
Lemma absH_exact : forall tr a l q, sane ke tr -> analyze eps sweeps (m9 a) = Some (e3 l, m9 q) -> basis q -> ascending l ->
  absH_to_M eps sweeps ke tr (m9 a) = Some (if Rlt_dec ke (det3 (limited tr l)) then m9 (factors 3 q (scaled (limited tr l)) q) else m9 (fun i j => iso tr * identity i j)).
Proof.
  intros tr a l q Hs E B A. unfold absH_to_M. rewrite E. cbn [obind]. destruct (clamp_evals_exact tr l q Hs B A) as (ch & e' & q' & E' & B' & Hr). rewrite E'. cbn [obind]. rewrite reconstruct_ok. cbn [obind sdet e3 rd nth_error].
  rewrite (rearr_prod _ _ _ _ Hr). fold (det3 (limited tr l)). destruct (Rlt_dec ke (det3 (limited tr l))); [|now rewrite eye9_ok]. rewrite dense_scale_ok. f_equal. apply m9_ext. intros i j Hi Hj. rewrite (rearr_factors _ _ _ _ Hr) by assumption.
  unfold factors, scaled, pow_m02, det3. cbn [Rsum]. ring.
Qed.

(** without a regular cell *)
Lemma above_exceeding : forall t s, above t s = exceeding t s. Proof. reflexivity. Qed.
Lemma fold_prod : forall l x, fold_left Rmult l x = x * fold_right Rmult 1 l.
Proof. induction l as [|y l IH]; intros x; cbn [fold_left fold_right]; [ring|]. rewrite IH. ring. Qed.
Lemma prod_weight : forall t v, (0 < rank t v)%nat -> prod_above t (sv v) = weight t v.
Proof. intros t v. unfold rank, weight, prod_above. change (above t (sv v)) with (exceeding t (sv v)). destruct (exceeding t (sv v)); cbn [length]; [lia|]. intros _. rewrite fold_prod. ring. Qed.
Lemma pick_rank_best : forall t l best, (forall n p v, best = Some (n, p, v) -> n = rank t v /\ p = prod_above t (sv v)) -> (l <> [] \/ best <> None) ->
  exists v, pick_rank t best l = Some (rank t v, prod_above t (sv v), v) /\ (In v l \/ exists n p, best = Some (n, p, v)) /\
    (forall w, In w l \/ (exists n p, best = Some (n, p, w)) -> (rank t w < rank t v)%nat \/ (rank t w = rank t v /\ prod_above t (sv w) <= prod_above t (sv v))).
Proof.
  intros t. induction l as [|v l IH]; intros best Hb Hn; cbn [pick_rank].
  - destruct best as [[[n p] v]|]; [|destruct Hn; contradiction]. destruct (Hb n p v eq_refl) as [-> ->]. exists v. split; [reflexivity|]. split; [right; eauto|]. intros w [[]|(n & p & [= <- <- <-])]. right. split; [reflexivity|lra].
  - change (count_above t (sv v)) with (rank t v).
    destruct best as [[[bn bp] u]|].
    + destruct (Hb bn bp u eq_refl) as [-> ->]. destruct (Nat.ltb_spec (rank t u) (rank t v)) as [L|L].
      * destruct (IH (Some (rank t v, prod_above t (sv v), v))) as (z & Ez & Hz & Mz); [intros ? ? ? [= <- <- <-]; auto|right; discriminate|]. exists z. split; [exact Ez|]. split; [destruct Hz as [Hz|(n & p & [= <- <- <-])]; [left; now right|left; now left]|].
        assert (Mv : (rank t v < rank t z)%nat \/ rank t v = rank t z /\ prod_above t (sv v) <= prod_above t (sv z)) by (apply Mz; right; eauto).
        intros w [[<-|Hw]|(n & p & [= <- <- <-])]; [exact Mv|apply Mz; now left|left; lia].
      * destruct (Nat.eqb_spec (rank t v) (rank t u)) as [Q|Q]; [destruct (Rlt_dec _ _) as [P|P]|].
        -- destruct (IH (Some (rank t v, prod_above t (sv v), v))) as (z & Ez & Hz & Mz); [intros ? ? ? [= <- <- <-]; auto|right; discriminate|]. exists z. split; [exact Ez|]. split; [destruct Hz as [Hz|(n & p & [= <- <- <-])]; [left; now right|left; now left]|].
           assert (Mv : (rank t v < rank t z)%nat \/ rank t v = rank t z /\ prod_above t (sv v) <= prod_above t (sv z)) by (apply Mz; right; eauto).
           intros w [[<-|Hw]|(n & p & [= <- <- <-])]; [exact Mv|apply Mz; now left|]. destruct Mv as [Mv|[Mv Mp]]; [left; lia|right; split; [lia|lra]].
        -- destruct (IH (Some (rank t u, prod_above t (sv u), u))) as (z & Ez & Hz & Mz); [intros ? ? ? [= <- <- <-]; auto|right; discriminate|]. exists z. split; [exact Ez|]. split; [destruct Hz as [Hz|(n & p & [= <- <- <-])]; [left; now right|right; eauto]|].
           assert (Mu : (rank t u < rank t z)%nat \/ rank t u = rank t z /\ prod_above t (sv u) <= prod_above t (sv z)) by (apply Mz; right; eauto).
           intros w [[<-|Hw]|(n & p & [= <- <- <-])]; [|apply Mz; now left|exact Mu]. destruct Mu as [Mu|[Mu Mp]]; [left; lia|right; split; [lia|lra]].
        -- destruct (IH (Some (rank t u, prod_above t (sv u), u))) as (z & Ez & Hz & Mz); [intros ? ? ? [= <- <- <-]; auto|right; discriminate|]. exists z. split; [exact Ez|]. split; [destruct Hz as [Hz|(n & p & [= <- <- <-])]; [left; now right|right; eauto]|].
           assert (Mu : (rank t u < rank t z)%nat \/ rank t u = rank t z /\ prod_above t (sv u) <= prod_above t (sv z)) by (apply Mz; right; eauto).
           intros w [[<-|Hw]|(n & p & [= <- <- <-])]; [|apply Mz; now left|exact Mu]. left. destruct Mu as [Mu|[Mu Mp]]; lia.
    + destruct (IH (Some (rank t v, prod_above t (sv v), v))) as (z & Ez & Hz & Mz); [intros ? ? ? [= <- <- <-]; auto|right; discriminate|]. exists z. split; [exact Ez|]. split; [destruct Hz as [Hz|(n & p & [= <- <- <-])]; [left; now right|left; now left]|].
      intros w [[<-|Hw]|(n & p & [=])]; [apply Mz; right; eauto|apply Mz; now left].
Qed.
Lemma lift_exact : forall t a l q, analyze eps sweeps (m9 a) = Some (e3 l, m9 q) -> basis q -> ascending l ->
  (exists j, (j < 3)%nat /\ t < l j) -> exists l', lift_zero eps sweeps t (m9 a) = Some (m9 (factors 3 q l' q)) /\ lifted t l l' /\ ascending l'.
Proof.
  intros t a l q E B [A1 A2] (j & Hj & Lj). unfold lift_zero. rewrite E. cbn [obind].
  assert (M : exists m, min_above t (e3 l) = Some m /\ t < m /\ (exists k, (k < 3)%nat /\ l k = m) /\ forall k, (k < 3)%nat -> t < l k -> m <= l k).
  { assert (L2 : t < l 2%nat) by (destruct j as [|[|[|]]]; try lia; lra). unfold min_above, above, gt, e3. cbn [filter].
    destruct (Rlt_dec t (l 0%nat)) as [T0|T0], (Rlt_dec t (l 1%nat)) as [T1|T1], (Rlt_dec t (l 2%nat)) as [T2|T2]; try lra; cbn [fold_left]; rewrite ?(Rmin_left (l 0%nat)), ?(Rmin_left (l 1%nat)) by lra.
    all: eexists; split; [reflexivity|]; split; [assumption|]; split; [first [exists 0%nat; split; [lia|reflexivity] | exists 1%nat; split; [lia|reflexivity] | exists 2%nat; split; [lia|reflexivity]]|].
    all: intros k Hk Lk; destruct k as [|[|[|]]]; try lia; lra. }
  destruct M as (m & -> & Tm & (km & Hkm & Ekm) & Mm). rewrite each_ok. cbn [obind]. set (l' := fun i => if gt (l i) t then l i else m).
  destruct (sort_asc_ok l' q) as (e1 & q1 & E1 & R1 & _). rewrite E1. cbn [obind]. rewrite reconstruct_ok. exists l'. split; [f_equal; apply m9_ext; intros i k Hi Hk; now apply rearr_factors|].
  assert (G : forall i, l' i = if Rlt_dec t (l i) then l i else m) by (intros i; unfold l', gt; now destruct (Rlt_dec t (l i))).
  split; [split|].
  - intros k Hk Lk. rewrite G. destruct (Rlt_dec t (l k)); [reflexivity|contradiction].
  - intros i Hi Li Mi k Hk Lk. rewrite G. destruct (Rlt_dec t (l k)); [lra|]. specialize (Mm i Hi Li). specialize (Mi km Hkm ltac:(lra)). lra.
  - pose proof (Mm 0%nat ltac:(lia)). pose proof (Mm 1%nat ltac:(lia)). pose proof (Mm 2%nat ltac:(lia)). unfold ascending. rewrite !G. destruct (Rlt_dec t (l 0%nat)), (Rlt_dec t (l 1%nat)), (Rlt_dec t (l 2%nat)); lra.
Qed.

(** means of diagonal metrics *)
Lemma log_diag : forall d, (forall i, (i < 3)%nat -> ke <= d i) -> matrix_log eps sweeps ke (m9 (diag d)) = Some (m9 (diag (fun i => ln (d i)))).
Proof.
  intros d Hd. unfold matrix_log. destruct (analyze_diag eps sweeps He d) as (e & q & E1 & B & R & A). rewrite E1. cbn [obind]. rewrite each_ok. cbn [obind]. rewrite reconstruct_ok, (map_diag (fun x => ln (Rmax x ke)) _ _ _ R).
  f_equal. apply m9_ext. intros i j Hi Hj. unfold diag. destruct (i =? j)%nat; [|reflexivity]. rewrite Rmax_left; [reflexivity|now apply Hd].
Qed.
Definition exact_cell (tr : traits) (v : view) (d : nat -> R) : Prop :=
  absH v = m9 (diag d) /\ length (sv v) = 3%nat /\ degen v = false /\ inside tr d /\ ke < d 0%nat * d 1%nat * d 2%nat /\ inside tr (scaled d).
Lemma sum_logs_diag : forall tr l ds s n, sane ke tr -> Forall2 (exact_cell tr) l ds ->
  sum_logs eps sweeps ke tr l (m9 (diag s), n) = Some (m9 (diag (fun i => s i + total (map (fun d => ln (scaled d i)) ds))), (n + length ds)%nat).
Proof.
  intros tr l ds s n Hs H. revert s n. induction H as [|v d l ds (Ha & Hl & Dv & Hi & Hp & Hc) H IH]; intros s n; cbn [sum_logs].
  - rewrite Nat.add_0_r. do 2 f_equal. apply m9_ext. intros i j _ _. unfold diag. destruct (i =? j)%nat; cbn; ring.
  - rewrite Dv, Ha, (absH_diag eps sweeps ke He tr d Hs Hi Hp). cbn [obind fst snd]. rewrite log_diag; [|intros i Hi0; destruct Hc as [Hc _]; destruct Hs as (? & ? & ?); specialize (Hc i Hi0); lra]. cbn [obind]. rewrite dense_add_ok. cbn [obind].
    rewrite (m9_ext _ (diag (fun i => s i + ln (scaled d i)))) by (intros i j _ _; unfold diag; destruct (i =? j)%nat; ring). rewrite IH. cbn [length]. do 2 f_equal; [|lia].
    apply m9_ext. intros i j _ _. unfold diag. destruct (i =? j)%nat; [|reflexivity]. cbn [map total fold_right]. unfold total. ring.
Qed.
Lemma total_le : forall (f g : (nat -> R) -> R) c ds, (forall d, In d ds -> f d <= c + g d) -> total (map f ds) <= INR (length ds) * c + total (map g ds).
Proof.
  intros f g c. induction ds as [|d ds IH]; intros H; [cbn; lra|]. specialize (IH ltac:(intros; apply H; now right)). specialize (H d ltac:(now left)). cbn [map total fold_right length]. unfold total in IH. rewrite S_INR. nra.
Qed.
Lemma geometric_inside : forall tr ds, sane ke tr -> ds <> [] -> (forall d, In d ds -> inside tr d) -> inside tr (geometric ds).
Proof.
  intros tr ds (Hk & Hm & Hx) Hn H. assert (Nn : 0 < INR (length ds)) by (apply lt_0_INR; destruct ds; [contradiction|cbn; lia]). set (r := Rmax (lam_rel tr) 1). assert (1 <= r) by apply Rmax_r.
  assert (Z : total (map (fun _ : nat -> R => 0) ds) = 0) by (clear; induction ds as [|d ds IH]; cbn [map total fold_right]; [reflexivity|]; unfold total in IH; rewrite IH; ring).
  assert (Lg : forall x y, 0 < x -> x <= y -> ln x <= ln y) by (intros x y Hx' [L| ->]; [left; now apply ln_increasing|lra]).
  assert (Ex : forall x y, x <= y -> exp x <= exp y) by (intros x y [L| ->]; [left; now apply exp_increasing|lra]).
  assert (Dv : forall x c, x <= INR (length ds) * c -> x / INR (length ds) <= c) by (intros x c L; apply Rmult_le_reg_r with (INR (length ds)); [lra|]; replace (x / INR (length ds) * INR (length ds)) with x by (field; lra); lra).
  assert (Dl : forall x c, INR (length ds) * c <= x -> c <= x / INR (length ds)) by (intros x c L; apply Rmult_le_reg_r with (INR (length ds)); [lra|]; replace (x / INR (length ds) * INR (length ds)) with x by (field; lra); lra).
  split.
  - intros i Hi. unfold geometric. split.
    + rewrite <- (exp_ln (lam_min tr)) by lra. apply Ex, Dl. pose proof (total_le (fun _ => ln (lam_min tr)) (fun d => ln (d i)) 0 ds) as Q.
      assert (Tc : total (map (fun _ : nat -> R => ln (lam_min tr)) ds) = INR (length ds) * ln (lam_min tr)). { clear. induction ds as [|d ds IH]; cbn [map total fold_right length]; [cbn; ring|]. unfold total in IH. rewrite IH, S_INR. ring. }
      rewrite <- Tc. rewrite <- (Rplus_0_l (total (map (fun d => ln (d i)) ds))). rewrite <- (Rmult_0_r (INR (length ds))). apply Q. intros d Hd. rewrite Rplus_0_l. destruct (H d Hd) as [Hd1 _]. apply Lg; [lra|apply Hd1; assumption].
    + rewrite <- (exp_ln (lam_max tr)) by lra. apply Ex, Dv. pose proof (total_le (fun d => ln (d i)) (fun _ => 0) (ln (lam_max tr)) ds) as Q. rewrite Z in Q. eapply Rle_trans; [apply Q|lra]. intros d Hd. rewrite Rplus_0_r. destruct (H d Hd) as [Hd1 _]. specialize (Hd1 i Hi). apply Lg; lra.
  - intros i j Hi Hj. fold r. unfold geometric. rewrite <- (exp_ln r) at 1 by lra. rewrite <- exp_plus. apply Ex. apply Dv. pose proof (total_le (fun d => ln (d i)) (fun d => ln (d j)) (ln r) ds) as Q.
    replace (INR (length ds) * (ln r + total (map (fun d => ln (d j)) ds) / INR (length ds))) with (INR (length ds) * ln r + total (map (fun d => ln (d j)) ds)) by (field; lra). apply Q.
    intros d Hd. destruct (H d Hd) as [Hd1 Hd2]. rewrite <- ln_mult; [|lra|specialize (Hd1 j Hj); lra]. apply Lg; [specialize (Hd1 i Hi); lra|]. apply Hd2; assumption.
Qed.
Lemma mean_diag : forall tr any l ds m, sane ke tr -> strategy tr <> 0%nat -> l <> [] -> Forall2 (exact_cell tr) l ds -> (6 <= length m)%nat ->
  exists m', node_metric eps sweeps ke tr any l m = Some m' /\ kept m m' /\ forall i j, (i < 3)%nat -> (j < 3)%nat -> metric_of m' i j = diag (geometric (map scaled ds)) i j.
Proof.
  intros tr any l ds m Hs H1 Hn H Hm. assert (Hd : ds <> []) by (inversion H; subst; [contradiction|discriminate]).
  assert (Gi : inside tr (geometric (map scaled ds))). { apply geometric_inside; [exact Hs|destruct ds; [contradiction|discriminate]|]. intros d Hin. apply in_map_iff in Hin. destruct Hin as (d0 & <- & Hin). clear - H Hin. induction H as [|v d l ds (_ & _ & _ & _ & _ & Hc) H IH]; [destruct Hin|]. destruct Hin as [<-|Hin]; auto. }
  assert (Rw : raw_metric eps sweeps ke tr any l = Some (m9 (diag (geometric (map scaled ds))))).
  { unfold raw_metric. assert (Ex : existsb (fun v => negb (degen v)) l = true) by (inversion H as [|v d l0 ds0 (_ & _ & Dv & _) H0]; subst; [contradiction|]; cbn [existsb]; now rewrite Dv). rewrite Ex. destruct (Nat.eqb_spec (strategy tr) 0); [contradiction|].
    assert (Gm : geom_mean eps sweeps ke tr l = Some (m9 (diag (geometric (map scaled ds))))); [|now destruct l].
    unfold geom_mean. rewrite zero9_ok, (m9_ext _ (diag (fun _ => 0))) by (intros i j _ _; unfold diag; now destruct (i =? j)%nat). rewrite (sum_logs_diag tr l ds (fun _ => 0) 0 Hs H). cbn [obind Nat.add]. destruct (Nat.eqb_spec (length ds) 0) as [Z|Z]; [destruct ds; [contradiction|discriminate]|]. rewrite dense_scale_ok. cbn [obind].
    set (f := fun i => total (map (fun d => ln (scaled d i)) ds) / INR (length ds)). rewrite (m9_ext _ (diag f)); [|intros i j _ _; unfold diag, f; destruct (i =? j)%nat; [rewrite Rplus_0_l; field; apply not_0_INR; assumption|ring]].
    unfold matrix_exp. destruct (analyze_diag eps sweeps He f) as (e' & q' & E2 & B' & R' & A'). rewrite E2. cbn [obind]. rewrite each_ok. cbn [obind]. rewrite reconstruct_ok, (map_diag exp _ _ _ R'). f_equal. apply m9_ext. intros i j _ _. unfold diag. destruct (i =? j)%nat; [|reflexivity]. unfold geometric, f. now rewrite map_map, map_length. }
  unfold node_metric. rewrite Rw. cbn [obind]. destruct (clamp_diag eps sweeps ke He tr _ Hs Gi) as [ch Ec]. rewrite Ec. cbn [obind]. apply to_voigt_ok; [apply diag_sym|exact Hm].
Qed.
End Num.
