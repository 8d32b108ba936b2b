From Coq Require Import Lra Lia Permutation.
From Verif Require Import Prelude RSum GeoModel DenseSpec QrSpec SvdModel SvdSpec SvdProofs SvdProofs2 SvdProofs3 SvdProofs4 AmModel AmSpec AmSpec2 AmProofs AmProofs2.
Local Open Scope R_scope.

Section Num.
Variables (eps : R) (sweeps : nat) (ke : R).
Hypothesis He : 0 <= eps.

Lemma pick_from_filter : forall l best, pick_from best (filter usable l) = pick_from best l.
Proof. induction l as [|v l IH]; intros best; cbn [filter]; [reflexivity|]. cbn [pick_from]. unfold usable at 1. destruct (degen v) eqn:D; cbn [negb]; [apply IH|]. cbn [pick_from]. rewrite D. destruct (vdet v); [|reflexivity]. cbn [obind]. apply IH. Qed.
Lemma sum_logs_filter : forall tr l st, sum_logs eps sweeps ke tr (filter usable l) st = sum_logs eps sweeps ke tr l st.
Proof.
  intros tr. induction l as [|v l IH]; intros st; cbn [filter]; [reflexivity|]. cbn [sum_logs]. unfold usable at 1. destruct (degen v) eqn:D; cbn [negb]; [apply IH|]. cbn [sum_logs]. rewrite D.
  destruct (absH_to_M eps sweeps ke tr (absH v)); [|reflexivity]. cbn [obind]. destruct (matrix_log eps sweeps ke l0); [|reflexivity]. cbn [obind]. destruct (dense_add (fst st) l1); [|reflexivity]. cbn [obind]. apply IH.
Qed.
Lemma existsb_filter : forall l, existsb usable (filter usable l) = existsb usable l.
Proof. induction l as [|v l IH]; [reflexivity|]. cbn [filter existsb]. destruct (usable v) eqn:D; cbn [existsb]; [now rewrite D|exact IH]. Qed.
Lemma raw_filter : forall tr any l, existsb usable l = true -> raw_metric eps sweeps ke tr any (filter usable l) = raw_metric eps sweeps ke tr any l.
Proof.
  intros tr any l H. unfold raw_metric. fold usable. assert (Hf := H). rewrite <- existsb_filter in Hf. rewrite Hf, H. unfold pick_max_det, geom_mean. rewrite pick_from_filter, sum_logs_filter.
  destruct l; [discriminate|]. destruct (filter usable (v :: l)) eqn:F; [discriminate|reflexivity].
Qed.

(** the largest determinant *)
Lemma vdet_ok : forall v, wf v -> vdet v = Some (det_of v).
Proof. intros v [_ Hv]. unfold vdet, det_of. destruct (list3 (sv v) Hv) as [e Ee]. rewrite Ee. reflexivity. Qed.
Lemma pick_from_max : forall l best, Forall wf l -> (forall d v, best = Some (d, v) -> d = det_of v) -> exists r, pick_from best l = Some r /\
  (forall d v, r = Some (d, v) -> d = det_of v /\ (best = Some (d, v) \/ (In v l /\ degen v = false)) /\ (forall w, In w l -> degen w = false -> det_of w <= d) /\ (forall d0 v0, best = Some (d0, v0) -> d0 <= d)) /\
  (r = None -> best = None /\ forall v, In v l -> degen v = true).
Proof.
  induction l as [|v l IH]; intros best Hl Hb; cbn [pick_from].
  - exists best. split; [reflexivity|]. split; [|intros ->; split; [reflexivity|intros ? []]]. intros d v E. split; [eauto|]. split; [now left|]. split; [intros ? []|]. intros d0 v0 E0. rewrite E in E0. inversion E0. lra.
  - inversion Hl as [|? ? Hv Hl']; subst. destruct (degen v) eqn:D.
    + destruct (IH best Hl' Hb) as (r & E & H1 & H2). exists r. split; [exact E|]. split.
      * intros d w Er. destruct (H1 d w Er) as (A1 & A2 & A3 & A4). split; [exact A1|]. split; [destruct A2 as [|[]]; [now left|right; split; [now right|assumption]]|]. split; [|exact A4]. intros u [<-|Hu] Du; [congruence|auto].
      * intros Er. destruct (H2 Er) as [B1 B2]. split; [exact B1|]. intros u [<-|Hu]; auto.
    + rewrite (vdet_ok v Hv). cbn [obind]. set (nb := match best with None => _ | Some _ => _ end).
      assert (Hnb : exists d0 v0, nb = Some (d0, v0) /\ det_of v <= d0 /\ d0 = det_of v0 /\ ((v0 = v) \/ best = Some (d0, v0)) /\ (forall d1 v1, best = Some (d1, v1) -> d1 <= d0)).
      { unfold nb. destruct best as [[b u]|]; [destruct (Rlt_dec b (det_of v))|].
        - exists (det_of v), v. repeat split; try lra; auto. intros d1 v1 Q. inversion Q; subst. lra.
        - exists b, u. repeat split; try lra; eauto. intros d1 v1 Q. inversion Q; subst. lra.
        - exists (det_of v), v. repeat split; try lra; auto. discriminate. }
      destruct Hnb as (d0 & v0 & En & Hd & Hdv & Hor & Hle). destruct (IH nb Hl') as (r & E & H1 & H2).
      { intros d w Q. rewrite En in Q. inversion Q; subst; reflexivity. }
      exists r. split; [exact E|]. split.
      * intros d w Er. destruct (H1 d w Er) as (A1 & A2 & A3 & A4). specialize (A4 d0 v0 En). split; [exact A1|]. split.
        { destruct A2 as [A2|[A2 A2']]; [|right; split; [now right|assumption]]. rewrite En in A2. injection A2 as <- <-. destruct Hor as [->|Hor]; [right; split; [left; reflexivity|assumption]|left; exact Hor]. }
        split; [intros u [<-|Hu] Du; [lra|auto]|]. intros d1 v1 Q. specialize (Hle d1 v1 Q). lra.
      * intros Er. destruct (H2 Er) as [B1 _]. rewrite En in B1. discriminate.
Qed.
Lemma pick_single : forall v, wf v -> degen v = false -> pick_from None [v] = Some (Some (det_of v, v)).
Proof. intros v Hv D. cbn. rewrite D, (vdet_ok v Hv). reflexivity. Qed.
Lemma raw_max : forall tr any l, strategy tr = 0%nat -> Forall wf l -> existsb usable l = true -> exists v, In v l /\ degen v = false /\ (forall w, In w l -> degen w = false -> det_of w <= det_of v) /\
  raw_metric eps sweeps ke tr any l = raw_metric eps sweeps ke tr any [v].
Proof.
  intros tr any l Hs Hl Hx. destruct (pick_from_max l None Hl ltac:(discriminate)) as (r & E & H1 & H2). destruct r as [[d v]|].
  - destruct (H1 d v eq_refl) as (-> & [A|[A1 A2]] & A3 & _); [discriminate|]. exists v. split; [exact A1|]. split; [exact A2|]. split; [exact A3|].
    unfold raw_metric. fold usable. rewrite Hx, Hs. cbn [existsb Nat.eqb orb]. unfold usable at 1. rewrite A2. cbn [negb orb]. unfold pick_max_det. rewrite E, (pick_single v) by (auto; rewrite Forall_forall in Hl; auto). destruct l; [destruct A1|reflexivity].
  - destruct (H2 eq_refl) as [_ N]. apply existsb_exists in Hx. destruct Hx as (v & Hv & U). unfold usable in U. rewrite (N v Hv) in U. discriminate.
Qed.

(** the geometric mean *)
Lemma sum_logs_cons : forall tr v, sane ke tr -> wf v -> degen v = false -> exists M L, absH_to_M eps sweeps ke tr (absH v) = Some (m9 M) /\ matrix_log eps sweeps ke (m9 M) = Some (m9 L) /\
  forall l a n, sum_logs eps sweeps ke tr (v :: l) (m9 a, n) = sum_logs eps sweeps ke tr l (m9 (fun i j => a i j + L i j), S n).
Proof.
  intros tr v Hs [Ha _] D. destruct (list9 (absH v) Ha) as [b Eb]. destruct (absH_to_M_ok eps sweeps ke He tr b Hs) as [M EM]. destruct (matrix_log_ok eps sweeps ke He M) as [L EL].
  exists M, L. rewrite Eb. split; [exact EM|]. split; [exact EL|]. intros l a n. cbn [sum_logs]. rewrite D, Eb, EM. cbn [obind]. rewrite EL. cbn [obind fst snd]. rewrite dense_add_ok. reflexivity.
Qed.
Lemma sum_logs_perm : forall tr l l', sane ke tr -> Permutation l l' -> Forall wf l -> forall a n, sum_logs eps sweeps ke tr l (m9 a, n) = sum_logs eps sweeps ke tr l' (m9 a, n).
Proof.
  intros tr l l' Hs P. induction P as [|v l l' P IH|w v l|l l1 l2 P1 IH1 P2 IH2]; intros Hl a n.
  - reflexivity.
  - inversion Hl; subst. destruct (degen v) eqn:D; [cbn [sum_logs]; rewrite D; auto|]. destruct (sum_logs_cons tr v Hs ltac:(assumption) D) as (M & L & _ & _ & E). rewrite !E. auto.
  - inversion Hl as [|? ? Hv Hl']; subst. inversion Hl' as [|? ? Hw Hl'']; subst. destruct (degen v) eqn:Dv, (degen w) eqn:Dw.
    + cbn [sum_logs]. rewrite Dv, Dw. reflexivity.
    + destruct (sum_logs_cons tr w Hs Hw Dw) as (M & L & _ & _ & E). rewrite E. cbn [sum_logs]. rewrite Dv. fold (sum_logs eps sweeps ke tr). rewrite <- E. cbn [sum_logs]. rewrite Dw. reflexivity.
    + destruct (sum_logs_cons tr v Hs Hv Dv) as (M & L & _ & _ & E). rewrite E. cbn [sum_logs]. rewrite Dw. fold (sum_logs eps sweeps ke tr). rewrite <- E. cbn [sum_logs]. rewrite Dv. reflexivity.
    + destruct (sum_logs_cons tr v Hs Hv Dv) as (M & L & _ & _ & E), (sum_logs_cons tr w Hs Hw Dw) as (M' & L' & _ & _ & E'). rewrite E, E', E', E. f_equal. f_equal. apply m9_ext. intros; ring.
  - rewrite IH1 by assumption. apply IH2. eapply Permutation_Forall; eassumption.
Qed.
Lemma existsb_perm : forall (f : view -> bool) l l', Permutation l l' -> existsb f l = existsb f l'.
Proof. intros f l l' P. induction P; cbn [existsb]; [reflexivity|now rewrite IHP|destruct (f x), (f y); reflexivity|congruence]. Qed.
Lemma raw_perm : forall tr any l l', strategy tr <> 0%nat -> sane ke tr -> Permutation l l' -> Forall wf l -> existsb usable l = true ->
  raw_metric eps sweeps ke tr any l = raw_metric eps sweeps ke tr any l'.
Proof.
  intros tr any l l' Hn Hs P Hl Hx. unfold raw_metric. fold usable. rewrite <- (existsb_perm usable l l' P), Hx. destruct (Nat.eqb_spec (strategy tr) 0); [contradiction|].
  unfold geom_mean. rewrite zero9_ok, (sum_logs_perm tr l l' Hs P Hl). destruct l, l'; try reflexivity; try discriminate.
Qed.
Lemma sum_logs_repeat : forall tr v, sane ke tr -> wf v -> degen v = false -> exists L, forall n a k, sum_logs eps sweeps ke tr (repeat v n) (m9 a, k) = Some (m9 (fun i j => a i j + INR n * L i j), (k + n)%nat).
Proof.
  intros tr v Hs Hv D. destruct (sum_logs_cons tr v Hs Hv D) as (M & L & _ & _ & E). exists L. induction n as [|n IH]; intros a k; cbn [repeat].
  - cbn [sum_logs]. rewrite Nat.add_0_r. do 2 f_equal. apply m9_ext. intros. cbn. ring.
  - rewrite E, IH. rewrite Nat.add_succ_r. cbn [Nat.add]. do 2 f_equal. apply m9_ext. intros. rewrite S_INR. ring.
Qed.
Lemma raw_repeat : forall tr any v n, sane ke tr -> wf v -> degen v = false -> raw_metric eps sweeps ke tr any (repeat v (S n)) = raw_metric eps sweeps ke tr any [v].
Proof.
  intros tr any v n Hs Hv D. unfold raw_metric. fold usable. cbn [repeat existsb]. unfold usable at 1 3. rewrite D. cbn [negb orb]. destruct (strategy tr =? 0)%nat.
  - unfold pick_max_det. change (v :: repeat v n) with (repeat v (S n)). assert (Hw : Forall wf (repeat v (S n))) by (apply Forall_forall; intros w Hw; apply repeat_spec in Hw; now subst).
    destruct (pick_from_max (repeat v (S n)) None Hw ltac:(discriminate)) as (r & E & H1 & H2). rewrite E, (pick_single v Hv D). cbn [obind]. destruct r as [[d w]|].
    + destruct (H1 d w eq_refl) as (_ & [A|[A _]] & _); [discriminate|]. apply repeat_spec in A. now subst.
    + destruct (H2 eq_refl) as [_ N]. rewrite (N v) in D by now left. discriminate.
  - unfold geom_mean. destruct (sum_logs_repeat tr v Hs Hv D) as [L E]. change (v :: repeat v n) with (repeat v (S n)). change [v] with (repeat v 1). rewrite zero9_ok, !E. cbn [obind Nat.add Nat.eqb]. rewrite !dense_scale_ok. cbn [obind].
    f_equal. apply m9_ext. intros i j _ _. rewrite !Rplus_0_l. assert (INR (S n) <> 0) by (apply not_0_INR; lia). change (INR 1) with 1. field. assumption.
Qed.

(** Rayleigh quotients *)
Lemma form_symm : forall a x, form (symm a) x = form a x.
Proof. intros a x. unfold form, symm, inner, mult. cbn [Rsum Nat.eqb]. lra. Qed.
Lemma analyze_rayleigh : forall a, exists e q, analyze eps sweeps (m9 a) = Some (e3 e, m9 q) /\ basis q /\ ascending e /\ forall k, (k < 3)%nat -> e k = form a (column q k).
Proof.
  intros a. destruct (analyze_ok eps sweeps He a) as (e & q & E & B & A & H1 & H2 & _). exists e, q. split; [exact E|]. split; [exact B|]. split; [exact A|]. intros k Hk.
  assert (D : solved eps sweeps a \/ ~ solved eps sweeps a).
  { unfold solved. destruct (jacobi_eigen eps sweeps 3 (m9 (symm a)) [0; 0; 0] zero9) as [[[[|] e'] V]|]; [left; eauto| |]; right; intros (? & ? & Q); discriminate. }
  destruct D as [D|D].
  - destruct (H1 D) as [_ R]. destruct (R k Hk) as [Q _]. rewrite <- form_symm. symmetry. exact Q.
  - destruct (H2 D) as (s & S1 & S2 & S3 & S4). rewrite S3 by assumption. specialize (S1 k Hk). unfold form, inner, mult, column. cbn [Rsum]. rewrite !S4 by lia. unfold identity.
    destruct (s k) as [|[|[|]]]; try lia; cbn [Nat.eqb]; ring.
Qed.
Lemma basis_unit : forall q k, basis q -> (k < 3)%nat -> sq (column q k) = 1.
Proof. intros q k [B _] Hk. unfold sq, inner, column. rewrite (B k k Hk Hk), Nat.eqb_refl. reflexivity. Qed.
Lemma rayleigh_in : forall lo hi a q k, between lo hi a -> basis q -> (k < 3)%nat -> lo <= form a (column q k) <= hi.
Proof. intros lo hi a q k H B Hk. specialize (H (column q k)). rewrite (basis_unit q k B Hk) in H. lra. Qed.
Lemma ln_mono : forall x y, 0 < x -> x <= y -> ln x <= ln y.
Proof. intros x y Hx [H| ->]; [left; now apply ln_increasing|right; reflexivity]. Qed.
Lemma log_between : forall lo hi a, 0 < ke <= lo -> between lo hi a -> exists L, matrix_log eps sweeps ke (m9 a) = Some (m9 L) /\ between (ln lo) (ln hi) L.
Proof.
  intros lo hi a Hlo H. unfold matrix_log. destruct (analyze_rayleigh a) as (e & q & E & B & _ & R). rewrite E. cbn [obind]. rewrite each_ok. cbn [obind]. rewrite reconstruct_ok. eexists. split; [reflexivity|].
  apply factors_between; [exact B|]. intros k Hk. rewrite (R k Hk). destruct (rayleigh_in lo hi a q k H B Hk). rewrite Rmax_left by lra. split; apply ln_mono; lra.
Qed.
Lemma exp_mono : forall x y, x <= y -> exp x <= exp y.
Proof. intros x y [H| ->]; [left; now apply exp_increasing|right; reflexivity]. Qed.
Lemma exp_between : forall lo hi a, between lo hi a -> exists X, matrix_exp eps sweeps (m9 a) = Some (m9 X) /\ between (exp lo) (exp hi) X.
Proof.
  intros lo hi a H. unfold matrix_exp. destruct (analyze_rayleigh a) as (e & q & E & B & _ & R). rewrite E. cbn [obind]. rewrite each_ok. cbn [obind]. rewrite reconstruct_ok. eexists. split; [reflexivity|].
  apply factors_between; [exact B|]. intros k Hk. rewrite (R k Hk). destruct (rayleigh_in lo hi a q k H B Hk). split; now apply exp_mono.
Qed.
End Num.
