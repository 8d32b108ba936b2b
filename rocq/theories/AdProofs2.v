(** The tables of first and second derivatives of the functions of one value. *)
From Coq Require Import Reals Lra Lia.
From Verif Require Import Prelude AdModel AdSpec AdProofs.
Open Scope R_scope.

Lemma lim_eq : forall f a l l', derivable_pt_lim f a l -> l = l' -> derivable_pt_lim f a l'.
Proof. intros. now subst. Qed.
Lemma lim_at : forall (f g : R -> R) a l e, 0 < e -> (forall y, Rabs (y - a) < e -> f y = g y) ->
  derivable_pt_lim f a l -> derivable_pt_lim g a l.
Proof.
  intros f g a l e He Hfg Hf eps Heps. destruct (Hf eps Heps) as (d & Hd).
  assert (Hm : 0 < Rmin d e) by (apply Rmin_pos; [apply cond_pos|assumption]).
  exists (mkposreal _ Hm). intros h Hh0 Hh. cbn in Hh.
  rewrite <- (Hfg (a + h)), <- (Hfg a).
  - apply Hd; [assumption|]. eapply Rlt_le_trans; [exact Hh|apply Rmin_l].
  - replace (a - a) with 0 by ring. rewrite Rabs_R0. assumption.
  - replace (a + h - a) with h by ring. eapply Rlt_le_trans; [exact Hh|apply Rmin_r].
Qed.
Lemma lim_ext : forall (f g : R -> R) a l, (forall y, f y = g y) -> derivable_pt_lim f a l -> derivable_pt_lim g a l.
Proof. intros f g a l H Hf. apply (lim_at f g a l 1); [lra|intros; apply H|exact Hf]. Qed.
Lemma lim_div : forall f g a l m, derivable_pt_lim f a l -> derivable_pt_lim g a m -> g a <> 0 ->
  derivable_pt_lim (fun x => f x / g x) a ((l * g a - m * f a) / (g a * g a)).
Proof. intros f g a l m Hf Hg H. apply (derivable_pt_lim_div f g a l m Hf Hg H). Qed.
Lemma lim_inv : forall c g a m, derivable_pt_lim g a m -> g a <> 0 ->
  derivable_pt_lim (fun x => c / g x) a (- (m * c) / (g a * g a)).
Proof.
  intros c g a m Hg H. eapply lim_eq; [apply lim_div; [apply derivable_pt_lim_const|exact Hg|exact H]|].
  unfold fct_cte. now rewrite Rmult_0_l, Rminus_0_l.
Qed.
Lemma lim_plus : forall f g a l m, derivable_pt_lim f a l -> derivable_pt_lim g a m -> derivable_pt_lim (fun x => f x + g x) a (l + m).
Proof. intros f g a l m Hf Hg. apply (derivable_pt_lim_plus f g a l m Hf Hg). Qed.
Lemma lim_minus : forall f g a l m, derivable_pt_lim f a l -> derivable_pt_lim g a m -> derivable_pt_lim (fun x => f x - g x) a (l - m).
Proof. intros f g a l m Hf Hg. apply (derivable_pt_lim_minus f g a l m Hf Hg). Qed.
Lemma lim_mult : forall f g a l m, derivable_pt_lim f a l -> derivable_pt_lim g a m -> derivable_pt_lim (fun x => f x * g x) a (l * g a + f a * m).
Proof. intros f g a l m Hf Hg. apply (derivable_pt_lim_mult f g a l m Hf Hg). Qed.
Lemma lim_opp : forall f a l, derivable_pt_lim f a l -> derivable_pt_lim (fun x => - f x) a (- l).
Proof. intros f a l Hf. apply (derivable_pt_lim_opp f a l Hf). Qed.
Lemma lim_id : forall a, derivable_pt_lim (fun x => x) a 1.
Proof. intros. apply derivable_pt_lim_id. Qed.
Lemma lim_const : forall c a, derivable_pt_lim (fun _ => c) a 0.
Proof. intros. apply derivable_pt_lim_const. Qed.
Lemma lim_comp : forall f g a l m, derivable_pt_lim f a l -> derivable_pt_lim g (f a) m -> derivable_pt_lim (fun x => g (f x)) a (m * l).
Proof. intros f g a l m Hf Hg. apply (derivable_pt_lim_comp f g a l m Hf Hg). Qed.
Lemma lim_scal : forall c f a l, derivable_pt_lim f a l -> derivable_pt_lim (fun x => c * f x) a (c * l).
Proof. intros c f a l H. apply (derivable_pt_lim_scal f c a l H). Qed.

(** an open condition *)
Lemma open_pos : forall a, 0 < a -> forall y, Rabs (y - a) < a -> 0 < y.
Proof. intros a Ha y Hy. apply Rabs_def2 in Hy. lra. Qed.

Lemma fn2_all : forall p p1 a c, (forall y, derivable_pt_lim p y (p1 y)) -> derivable_pt_lim p1 a c -> fn2 p p1 a c.
Proof. intros p p1 a c H Hc. split; [|exact Hc]. exists 1. split; [lra|]. intros; apply H. Qed.

(** *** cbrt *)
Lemma cbrt_neg : forall a, std_cbrt (- a) = - std_cbrt a.
Proof.
  intros a. unfold std_cbrt. repeat destruct Rlt_dec; try lra.
  now rewrite Ropp_involutive.
Qed.
Lemma cbrt_cube : forall a, std_cbrt a * std_cbrt a * std_cbrt a = a.
Proof.
  assert (P : forall a, 0 < a -> std_cbrt a * std_cbrt a * std_cbrt a = a).
  { intros a Ha. unfold std_cbrt. destruct Rlt_dec; [|lra]. rewrite <- !Rpower_plus.
    replace (/ 3 + / 3 + / 3) with 1 by field. now apply Rpower_1. }
  intros a. destruct (Rtotal_order a 0) as [H|[H|H]].
  - specialize (P (- a) ltac:(lra)). rewrite cbrt_neg in P. lra.
  - subst. unfold std_cbrt. destruct Rlt_dec; lra.
  - now apply P.
Qed.
Lemma cbrt_neq : forall a, a <> 0 -> std_cbrt a <> 0.
Proof. intros a H E. pose proof (cbrt_cube a) as C. rewrite E in C. lra. Qed.
Lemma cbrt_lim : forall a, a <> 0 -> derivable_pt_lim std_cbrt a (1 / (3 * std_cbrt a * std_cbrt a)).
Proof.
  assert (P : forall a, 0 < a -> derivable_pt_lim std_cbrt a (1 / (3 * std_cbrt a * std_cbrt a))).
  { intros a Ha. apply (lim_at (fun x => Rpower x (/ 3)) std_cbrt a _ a Ha).
    - intros y Hy. apply open_pos in Hy; [|assumption]. unfold std_cbrt. now destruct Rlt_dec.
    - eapply lim_eq; [apply derivable_pt_lim_power; assumption|].
      unfold std_cbrt. destruct Rlt_dec; [|lra].
      assert (E : Rpower a (/ 3 - 1) * (Rpower a (/ 3) * Rpower a (/ 3)) = 1).
      { rewrite <- !Rpower_plus. replace (/ 3 - 1 + (/ 3 + / 3)) with 0 by field. now apply Rpower_O. }
      assert (N : Rpower a (/ 3) <> 0) by (intro E0; rewrite E0 in E; lra).
      apply Rmult_eq_reg_r with (3 * Rpower a (/ 3) * Rpower a (/ 3)).
      + transitivity (Rpower a (/ 3 - 1) * (Rpower a (/ 3) * Rpower a (/ 3))); [field|]. rewrite E. field. exact N.
      + apply Rmult_integral_contrapositive. split; [|exact N]. apply Rmult_integral_contrapositive. split; [lra|exact N]. }
  intros a Ha. destruct (Rtotal_order a 0) as [H|[H|H]]; [|lra|now apply P].
  apply (lim_ext (fun x => - std_cbrt (- x))).
  - intros y. rewrite cbrt_neg. ring.
  - eapply lim_eq; [apply lim_opp; apply (lim_comp (fun x => - x) std_cbrt a (-(1)));
      [apply lim_opp, lim_id|apply P; lra]|].
    rewrite cbrt_neg. field. apply cbrt_neq. lra.
Qed.

(** *** sqrt, asin, acos *)
Lemma asin_lim : forall a, -1 < a < 1 -> derivable_pt_lim asin a (1 / sqrt (1 - a * a)).
Proof.
  intros a Ha. pose proof (derive_pt_asin a Ha) as H. apply derive_pt_eq_1 in H.
  unfold Rsqr in H. exact H.
Qed.
Lemma acos_lim : forall a, -1 < a < 1 -> derivable_pt_lim acos a (-1 / sqrt (1 - a * a)).
Proof.
  intros a Ha. pose proof (derive_pt_acos a Ha) as H. apply derive_pt_eq_1 in H.
  unfold Rsqr in H. exact H.
Qed.
Lemma sqrt_lim : forall a, 0 < a -> derivable_pt_lim sqrt a (1 / (2 * sqrt a)).
Proof.
  intros a Ha. eapply lim_eq; [apply derivable_pt_lim_sqrt; assumption|].
  field. apply Rgt_not_eq. now apply sqrt_lt_R0.
Qed.
(** t(a) = sqrt(1 - a*a) *)
Lemma rad_pos : forall a, -1 < a < 1 -> 0 < 1 - a * a.
Proof. intros a Ha. nra. Qed.
Lemma rad_lim : forall a, -1 < a < 1 -> derivable_pt_lim (fun y => sqrt (1 - y * y)) a (- a / sqrt (1 - a * a)).
Proof.
  intros a Ha. pose proof (rad_pos a Ha) as Hp.
  eapply lim_eq; [apply (lim_comp (fun y => 1 - y * y) sqrt a);
    [apply lim_minus; [apply lim_const|apply lim_mult; apply lim_id]|apply sqrt_lim; exact Hp]|].
  cbv beta; field. apply Rgt_not_eq. now apply sqrt_lt_R0.
Qed.
Lemma open_unit : forall a, -1 < a < 1 -> exists e, 0 < e /\ forall y, Rabs (y - a) < e -> -1 < y < 1.
Proof.
  intros a Ha. exists (Rmin (1 - a) (a + 1)). split; [apply Rmin_pos; lra|].
  intros y Hy. pose proof (Rmin_l (1 - a) (a + 1)). pose proof (Rmin_r (1 - a) (a + 1)).
  apply Rabs_def2 in Hy. lra.
Qed.

(** *** tan, tanh *)
Lemma tan_lim : forall a, cos a <> 0 -> derivable_pt_lim tan a (1 / (cos a * cos a)).
Proof.
  intros a H. eapply lim_eq; [apply (lim_div sin cos a); [apply derivable_pt_lim_sin|apply derivable_pt_lim_cos|exact H]|].
  pose proof (sin2_cos2 a) as E. unfold Rsqr in E.
  replace (cos a * cos a - - sin a * sin a) with 1 by lra. reflexivity.
Qed.
Lemma open_cos : forall a, cos a <> 0 -> exists e, 0 < e /\ forall y, Rabs (y - a) < e -> cos y <> 0.
Proof.
  intros a H.
  assert (L : derivable_pt_lim (fun s => cos (a + s)) 0 (- sin a * 1)).
  { apply (lim_comp (fun s => a + s) cos 0); [eapply lim_eq; [apply lim_plus; [apply lim_const|apply lim_id]|ring]|].
    rewrite Rplus_0_r. apply derivable_pt_lim_cos. }
  destruct (lim_cont _ _ L (Rabs (cos a))) as (d & Hd & Hc); [now apply Rabs_pos_lt|].
  exists d. split; [exact Hd|]. intros y Hy E. specialize (Hc (y - a) Hy). cbv beta in Hc.
  replace (a + (y - a)) with y in Hc by ring. rewrite E, Rplus_0_r in Hc.
  rewrite Rminus_0_l, Rabs_Ropp in Hc. lra.
Qed.
Lemma cosh_pos : forall a, 0 < cosh a.
Proof. intros a. unfold cosh. pose proof (exp_pos a). pose proof (exp_pos (- a)). lra. Qed.
Lemma cosh_sinh : forall a, cosh a * cosh a - sinh a * sinh a = 1.
Proof.
  intros a. unfold cosh, sinh. assert (E : exp a * exp (- a) = 1) by (rewrite <- exp_plus, Rplus_opp_r; apply exp_0).
  lra.
Qed.
Lemma tanh_lim : forall a, derivable_pt_lim tanh a (1 / (cosh a * cosh a)).
Proof.
  intros a. pose proof (cosh_pos a).
  eapply lim_eq; [apply (lim_div sinh cosh a); [apply derivable_pt_lim_sinh|apply derivable_pt_lim_cosh|lra]|].
  rewrite cosh_sinh. reflexivity.
Qed.

(** *** The table: op_of f d gives the value, and the first and second derivative
    as far as d asks for them *)
Definition op1 (f : fn) (y : R) : R := snd (fst (op_of f 2 y)).
Definition op2 (f : fn) (y : R) : R := snd (op_of f 2 y).

Lemma op_of_eq : forall f d a,
  fst (fst (op_of f d a)) = fn_val f a /\ ((1 <= d)%nat -> snd (fst (op_of f d a)) = op1 f a) /\
  ((2 <= d)%nat -> snd (op_of f d a) = op2 f a).
Proof.
  intros f d a. unfold op1, op2.
  split; [destruct f; reflexivity|]. split; intros Hd.
  - destruct d as [|d]; [lia|]. destruct f; reflexivity.
  - destruct d as [|[|d]]; [lia|lia|]. destruct f; reflexivity.
Qed.

Lemma fn_table : forall f a, fn_dom f a -> fn2 (fn_val f) (op1 f) a (op2 f a).
Proof.
  intros f a Ha. destruct f; cbn [fn_dom] in Ha; unfold op1, op2; cbn [op_of fn_val fst snd Nat.leb].
  - apply fn2_all; intros; apply derivable_pt_lim_exp.
  - apply fn2_all; intros.
    + eapply lim_eq; [apply lim_minus; [apply derivable_pt_lim_exp|apply lim_const]|ring].
    + eapply lim_eq; [apply lim_plus; [apply lim_minus; [apply derivable_pt_lim_exp|apply lim_const]|apply lim_const]|ring].
  - split.
    + exists a. split; [exact Ha|]. intros y Hy. apply open_pos in Hy; [|exact Ha].
      eapply lim_eq; [now apply derivable_pt_lim_ln|]. unfold Rdiv. now rewrite Rmult_1_l.
    + eapply lim_eq; [apply lim_inv; [apply lim_id|lra]|]. cbv beta; field. lra.
  - split.
    + exists (1 + a). split; [lra|]. intros y Hy. apply Rabs_def2 in Hy.
      eapply lim_eq; [apply (lim_comp (fun y => 1 + y) ln); [apply lim_plus; [apply lim_const|apply lim_id]|
        apply derivable_pt_lim_ln; lra]|]. cbv beta; field. lra.
    + eapply lim_eq; [apply lim_inv; [apply lim_plus; [apply lim_id|apply lim_const]|lra]|]. cbv beta; field. lra.
  - assert (S : 0 < sqrt a) by now apply sqrt_lt_R0.
    split.
    + exists a. split; [exact Ha|]. intros y Hy. apply open_pos in Hy; [|exact Ha]. now apply sqrt_lim.
    + eapply lim_eq; [apply lim_inv; [apply lim_scal; now apply sqrt_lim|lra]|].
      replace (4 * sqrt a * a) with (4 * sqrt a * (sqrt a * sqrt a)) by (rewrite sqrt_sqrt by lra; ring). cbv beta; field. lra.
  - split.
    + exists (Rabs a). split; [now apply Rabs_pos_lt|]. intros y Hy. apply cbrt_lim.
      intro E. subst. rewrite Rminus_0_l, Rabs_Ropp in Hy. lra.
    + pose proof (cbrt_neq a Ha) as N.
      eapply lim_eq; [apply lim_inv; [apply lim_mult; [apply lim_scal; now apply cbrt_lim|now apply cbrt_lim]|]|].
      * apply Rmult_integral_contrapositive. split; [|exact N]. apply Rmult_integral_contrapositive. split; [lra|exact N].
      * replace (9 * std_cbrt a * std_cbrt a * a) with (9 * std_cbrt a * std_cbrt a * (std_cbrt a * std_cbrt a * std_cbrt a)) by (rewrite cbrt_cube; ring). field. exact N.
  - apply fn2_all; intros; [apply derivable_pt_lim_sin|apply derivable_pt_lim_cos].
  - apply fn2_all; intros; [apply derivable_pt_lim_cos|apply lim_opp, derivable_pt_lim_sin].
  - split.
    + destruct (open_cos a Ha) as (e & He & Hc). exists e. split; [exact He|]. intros y Hy. now apply tan_lim, Hc.
    + eapply lim_eq; [apply lim_inv; [apply lim_mult; apply derivable_pt_lim_cos|]|].
      * now apply Rmult_integral_contrapositive.
      * unfold tan. field. exact Ha.
  - apply fn2_all; intros.
    + eapply lim_eq; [apply derivable_pt_lim_atan|]. unfold Rdiv. rewrite Rmult_1_l. f_equal. ring.
    + eapply lim_eq; [apply lim_inv; [apply lim_plus; [apply lim_const|apply lim_mult; apply lim_id]|nra]|].
      cbv beta; field. nra.
  - pose proof (rad_pos a Ha) as Hp. assert (S : 0 < sqrt (1 - a * a)) by now apply sqrt_lt_R0.
    split.
    + destruct (open_unit a Ha) as (e & He & Hu). exists e. split; [exact He|]. intros y Hy. now apply asin_lim, Hu.
    + eapply lim_eq; [apply lim_inv; [now apply rad_lim|lra]|].
      replace ((1 - a * a) * sqrt (1 - a * a)) with (sqrt (1 - a * a) * sqrt (1 - a * a) * sqrt (1 - a * a)) by (rewrite sqrt_sqrt by lra; ring). cbv beta; field. lra.
  - pose proof (rad_pos a Ha) as Hp. assert (S : 0 < sqrt (1 - a * a)) by now apply sqrt_lt_R0.
    split.
    + destruct (open_unit a Ha) as (e & He & Hu). exists e. split; [exact He|]. intros y Hy. now apply acos_lim, Hu.
    + eapply lim_eq; [apply lim_inv; [now apply rad_lim|lra]|].
      replace ((1 - a * a) * sqrt (1 - a * a)) with (sqrt (1 - a * a) * sqrt (1 - a * a) * sqrt (1 - a * a)) by (rewrite sqrt_sqrt by lra; ring). cbv beta; field. lra.
  - apply fn2_all; intros; [apply derivable_pt_lim_sinh|apply derivable_pt_lim_cosh].
  - apply fn2_all; intros; [apply derivable_pt_lim_cosh|apply derivable_pt_lim_sinh].
  - pose proof (cosh_pos a). apply fn2_all; intros; [apply tanh_lim|].
    eapply lim_eq; [apply lim_inv; [apply lim_mult; apply derivable_pt_lim_cosh|nra]|]. unfold tanh. field. lra.
Qed.
