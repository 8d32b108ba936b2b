(** The rotation that annihilates an element. *)
From Verif Require Import Prelude RSum DenseSpec QrSpec QrProofs SvdModel SvdSpec.
Local Open Scope R_scope.

Lemma cos_plus_PI : forall x, cos (x + PI) = - cos x.
Proof. intros. rewrite neg_cos. reflexivity. Qed.
Lemma sin_plus_PI : forall x, sin (x + PI) = - sin x.
Proof. intros. rewrite neg_sin. reflexivity. Qed.
Lemma cos_minus_PI : forall x, cos (x - PI) = - cos x.
Proof. intros. rewrite cos_minus, cos_PI, sin_PI. ring. Qed.
Lemma sin_minus_PI : forall x, sin (x - PI) = - sin x.
Proof. intros. rewrite sin_minus, cos_PI, sin_PI. ring. Qed.
Lemma hyp_ratio : forall x y, x <> 0 -> sqrt (1 + (y / x)²) = sqrt (x * x + y * y) / Rabs x.
Proof.
  intros x y Hx. replace (1 + (y / x)²) with ((x * x + y * y) / (x * x)) by (unfold Rsqr; now field).
  rewrite sqrt_div_alt by nra. f_equal. fold (Rsqr x). apply sqrt_Rsqr_abs.
Qed.
Lemma atan2_ok : forall x y, 0 < x * x + y * y -> sqrt (x * x + y * y) * cos (atan2 y x) = x /\ sqrt (x * x + y * y) * sin (atan2 y x) = y.
Proof.
  intros x y H. set (r := sqrt (x * x + y * y)). assert (Hr : 0 < r) by (apply sqrt_lt_R0; exact H).
  assert (T : forall x, x <> 0 -> r = sqrt (x * x + y * y) -> r * cos (atan (y / x)) = Rabs x /\ r * sin (atan (y / x)) = Rabs x * (y / x)).
  { intros z Hz Er. rewrite cos_atan, sin_atan, (hyp_ratio z y Hz), <- Er. assert (Rabs z <> 0) by (apply Rabs_no_R0; exact Hz). split; field; repeat split; try assumption; lra. }
  unfold atan2. destruct (Rlt_dec 0 x) as [Hx|Hx].
  - destruct (T x) as [E1 E2]; [lra|reflexivity|]. rewrite E1, E2, Rabs_pos_eq by lra. split; [reflexivity|now field; lra].
  - destruct (Rlt_dec x 0) as [Hx'|Hx'].
    + destruct (T x) as [E1 E2]; [lra|reflexivity|]. rewrite Rabs_left in E1, E2 by lra.
      destruct (Rle_dec 0 y); rewrite ?cos_plus_PI, ?sin_plus_PI, ?cos_minus_PI, ?sin_minus_PI; (split; [lra|]); replace (r * - sin (atan (y / x))) with (- (r * sin (atan (y / x)))) by ring; rewrite E2; field; lra.
    + assert (x = 0) by lra. subst x. assert (Er : r = Rabs y) by (unfold r; replace (0 * 0 + y * y) with (Rsqr y) by (unfold Rsqr; ring); apply sqrt_Rsqr_abs).
      destruct (Rlt_dec 0 y); [rewrite cos_PI2, sin_PI2, Er, Rabs_pos_eq; lra|]. destruct (Rlt_dec y 0) as [Hy|]; [|assert (y = 0) by lra; subst y; lra].
      rewrite cos_neg, sin_neg, cos_PI2, sin_PI2, Er, Rabs_left by lra. lra.
Qed.
(** the angle of geometry.h:523 *)
Lemma jac_angle : forall app aqq apq, apq <> 0 -> let t := 1 / 2 * atan2 (2 * apq) (aqq - app) in
  cos t * cos t + sin t * sin t = 1 /\ cos t * sin t * (app - aqq) + (cos t * cos t - sin t * sin t) * apq = 0.
Proof.
  intros app aqq apq H t. assert (P : cos t * cos t + sin t * sin t = 1) by (generalize (sin2_cos2 t); unfold Rsqr; lra). split; [exact P|].
  assert (Hpos : 0 < (aqq - app) * (aqq - app) + 2 * apq * (2 * apq)).
  { assert (0 < apq * apq) by (fold (Rsqr apq); now apply Rsqr_pos_lt). assert (0 <= (aqq - app) * (aqq - app)) by (fold (Rsqr (aqq - app)); apply Rle_0_sqr). lra. }
  destruct (atan2_ok (aqq - app) (2 * apq) Hpos) as [E1 E2]. set (r := sqrt _) in *.
  assert (Hr : 0 < r) by (apply sqrt_lt_R0; exact Hpos).
  assert (D : atan2 (2 * apq) (aqq - app) = 2 * t) by (unfold t; lra). rewrite D in E1, E2. rewrite cos_2a in E1. rewrite sin_2a in E2.
  apply (Rmult_eq_reg_l r); [|lra]. rewrite Rmult_0_r. nra.
Qed.

(** replace the values at p, q by the rotated ones *)
Definition rotf (p q : nat) (c s : R) (f : nat -> R) : nat -> R :=
  fun j => if (j =? p)%nat then c * f p - s * f q else if (j =? q)%nat then s * f p + c * f q else f j.
Definition rotm (p q : nat) (c s : R) (a : matrix) : matrix := fun i j => rotf p q c s (fun j => rotf p q c s (fun i => a i j) i) j.
Definition rotc (p q : nat) (c s : R) (v : matrix) : matrix := fun i => rotf p q c s (v i).

Ltac eqbs := repeat match goal with |- context [(?a =? ?b)%nat] => destruct (Nat.eqb_spec a b); try (exfalso; lia); try subst end; cbn [andb orb negb].

Lemma jac_vecs_ok : forall n p q c s v, (p < q)%nat -> (q < n)%nat -> jac_vecs n p q c s (store n n v) = Some (store n n (rotc p q c s v)).
Proof.
  intros n p q c s v Hp Hq. unfold jac_vecs.
  destruct (for_rep0 (store n n) (fun k w => forall i j, (i < n)%nat -> (j < n)%nat -> w i j = if (i <? k)%nat then rotc p q c s v i j else v i j) n
    (fun k V => do vkp <- mrd V n k p; do vkq <- mrd V n k q; do V <- mwr V n k p (c * vkp - s * vkq); mwr V n k q (s * vkp + c * vkq)) v) as (w & E & Hw).
  - intros. reflexivity.
  - intros k w Hk Hw. rewrite !mrd_store by lia. cbn [obind]. rewrite mwr_store by lia. cbn [obind]. rewrite mwr_store by lia. eexists. split; [reflexivity|].
    intros i j Hi Hj. unfold upd2. assert (Ep := Hw k p Hk ltac:(lia)). assert (Eq := Hw k q Hk Hq). rewrite Nat.ltb_irrefl in Ep, Eq. rewrite Ep, Eq, (Hw i j Hi Hj).
    unfold rotc, rotf. destruct (Nat.ltb_spec i k), (Nat.ltb_spec i (S k)); try lia; eqbs; try reflexivity.
  - rewrite E. f_equal. apply store_ext. intros i j Hi Hj. rewrite Hw by assumption. destruct (Nat.ltb_spec i n); [reflexivity|lia].
Qed.

Lemma jac_rows_ok : forall n p q c s a, (p < q)%nat -> (q < n)%nat -> symmetric n a ->
  jac_rows n p q c s (store n n a) = Some (store n n (fun i j => if ((i =? p) || (i =? q)) && ((j =? p) || (j =? q)) then a i j else rotm p q c s a i j)).
Proof.
  intros n p q c s a Hp Hq Sy. unfold jac_rows.
  destruct (for_rep0 (store n n) (fun k w => forall i j, (i < n)%nat -> (j < n)%nat -> w i j =
      if ((i =? p) || (i =? q)) && ((j =? p) || (j =? q)) then a i j
      else if ((i =? p) || (i =? q)) && (j <? k)%nat || ((j =? p) || (j =? q)) && (i <? k)%nat then rotm p q c s a i j else a i j) n
    (fun k A => if ((k =? p) || (k =? q))%nat then Some A else
      do gkp <- mrd A n k p; do gkq <- mrd A n k q;
      do A <- mwr A n p k (c * gkp - s * gkq); do A <- mwr A n k p (c * gkp - s * gkq);
      do A <- mwr A n q k (s * gkp + c * gkq); mwr A n k q (s * gkp + c * gkq)) a) as (w & E & Hw).
  - intros i j Hi Hj. eqbs; reflexivity.
  - intros k w Hk Hw. destruct ((k =? p) || (k =? q))%nat eqn:Ek.
    + exists w. split; [reflexivity|]. intros i j Hi Hj. rewrite (Hw i j Hi Hj).
      assert (k = p \/ k = q) by (apply Bool.orb_true_iff in Ek; rewrite !Nat.eqb_eq in Ek; exact Ek).
      destruct (Nat.eqb_spec i p), (Nat.eqb_spec i q), (Nat.eqb_spec j p), (Nat.eqb_spec j q); cbn [andb orb]; try lia; try reflexivity;
        destruct (Nat.ltb_spec i k), (Nat.ltb_spec i (S k)), (Nat.ltb_spec j k), (Nat.ltb_spec j (S k)); cbn [andb orb]; try reflexivity; lia.
    + assert (k <> p /\ k <> q) by (apply Bool.orb_false_iff in Ek; rewrite !Nat.eqb_neq in Ek; exact Ek).
      rewrite !mrd_store by lia. cbn [obind]. do 3 (rewrite mwr_store by lia; cbn [obind]). rewrite mwr_store by lia. eexists. split; [reflexivity|].
      assert (Ekp : w k p = a k p). { rewrite (Hw k p) by lia. rewrite !Nat.ltb_irrefl. eqbs; reflexivity. }
      assert (Ekq : w k q = a k q). { rewrite (Hw k q) by lia. rewrite !Nat.ltb_irrefl. eqbs; reflexivity. }
      rewrite Ekp, Ekq. intros i j Hi Hj. unfold upd2. rewrite (Hw i j Hi Hj). unfold rotm, rotf.
      assert (S1 := Sy k p Hk ltac:(lia)). assert (S2 := Sy k q Hk Hq).
      destruct (Nat.eqb_spec i p), (Nat.eqb_spec i q), (Nat.eqb_spec j p), (Nat.eqb_spec j q), (Nat.eqb_spec i k), (Nat.eqb_spec j k); cbn [andb orb]; try lia; subst; try reflexivity;
        repeat match goal with |- context [(?x <? ?y)%nat] => destruct (Nat.ltb_spec x y) end; cbn [andb orb]; try lia; try reflexivity; rewrite ?S1, ?S2; try reflexivity.
  - rewrite E. f_equal. apply store_ext. intros i j Hi Hj. rewrite Hw by assumption. destruct (Nat.ltb_spec i n), (Nat.ltb_spec j n); try lia.
    unfold rotm, rotf. eqbs; reflexivity.
Qed.

Lemma rotm_sym : forall n p q c s a, (p < q)%nat -> (q < n)%nat -> symmetric n a -> symmetric n (rotm p q c s a).
Proof.
  intros n p q c s a Hp Hq Sy i j Hi Hj. unfold rotm, rotf. assert (Hpn : (p < n)%nat) by lia.
  destruct (Nat.eqb_spec i p), (Nat.eqb_spec i q), (Nat.eqb_spec j p), (Nat.eqb_spec j q); subst; try lia;
  rewrite ?(Sy q p), ?(Sy j p), ?(Sy j q), ?(Sy i p), ?(Sy i q), ?(Sy i j) by assumption; ring.
Qed.

Lemma jac_rot_ok : forall tol n p q a v, (p < q)%nat -> (q < n)%nat -> symmetric n a -> 0 <= tol ->
  (Rabs (a p q) <= tol /\ jac_rot tol n p q (store n n a, store n n v) = Some (store n n a, store n n v)) \/
  (tol < Rabs (a p q) /\ exists c s, c * c + s * s = 1 /\ rotm p q c s a p q = 0 /\
     jac_rot tol n p q (store n n a, store n n v) = Some (store n n (rotm p q c s a), store n n (rotc p q c s v))).
Proof.
  intros tol n p q a v Hp Hq Sy Ht. unfold jac_rot. rewrite mrd_store by lia. cbn [obind]. destruct (Rle_dec (Rabs (a p q)) tol) as [L|L]; [left; auto|right].
  apply Rnot_le_lt in L. split; [exact L|]. rewrite !mrd_store by lia. cbn [obind].
  destruct (jac_angle (a p p) (a q q) (a p q)) as [P Z].
  { intros E. rewrite E, Rabs_R0 in L. lra. }
  set (t := 1 / 2 * atan2 _ _) in *. exists (cos t), (sin t). split; [exact P|]. set (c := cos t) in *. set (s := sin t) in *.
  assert (Spq := Sy q p Hq ltac:(lia)).
  assert (Z' : rotm p q c s a p q = 0). { unfold rotm, rotf. rewrite Nat.eqb_refl. destruct (Nat.eqb_spec q p); [lia|]. rewrite Nat.eqb_refl, Spq. rewrite <- Z. ring. }
  split; [exact Z'|]. rewrite jac_rows_ok by assumption. cbn [obind]. unfold jac_diag. do 3 (rewrite mwr_store by lia; cbn [obind]). rewrite mwr_store by lia. cbn [obind].
  rewrite jac_vecs_ok by assumption. cbn [obind]. f_equal. f_equal. apply store_ext. intros i j Hi Hj. unfold upd2.
  assert (Z2 : rotm p q c s a q p = 0) by (rewrite (rotm_sym n p q c s a Hp Hq Sy q p) by lia; exact Z').
  destruct (Nat.eqb_spec i p), (Nat.eqb_spec i q), (Nat.eqb_spec j p), (Nat.eqb_spec j q); cbn [andb orb]; try lia; subst; try reflexivity;
    try (symmetry; assumption); unfold rotm, rotf; eqbs; rewrite ?Spq; ring.
Qed.
