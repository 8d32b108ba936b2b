(** Jets up to the order m along two directions, and the invariant of every
    operation: the result carries the derivatives of the function it denotes. *)
From Coq Require Import Reals Lra Lia Psatz.
From Verif Require Import Prelude AdModel AdSpec AdProofs AdProofs2 AdProofs3 AdProofs4 AdProofs5.
Open Scope R_scope.

Definition DJ (m : nat) (f : (nat -> R) -> R) (v w x : nat -> R) (a b h : R) : Prop :=
  ((1 <= m)%nat -> D1 f v x a /\ D1 f w x b) /\ ((2 <= m)%nat -> D2 f v w x h).

Lemma DJ_J : forall m f v w x a b h, DJ m f v w x a b h -> (2 <= m)%nat -> J f v w x a b h.
Proof. intros m f v w x a b h (H1 & H2) Hm. destruct H1 as (A & B); [lia|]. repeat split; auto. Qed.
Lemma DJ_intro : forall m f v w x a b h, ((1 <= m)%nat -> D1 f v x a /\ D1 f w x b) ->
  ((2 <= m)%nat -> J f v w x a b h) -> DJ m f v w x a b h.
Proof. intros m f v w x a b h H1 H2. split; [exact H1|]. intros Hm. apply (H2 Hm). Qed.

Lemma DJ_eq : forall m f v w x a b h a' b' h', DJ m f v w x a b h -> a = a' -> b = b' -> h = h' -> DJ m f v w x a' b' h'.
Proof. intros; now subst. Qed.

Lemma DJ_const : forall m c v w x, DJ m (fun _ => c) v w x 0 0 0.
Proof. intros. apply DJ_intro; intros; [split; apply D1_const|apply J_const]. Qed.
Lemma DJ_plus : forall m f g v w x a b h a' b' h', DJ m f v w x a b h -> DJ m g v w x a' b' h' ->
  DJ m (fun y => f y + g y) v w x (a + a') (b + b') (h + h').
Proof.
  intros m f g v w x a b h a' b' h' F G. apply DJ_intro; intros Hm.
  - destruct (proj1 F Hm), (proj1 G Hm). split; now apply D1_plus.
  - apply J_plus; eapply DJ_J; eassumption.
Qed.
Lemma DJ_opp : forall m f v w x a b h, DJ m f v w x a b h -> DJ m (fun y => - f y) v w x (- a) (- b) (- h).
Proof.
  intros m f v w x a b h F. apply DJ_intro; intros Hm.
  - destruct (proj1 F Hm). split; now apply D1_opp.
  - apply J_opp; eapply DJ_J; eassumption.
Qed.
Lemma DJ_mult : forall m f g v w x a b h a' b' h', DJ m f v w x a b h -> DJ m g v w x a' b' h' ->
  DJ m (fun y => f y * g y) v w x (a * g x + f x * a') (b * g x + f x * b') (h * g x + a * b' + (b * a' + f x * h')).
Proof.
  intros m f g v w x a b h a' b' h' F G. apply DJ_intro; intros Hm.
  - destruct (proj1 F Hm), (proj1 G Hm). split; now apply D1_mult.
  - apply J_mult; eapply DJ_J; eassumption.
Qed.
Lemma DJ_comp : forall m f p p1 c v w x a b h, DJ m f v w x a b h -> fn2 p p1 (f x) c ->
  DJ m (fun y => p (f y)) v w x (p1 (f x) * a) (p1 (f x) * b) (c * a * b + p1 (f x) * h).
Proof.
  intros m f p p1 c v w x a b h F P. apply DJ_intro; intros Hm.
  - destruct (proj1 F Hm). pose proof (fn2_first _ _ _ _ P). split; now apply D1_comp.
  - apply J_comp; [eapply DJ_J; eassumption|assumption].
Qed.
(** equality where a third function with a jet is positive *)
Lemma DJ_local : forall m f g q v w x a b h a' b' h', DJ m f v w x a b h -> DJ m q v w x a' b' h' -> 0 < q x ->
  (forall y, 0 < q y -> f y = g y) -> DJ m g v w x a b h.
Proof.
  intros m f g q v w x a b h a' b' h' F Q Hq E. apply DJ_intro; intros Hm.
  - destruct (proj1 F Hm) as (F1 & F2), (proj1 Q Hm) as (Q1 & Q2).
    split; (eapply D1_ext; [eapply loc1_impl; [exact E|eapply loc1_pos; eassumption]|assumption]).
  - destruct (proj1 Q ltac:(lia)) as (Q1 & Q2).
    apply (J_ext f); [eapply loc1_impl; [exact E|eapply loc1_pos; eassumption]..| |eapply DJ_J; eassumption].
    eapply loc2_impl; [exact E|]. eapply loc2_pos; [exact Q2|exact (proj2 Q Hm)|assumption].
Qed.
Lemma DJ_same : forall m f g v w x a b h, DJ m f v w x a b h -> (forall y, f y = g y) -> DJ m g v w x a b h.
Proof. intros m f g v w x a b h F E. apply (DJ_local m f g (fun _ => 1) v w x a b h 0 0 0); auto. apply DJ_const. lra. Qed.

Lemma fn2_inv : forall a, a <> 0 -> fn2 (fun y => / y) (fun y => - (/ y * / y)) a (2 * / a * / a * / a).
Proof.
  intros a Ha.
  assert (L : forall y, y <> 0 -> derivable_pt_lim (fun y => / y) y (- (/ y * / y))).
  { intros y Hy. eapply lim_eq; [apply (lim_ext (fun y => 1 / y)); [intros; unfold Rdiv; ring|apply (lim_inv 1 (fun y => y) y 1 (lim_id y) Hy)]|].
    cbv beta. field; assumption. }
  split.
  - exists (Rabs a). split; [now apply Rabs_pos_lt|]. intros y Hy. apply L. intros ->. rewrite Rminus_0_l, Rabs_Ropp in Hy. lra.
  - eapply lim_eq; [apply lim_opp; apply lim_mult; apply L; assumption|]. cbv beta. ring.
Qed.

Lemma powZ_lim : forall q y, ((q < 0)%Z -> y <> 0) -> derivable_pt_lim (fun y => powerRZ y q) y (IZR q * powerRZ y (q - 1)).
Proof.
  intros q y Hy. destruct (Z_lt_le_dec q 0) as [Hq|Hq].
  - specialize (Hy Hq). set (k := Z.to_nat (- q)).
    eapply lim_eq.
    + apply (lim_at (fun y => / (y ^ k)) _ y _ (Rabs y)); [now apply Rabs_pos_lt| |].
      * intros z Hz. assert (z <> 0) by (intros ->; rewrite Rminus_0_l, Rabs_Ropp in Hz; lra).
        rewrite powerRZ_inv_nonpos by (auto; lia). fold k. unfold Rdiv. now rewrite Rmult_1_l, pow_inv.
      * apply (lim_comp (fun y => y ^ k) (fun z => / z)).
        -- apply derivable_pt_lim_pow.
        -- apply (fn2_first _ _ _ _ (fn2_inv (y ^ k) (pow_nonzero _ _ Hy))).
    + rewrite powerRZ_inv_nonpos by (auto; lia). replace (Z.to_nat (- (q - 1))) with (S k) by lia.
      replace (IZR q) with (- INR k) by (unfold k; rewrite INR_IZR_INZ, Z2Nat.id by lia; rewrite <- opp_IZR; f_equal; lia).
      assert (Hk : exists k', k = S k') by (exists (pred k); lia). destruct Hk as (k' & ->). cbn [pred pow].
      unfold Rdiv. rewrite !Rmult_1_l.
      replace ((/ y) ^ k') with (/ y ^ k') by (rewrite pow_inv; reflexivity). field. split; [now apply pow_nonzero|assumption].
  - destruct (Z.eq_dec q 0) as [->|Hq0].
    + eapply lim_eq; [apply (lim_ext (fun _ => 1)); [reflexivity|apply lim_const]|ring].
    + eapply lim_eq; [apply (lim_ext (fun y => y ^ Z.to_nat q)); [intros; now rewrite powerRZ_nonneg by lia|apply derivable_pt_lim_pow]|].
      rewrite powerRZ_nonneg by lia. rewrite INR_IZR_INZ, Z2Nat.id by lia. do 2 f_equal. lia.
Qed.
Lemma fn2_powZ : forall q a, ((q < 0)%Z -> a <> 0) ->
  fn2 (fun y => powerRZ y q) (fun y => IZR q * powerRZ y (q - 1)) a (IZR (q * (q - 1)) * powerRZ a (q - 2)).
Proof.
  intros q a Ha. split.
  - destruct (Z_lt_le_dec q 0) as [Hq|Hq].
    + specialize (Ha Hq). exists (Rabs a). split; [now apply Rabs_pos_lt|]. intros y Hy. apply powZ_lim. intros _ ->. rewrite Rminus_0_l, Rabs_Ropp in Hy. lra.
    + exists 1. split; [lra|]. intros y _. apply powZ_lim. lia.
  - destruct (Z.eq_dec q 0) as [->|H0].
    + eapply lim_eq; [apply (lim_ext (fun _ => 0)); [intros; ring|apply lim_const]|]. rewrite Z.mul_0_l. ring.
    + eapply lim_eq; [apply lim_scal; apply powZ_lim|].
      * intros. apply Ha. lia.
      * replace (q - 1 - 1)%Z with (q - 2)%Z by lia. rewrite mult_IZR. ring.
Qed.
Lemma fn2_sq : forall a, fn2 (fun y => y * y) (fun y => 2 * y) a 2.
Proof.
  intros a. split.
  - exists 1. split; [lra|]. intros y _. eapply lim_eq; [apply (lim_mult (fun y => y) (fun y => y)); apply lim_id|cbv beta; ring].
  - eapply lim_eq; [apply (lim_scal 2 (fun y => y)); apply lim_id|ring].
Qed.
(** a real power of a positive base *)
Lemma std_pow_pos : forall a q, 0 < a -> std_pow a q = Rpower a q.
Proof. intros a q H. unfold std_pow. destruct (Rlt_dec 0 a); [reflexivity|lra]. Qed.
Lemma Rpower_m1 : forall a q, 0 < a -> Rpower a (q - 1) = Rpower a q / a.
Proof. intros a q H. unfold Rminus. rewrite Rpower_plus, Rpower_Ropp, Rpower_1 by assumption. reflexivity. Qed.
Lemma fn2_powR : forall q a, 0 < a -> fn2 (fun y => std_pow y q) (fun y => q * Rpower y (q - 1)) a (q * ((q - 1) * Rpower a (q - 1 - 1))).
Proof.
  intros q a Ha.
  split.
  - exists a. split; [assumption|]. intros y Hy. assert (0 < y) by (apply Rabs_def2 in Hy; lra).
    apply (lim_at (fun y => Rpower y q) _ y _ y); [assumption| |now apply derivable_pt_lim_power].
    intros z Hz. rewrite std_pow_pos; [reflexivity|]. apply Rabs_def2 in Hz; lra.
  - apply lim_scal. now apply derivable_pt_lim_power.
Qed.

Lemma atan2_right : forall y z, 0 < z -> std_atan2 y z = atan (y * / z).
Proof. intros y z H. unfold std_atan2. destruct (Rlt_dec 0 z); [reflexivity|lra]. Qed.
Lemma atan2_up : forall y z, 0 < y -> std_atan2 y z = PI / 2 + - atan (z * / y).
Proof.
  intros y z H. unfold std_atan2. destruct (Rlt_dec 0 z) as [Hz|Hz]; [|destruct (Rlt_dec z 0) as [Hz'|Hz']].
  - replace (y / z) with (/ (z * / y)) by (field; lra). rewrite atan_inv by (apply Rdiv_lt_0_compat; assumption). ring.
  - destruct (Rle_dec 0 y); [|lra]. replace (y / z) with (- / (- z * / y)) by (field; lra).
    rewrite atan_opp, atan_inv by (apply Rdiv_lt_0_compat; lra).
    replace (- z * / y) with (- (z * / y)) by ring. rewrite atan_opp. field.
  - assert (z = 0) by lra. subst z. destruct (Rlt_dec 0 y); [|lra]. rewrite Rmult_0_l, atan_0. ring.
Qed.
Lemma atan2_down : forall y z, y < 0 -> std_atan2 y z = - (PI / 2) + - atan (z * / y).
Proof.
  intros y z H. unfold std_atan2. destruct (Rlt_dec 0 z) as [Hz|Hz]; [|destruct (Rlt_dec z 0) as [Hz'|Hz']].
  - replace (y / z) with (- / (z * / - y)) by (field; lra).
    rewrite atan_opp, atan_inv by (apply Rdiv_lt_0_compat; lra).
    replace (z * / - y) with (- (z * / y)) by (field; lra). rewrite atan_opp. ring.
  - destruct (Rle_dec 0 y); [lra|]. replace (y / z) with (/ (- z * / - y)) by (field; lra).
    rewrite atan_inv by (apply Rdiv_lt_0_compat; lra).
    replace (- z * / - y) with (z * / y) by (field; lra). field.
  - assert (z = 0) by lra. subst z. destruct (Rlt_dec 0 y); [lra|]. destruct (Rlt_dec y 0); [|lra]. rewrite Rmult_0_l, atan_0. ring.
Qed.

Lemma DJ_sumsq : forall m E (F : E -> (nat -> R) -> R) (A B H : E -> R) v w x l,
  (forall e, In e l -> DJ m (F e) v w x (A e) (B e) (H e)) ->
  DJ m (fun y => fold_right (fun e s => F e y * F e y + s) 0 l) v w x
    (2 * sum_of (fun e => F e x * A e) l) (2 * sum_of (fun e => F e x * B e) l)
    (2 * (sum_of (fun e => F e x * H e) l + sum_of (fun e => A e * B e) l)).
Proof.
  intros m E F A B H v w x l. induction l as [|e l IH]; intros HF.
  - cbn. eapply DJ_eq; [apply DJ_const|..]; ring.
  - eapply DJ_eq.
    + apply (DJ_plus m (fun y => F e y * F e y) (fun y => fold_right (fun e s => F e y * F e y + s) 0 l));
        [apply DJ_mult; apply HF; now left|apply IH; intros; apply HF; now right].
    + cbn [sum_of fold_right]. fold (sum_of (fun e => F e x * A e) l). ring.
    + cbn [sum_of fold_right]. fold (sum_of (fun e => F e x * B e) l). ring.
    + cbn [sum_of fold_right]. fold (sum_of (fun e => F e x * H e) l). fold (sum_of (fun e => A e * B e) l). ring.
Qed.
