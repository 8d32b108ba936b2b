(** The derivatives of an expression along directions of another space: the
    leaves are functions of x, and the stored gradient and Hessian are taken
    through the derivatives of six (or ng) coordinates. *)
From Coq Require Import Reals Lra Lia Psatz.
From Verif Require Import Prelude RSum AdModel AdSpec AdProofs AdProofs2 AdProofs3 AdProofs4 AdProofs5 AdProofs6 AdProofs7.
Open Scope R_scope.

Section Chain.
Variable st : storage.
Variable dirs : Type.
Variable dir : dirs -> nat -> R.
Variable c : dirs -> nat -> R.
Variable q : dirs -> dirs -> nat -> R.
Variable pos : nat -> nat -> nat.
Hypothesis pos_ok : forall k l, (k < ng st)%nat -> (l < ng st)%nat ->
  nth_error (hidx st) (pos k l) = Some (k, l) \/ nth_error (hidx st) (pos k l) = Some (l, k).
Variable x : nat -> R.
Variable n : nat.

(** the first and the second derivative that the elements e1, e2 stand for *)
Definition L (v : dirs) (e1 : nat -> R) : R := Rsum (ng st) (fun k => c v k * e1 k).
Definition Q (v w : dirs) (e1 : nat -> R) (e2 : nat -> nat -> R) : R :=
  Rsum (ng st) (fun k => Rsum (ng st) (fun l => c v k * c w l * e2 k l)) + Rsum (ng st) (fun k => q v w k * e1 k).
Definition gr (a : ad) : nat -> R := fun k => nth k (D a) 0.
Definition he (a : ad) : nat -> nat -> R := fun k l => nth (pos k l) (DD a) 0.

Definition chain (f : (nat -> R) -> R) (a : ad) : Prop :=
  sized st a /\ flags_sound st n a /\ val a = f x /\
  forall m v w, (m <= n)%nat -> DJ m f (dir v) (dir w) x (L v (gr a)) (L w (gr a)) (Q v w (gr a) (he a)).

Lemma chain_sized : forall f a, chain f a -> sized st a.
Proof. intros f a H; apply H. Qed.
Lemma chain_flags : forall f a, chain f a -> flags_sound st n a.
Proof. intros f a H; apply H. Qed.
Lemma chain_val : forall f a, chain f a -> val a = f x.
Proof. intros f a H; apply H. Qed.
Lemma chain_DJ : forall f a m v w, chain f a -> (m <= n)%nat -> DJ m f (dir v) (dir w) x (L v (gr a)) (L w (gr a)) (Q v w (gr a) (he a)).
Proof. intros f a m v w H Hm. now apply H. Qed.

Lemma L_ext : forall v e e', (forall k, (k < ng st)%nat -> e k = e' k) -> L v e = L v e'.
Proof. intros v e e' H. unfold L. apply Rsum_ext. intros k Hk. now rewrite H. Qed.
Lemma Q_ext : forall v w e e' g g', (forall k, (k < ng st)%nat -> e k = e' k) ->
  (forall k l, (k < ng st)%nat -> (l < ng st)%nat -> g k l = g' k l) -> Q v w e g = Q v w e' g'.
Proof.
  intros v w e e' g g' H H'. unfold Q. f_equal; apply Rsum_ext; intros k Hk; [apply Rsum_ext; intros l Hl; now rewrite H'|now rewrite H].
Qed.

Lemma chain_intro : forall f r e1 e2, result st n r e1 e2 -> val r = f x ->
  (forall c k l, e2 c k l = e2 c l k) ->
  (forall m v w, (m <= n)%nat -> DJ m f (dir v) (dir w) x (L v e1) (L w e1) (Q v w e1 (fun k l => e2 (pos k l) k l))) -> chain f r.
Proof.
  intros f r e1 e2 (S & F & E1 & E2) Hv Hs H. split; [exact S|]. split; [exact F|]. split; [exact Hv|].
  intros m v w Hm. specialize (H m v w Hm). destruct H as (H1 & H2). split; intros Hm'.
  - destruct (H1 Hm') as (A & B). rewrite !(L_ext _ (gr r) e1) by (intros; apply E1; lia). now split.
  - specialize (H2 Hm'). erewrite Q_ext; [exact H2|intros; apply E1; lia|].
    intros k l Hk Hl. unfold he. destruct (pos_ok k l Hk Hl) as [E|E]; rewrite (E2 ltac:(lia) _ _ _ E); [reflexivity|apply Hs].
Qed.

Lemma L_lin : forall v al be A B, L v (fun k => al * A k + be * B k) = al * L v A + be * L v B.
Proof.
  intros v al be A B. unfold L. rewrite <- !Rsum_scal, <- Rsum_plus. apply Rsum_ext. intros; ring.
Qed.
Lemma Rsum_prod : forall m (a b : nat -> R), Rsum m (fun k => Rsum m (fun l => a k * b l)) = Rsum m a * Rsum m b.
Proof. intros m a b. rewrite <- Rsum_scal_r. apply Rsum_ext. intros k Hk. now rewrite Rsum_scal. Qed.
Definition Q2 (v w : dirs) (e2 : nat -> nat -> R) : R := Rsum (ng st) (fun k => Rsum (ng st) (fun l => c v k * c w l * e2 k l)).
Lemma Q2_plus : forall v w g h, Q2 v w (fun k l => g k l + h k l) = Q2 v w g + Q2 v w h.
Proof.
  intros. unfold Q2. rewrite <- Rsum_plus. apply Rsum_ext. intros k Hk. rewrite <- Rsum_plus. apply Rsum_ext. intros; ring.
Qed.
Lemma Q2_scal : forall v w a g, Q2 v w (fun k l => a * g k l) = a * Q2 v w g.
Proof.
  intros. unfold Q2. rewrite <- Rsum_scal. apply Rsum_ext. intros k Hk. rewrite <- Rsum_scal. apply Rsum_ext. intros; ring.
Qed.
Lemma Q2_prod : forall v w A B, Q2 v w (fun k l => A k * B l) = L v A * L w B.
Proof.
  intros. unfold Q2, L. rewrite <- Rsum_prod. apply Rsum_ext. intros k Hk. apply Rsum_ext. intros; ring.
Qed.
Lemma Q2_ext : forall v w g h, (forall k l, g k l = h k l) -> Q2 v w g = Q2 v w h.
Proof. intros. unfold Q2. apply Rsum_ext. intros. apply Rsum_ext. intros. now rewrite H. Qed.
Lemma q_lin : forall v w al be A B, Rsum (ng st) (fun k => q v w k * (al * A k + be * B k)) =
  al * Rsum (ng st) (fun k => q v w k * A k) + be * Rsum (ng st) (fun k => q v w k * B k).
Proof. intros. rewrite <- !Rsum_scal, <- Rsum_plus. apply Rsum_ext. intros; ring. Qed.

Lemma Q_form : forall v w al be g1 g2 g3 A B HA HB,
  Q v w (fun k => al * A k + be * B k) (fun k l => g1 * (A k * A l) + g2 * (A k * B l + B k * A l) + g3 * (B k * B l) + (al * HA k l + be * HB k l)) =
  g1 * (L v A * L w A) + g2 * (L v A * L w B + L v B * L w A) + g3 * (L v B * L w B) + (al * Q v w A HA + be * Q v w B HB).
Proof.
  intros. unfold Q. fold (Q2 v w HA) (Q2 v w HB). rewrite q_lin.
  change (Rsum (ng st) (fun k => Rsum (ng st) (fun l => c v k * c w l * (g1 * (A k * A l) + g2 * (A k * B l + B k * A l) + g3 * (B k * B l) + (al * HA k l + be * HB k l)))))
    with (Q2 v w (fun k l => g1 * (A k * A l) + g2 * (A k * B l + B k * A l) + g3 * (B k * B l) + (al * HA k l + be * HB k l))).
  rewrite (Q2_plus v w (fun k l => g1 * (A k * A l) + g2 * (A k * B l + B k * A l) + g3 * (B k * B l)) (fun k l => al * HA k l + be * HB k l)).
  rewrite (Q2_plus v w (fun k l => g1 * (A k * A l) + g2 * (A k * B l + B k * A l)) (fun k l => g3 * (B k * B l))).
  rewrite (Q2_plus v w (fun k l => g1 * (A k * A l)) (fun k l => g2 * (A k * B l + B k * A l))).
  rewrite (Q2_plus v w (fun k l => al * HA k l) (fun k l => be * HB k l)).
  rewrite (Q2_scal v w g1 (fun k l => A k * A l)), (Q2_scal v w g2 (fun k l => A k * B l + B k * A l)), (Q2_scal v w g3 (fun k l => B k * B l)), !Q2_scal.
  rewrite (Q2_plus v w (fun k l => A k * B l) (fun k l => B k * A l)), !Q2_prod. ring.
Qed.

(** operations of two values *)
Lemma chain_intro2 : forall f g h a b r e1 e2 al be g1 g2 g3, chain f a -> chain g b ->
  result st n r e1 e2 -> val r = h x ->
  (forall k, e1 k = al * nth k (D a) 0 + be * nth k (D b) 0) ->
  (forall c k l, e2 c k l = g1 * (nth k (D a) 0 * nth l (D a) 0) + g2 * (nth k (D a) 0 * nth l (D b) 0 + nth k (D b) 0 * nth l (D a) 0)
     + g3 * (nth k (D b) 0 * nth l (D b) 0) + (al * nth c (DD a) 0 + be * nth c (DD b) 0)) ->
  (forall m v w a1 a2 ha b1 b2 hb, DJ m f v w x a1 a2 ha -> DJ m g v w x b1 b2 hb ->
     DJ m h v w x (al * a1 + be * b1) (al * a2 + be * b2)
       (g1 * (a1 * a2) + g2 * (a1 * b2 + b1 * a2) + g3 * (b1 * b2) + (al * ha + be * hb))) ->
  chain h r.
Proof.
  intros f g h a b r e1 e2 al be g1 g2 g3 Ga Gb Rr Hv H1 H2 HD.
  apply (chain_intro h r e1 e2 Rr Hv); [intros; rewrite !H2; ring|]. intros m v w Hm.
  assert (E1 : forall v, L v e1 = al * L v (gr a) + be * L v (gr b)).
  { intros v'. rewrite <- L_lin. apply L_ext. intros k _. apply H1. }
  rewrite !E1. erewrite Q_ext; [rewrite (Q_form v w al be g1 g2 g3 (gr a) (gr b) (he a) (he b))| |].
  - apply HD; now apply chain_DJ.
  - intros k _. apply H1.
  - intros k l _ _. cbv beta. rewrite H2. reflexivity.
Qed.
(** operations of one value *)
Lemma chain_intro1 : forall f h a r e1 e2 al g1, chain f a ->
  result st n r e1 e2 -> val r = h x ->
  (forall k, e1 k = al * nth k (D a) 0) ->
  (forall c k l, e2 c k l = g1 * (nth k (D a) 0 * nth l (D a) 0) + al * nth c (DD a) 0) ->
  (forall m v w a1 a2 ha, DJ m f v w x a1 a2 ha -> DJ m h v w x (al * a1) (al * a2) (g1 * (a1 * a2) + al * ha)) ->
  chain h r.
Proof.
  intros f h a r e1 e2 al g1 Ga Rr Hv H1 H2 HD.
  apply (chain_intro2 f f h a a r e1 e2 al 0 g1 0 0 Ga Ga Rr Hv); [intros; rewrite H1; ring|intros; rewrite H2; ring|].
  intros m v w a1 a2 ha b1 b2 hb Fa _. eapply DJ_eq; [apply HD; exact Fa|..]; ring.
Qed.

Ltac use G := pose proof (chain_sized _ _ G); pose proof (chain_flags _ _ G); pose proof (chain_val _ _ G).

Lemma chain_const : forall v, chain (fun _ => v) (param st v).
Proof.
  intros v. apply (chain_intro _ _ _ _ (param_ent st n v)); [reflexivity|reflexivity|]. intros m d d' Hm.
  assert (Z : forall d, L d (fun _ => 0) = 0) by (intros; unfold L; apply Rsum_zero; intros; ring). rewrite !Z.
  replace (Q d d' (fun _ => 0) (fun _ _ => 0)) with 0; [apply DJ_const|].
  unfold Q. rewrite (Rsum_zero (ng st) (fun k => Rsum _ _)), Rsum_zero; [ring|intros; ring|]. intros k Hk. apply Rsum_zero. intros; ring.
Qed.
Lemma chain_neg : forall f a, chain f a -> chain (fun y => - f y) (ad_neg st a).
Proof.
  intros f a G. use G. apply (chain_intro1 f _ a _ _ _ (-1) 0 G (neg_ent st n a H H0)); [cbn; now rewrite H1|intros; ring|intros; ring|].
  intros m v w a1 a2 ha F. eapply DJ_eq; [apply DJ_opp; exact F|..]; ring.
Qed.
Lemma chain_shell : forall f a, chain f a -> chain f (make_shell st a).
Proof.
  intros f a G. use G. apply (chain_intro1 f _ a _ _ _ 1 0 G (shell_ent st n a H H0)); [exact H1|intros; ring|intros; ring|].
  intros m v w a1 a2 ha F. eapply DJ_eq; [exact F|..]; ring.
Qed.
Lemma chain_add : forall f g a b, chain f a -> chain g b -> chain (fun y => f y + g y) (ad_add st a b).
Proof.
  intros f g a b G G'. use G. use G'.
  apply (chain_intro2 f g _ a b _ _ _ 1 1 0 0 0 G G' (add_ent st n a b H H2 H0 H3)); [cbn; now rewrite H1, H4|intros; ring|intros; ring|].
  intros m v w a1 a2 ha b1 b2 hb F F'. eapply DJ_eq; [apply DJ_plus; [exact F|exact F']|..]; ring.
Qed.
Lemma chain_sub : forall f g a b, chain f a -> chain g b -> chain (fun y => f y - g y) (ad_sub st a b).
Proof.
  intros f g a b G G'. use G. use G'.
  apply (chain_intro2 f g _ a b _ _ _ 1 (-1) 0 0 0 G G' (sub_ent st n a b H H2 H0 H3)); [cbn; now rewrite H1, H4|intros; ring|intros; ring|].
  intros m v w a1 a2 ha b1 b2 hb F F'. apply (DJ_same m (fun y => f y + - g y)); [|intros; ring].
  eapply DJ_eq; [apply DJ_plus; [exact F|apply DJ_opp; exact F']|..]; ring.
Qed.
Lemma chain_mul : forall f g a b, chain f a -> chain g b -> chain (fun y => f y * g y) (ad_mul st a b).
Proof.
  intros f g a b G G'. use G. use G'.
  apply (chain_intro2 f g _ a b _ _ _ (val b) (val a) 0 1 0 G G' (mul_ent st n a b H H2 H0 H3)); [cbn; now rewrite H1, H4|intros; ring|intros; ring|].
  intros m v w a1 a2 ha b1 b2 hb F F'. rewrite H1, H4. eapply DJ_eq; [apply DJ_mult; [exact F|exact F']|..]; ring.
Qed.
Lemma chain_div : forall f g a b, chain f a -> chain g b -> g x <> 0 -> ((n < 2)%nat \/ nt1 b = false \/ nt2 b = true) ->
  chain (fun y => f y / g y) (ad_div st a b).
Proof.
  intros f g a b G G' Hg Hb. use G. use G'.
  apply (chain_intro2 f g _ a b _ _ _ (/ val b) (- (val a * (/ val b * / val b))) 0 (- (/ val b * / val b)) (val a * (/ val b * / val b) * (2 * / val b))
    G G' (div_ent st n a b H H2 H0 H3 Hb)); [cbn; rewrite H1, H4; reflexivity|intros; ring|intros; ring|].
  intros m v w a1 a2 ha b1 b2 hb F F'. rewrite H1, H4.
  eapply DJ_eq; [apply (DJ_mult m f (fun y => / g y)); [exact F|apply (DJ_comp m g (fun y => / y)); [exact F'|apply fn2_inv; exact Hg]]|..]; cbv beta; ring.
Qed.

(** functions of one value *)
Lemma chain_unary : forall f a r p p1 c0 v1 v2, chain f a -> fn2 p p1 (f x) c0 ->
  result st n r (fun k => v1 * nth k (D a) 0) (fun c k l => v2 * nth k (D a) 0 * nth l (D a) 0 + v1 * nth c (DD a) 0) ->
  v1 = p1 (f x) -> v2 = c0 -> val r = p (f x) -> chain (fun y => p (f y)) r.
Proof.
  intros f a r p p1 c0 v1 v2 G P Rr -> -> Hv.
  apply (chain_intro1 f _ a _ _ _ (p1 (f x)) c0 G Rr); [exact Hv|reflexivity|intros; ring|].
  intros m v w a1 a2 ha F. eapply DJ_eq; [apply DJ_comp; [exact F|exact P]|..]; ring.
Qed.
Lemma chain_fn : forall f a g, chain f a -> fn_dom g (f x) -> chain (fun y => fn_val g (f y)) (ad_unary st (op_of g) a).
Proof.
  intros f a g G Hd. use G. destruct (op_of_eq g (dif a) (val a)) as (O0 & O1 & O2).
  eapply chain_unary; [exact G|apply fn_table; exact Hd|apply unary_ent; eassumption|now rewrite H1|now rewrite H1|].
  rewrite <- H1, <- O0. unfold ad_unary. destruct (op_of g (dif a) (val a)) as ((v, w1), w2). now destruct (nt1 a).
Qed.
Lemma chain_sq : forall f a, chain f a -> chain (fun y => f y * f y) (ad_sq st a).
Proof.
  intros f a G. use G. apply (chain_unary f a _ (fun y => y * y) (fun y => 2 * y) 2 (2 * val a) 2 G (fn2_sq _)); [|now rewrite H1|reflexivity|].
  - eapply result_ext; [apply sq_ent; assumption|..]; cbv beta; intros; ring.
  - unfold ad_sq. rewrite <- H1. now destruct (nt1 a).
Qed.
Lemma chain_powz : forall f a p, chain f a -> ((p < 0)%Z -> f x <> 0) -> chain (fun y => powerRZ (f y) p) (ad_powz st a p).
Proof.
  intros f a p G Hq. use G. rewrite <- H1 in Hq. destruct (powz_ent st n a p H H0 Hq) as (Rr & V).
  eapply (chain_unary f a _ (fun y => powerRZ y p)); [exact G|apply fn2_powZ; now rewrite <- H1|exact Rr|now rewrite H1|now rewrite H1|now rewrite V, H1].
Qed.
Lemma chain_powr : forall f a p, chain f a -> (p <> 0 -> 0 < f x) ->
  chain (fun y => if Req_EM_T p 0 then 1 else std_pow (f y) p) (ad_powr st a p).
Proof.
  intros f a p G Hq. use G. assert (Hq' : p <> 0 -> val a <> 0) by (intros E; specialize (Hq E); lra).
  pose proof (powr_ent st n a p H H0 Hq') as Rr. cbv zeta in Rr.
  destruct (Req_EM_T p 0) as [E|E].
  - apply (chain_intro1 f _ a _ _ _ 0 0 G Rr); [unfold ad_powr; destruct (Req_EM_T p 0); [reflexivity|easy]|intros; subst; ring|intros; subst; ring|].
    intros m v w a1 a2 ha F. eapply DJ_eq; [apply DJ_const|..]; ring.
  - specialize (Hq E). eapply (chain_unary f a _ (fun y => std_pow y p)); [exact G|apply fn2_powR; exact Hq|exact Rr|..]; cbv beta.
    + rewrite H1, std_pow_pos, Rpower_m1 by assumption. reflexivity.
    + rewrite H1, std_pow_pos, !Rpower_m1 by assumption. field. lra.
    + unfold ad_powr. destruct (Req_EM_T p 0); [easy|]. rewrite <- H1. now destruct (nt1 a).
Qed.

Lemma chain_pow : forall f g a b, chain f a -> chain g b -> 0 < f x -> chain (fun y => std_pow (f y) (g y)) (ad_pow st a b).
Proof.
  intros f g a b G G' Hf. use G. use G'. rewrite <- H1 in Hf.
  destruct (pow_ent_all st n a b H H2 H0 H3 Hf) as (V & Rr). cbv zeta in Rr.
  set (P := Rpower (val a) (val b)) in *.
  apply (chain_intro2 f g _ a b _ _ _ (P * val b / val a) (P * ln (val a)) (P * val b * (val b - 1) / (val a * val a)) (P * (val b * ln (val a) + 1) / val a)
    (P * ln (val a) * ln (val a)) G G' Rr); [rewrite V; unfold P; rewrite H1, H4; rewrite std_pow_pos by lra; reflexivity|intros; unfold Rdiv; ring|intros; unfold Rdiv; ring|].
  intros m v w a1 a2 ha b1 b2 hb F1 F2. unfold P. rewrite H1, H4. rewrite H1 in Hf.
  eapply (DJ_local m (fun y => exp (g y * ln (f y))) _ f); [|exact F1|exact Hf|].
  - eapply DJ_eq; [apply (DJ_comp m (fun y => g y * ln (f y)) exp exp); [apply DJ_mult; [exact F2|apply (DJ_comp m f ln); [exact F1|apply (fn_table Log); exact Hf]]|apply (fn_table Exp); exact I]|..];
      cbv beta; unfold op1, op2; cbn [op_of fst snd Nat.leb]; unfold Rpower; field; lra.
  - intros y Hy. rewrite std_pow_pos by assumption. reflexivity.
Qed.

Lemma chain_atan2 : forall f g a b, chain f a -> chain g b -> (f x <> 0 \/ 0 < g x) ->
  chain (fun y => std_atan2 (f y) (g y)) (ad_atan2 st a b).
Proof.
  intros f g a b G G' Hp. use G. use G'. pose proof (atan2_ent st n a b H H2 H0 H3) as Rr. cbv zeta in Rr.
  set (r2 := val a * val a + val b * val b) in *.
  apply (chain_intro2 f g _ a b _ _ _ (val b / r2) (- (val a / r2)) (- (2 * val b * val a / (r2 * r2))) ((val a * val a - val b * val b) / (r2 * r2)) (2 * val b * val a / (r2 * r2)) G G' Rr);
    [cbn [val ad_atan2]; now rewrite H1, H4|intros; ring|intros; ring|].
  intros m v w a1 a2 ha b1 b2 hb F1 F2. unfold r2. rewrite H1, H4.
  destruct (Rtotal_order (f x) 0) as [Hf|[Hf|Hf]].
  - eapply (DJ_local m (fun y => - (PI / 2) + - atan (g y * / f y)) _ (fun y => - f y)); [|apply DJ_opp; exact F1|lra|].
    + eapply DJ_eq; [apply DJ_plus; [apply DJ_const|apply DJ_opp; apply (DJ_comp m (fun y => g y * / f y) atan);
        [apply (DJ_mult m g (fun y => / f y)); [exact F2|apply (DJ_comp m f (fun y => / y)); [exact F1|apply fn2_inv; lra]]|apply (fn_table Atan); exact I]]|..];
        cbv beta; unfold op1, op2; cbn [op_of fst snd Nat.leb]; field; repeat split; try lra; nra.
    + intros y Hy. rewrite atan2_down by lra. reflexivity.
  - assert (Hg : 0 < g x) by (destruct Hp; [easy|assumption]).
    eapply (DJ_local m (fun y => atan (f y * / g y)) _ g); [|exact F2|exact Hg|].
    + eapply DJ_eq; [apply (DJ_comp m (fun y => f y * / g y) atan);
        [apply (DJ_mult m f (fun y => / g y)); [exact F1|apply (DJ_comp m g (fun y => / y)); [exact F2|apply fn2_inv; lra]]|apply (fn_table Atan); exact I]|..];
        cbv beta; unfold op1, op2; cbn [op_of fst snd Nat.leb]; field; repeat split; try lra; nra.
    + intros y Hy. rewrite atan2_right by lra. reflexivity.
  - eapply (DJ_local m (fun y => PI / 2 + - atan (g y * / f y)) _ f); [|exact F1|lra|].
    + eapply DJ_eq; [apply DJ_plus; [apply DJ_const|apply DJ_opp; apply (DJ_comp m (fun y => g y * / f y) atan);
        [apply (DJ_mult m g (fun y => / f y)); [exact F2|apply (DJ_comp m f (fun y => / y)); [exact F1|apply fn2_inv; lra]]|apply (fn_table Atan); exact I]]|..];
        cbv beta; unfold op1, op2; cbn [op_of fst snd Nat.leb]; field; repeat split; try lra; nra.
    + intros y Hy. rewrite atan2_up by lra. reflexivity.
Qed.

Lemma chain_sign : forall f a, chain f a -> f x <> 0 ->
  chain (fun y => if Rlt_dec 0 (f y) then 1 else if Rlt_dec (f y) 0 then -1 else 0) (ad_sign st a).
Proof.
  intros f a G Hf. use G. apply (chain_intro1 f _ a _ _ _ 0 0 G (sign_ent st n a)); [|intros; ring|intros; ring|].
  - cbn [ad_sign val]. rewrite H1. destruct (Rlt_dec 0 (f x)), (Rlt_dec (f x) 0); lra.
  - intros m v w a1 a2 ha F1. eapply DJ_eq with (a := 0) (b := 0) (h := 0); [|ring..]. destruct (Rlt_dec 0 (f x)) as [Hp|Hp].
    + eapply (DJ_local m (fun _ => 1) _ f); [apply DJ_const|exact F1|assumption|].
      intros y Hy. destruct (Rlt_dec 0 (f y)); lra.
    + eapply (DJ_local m (fun _ => -1) _ (fun y => - f y)); [apply DJ_const|apply DJ_opp; exact F1|lra|].
      intros y Hy. destruct (Rlt_dec 0 (f y)), (Rlt_dec (f y) 0); lra.
Qed.
Lemma chain_abs : forall f a, chain f a -> f x <> 0 -> chain (fun y => Rabs (f y)) (ad_abs st a).
Proof.
  intros f a G Hf. use G. unfold ad_abs. rewrite H1. destruct (Rle_dec 0 (f x)) as [Hp|Hp].
  - apply (chain_intro1 f _ a _ _ _ 1 0 G (make_ent st n a H H0)); [cbn [val make_ADVal]; rewrite H1, Rabs_right; lra|intros; ring|intros; ring|].
    intros m v w a1 a2 ha F1. eapply DJ_eq with (a := a1) (b := a2) (h := ha); [|ring..].
    eapply (DJ_local m f _ f); [exact F1|exact F1|lra|]. intros y Hy. rewrite Rabs_right; lra.
  - apply (chain_intro1 f _ a _ _ _ (-1) 0 G (neg_ent st n a H H0)); [cbn [val ad_neg]; rewrite H1, Rabs_left; lra|intros; ring|intros; ring|].
    intros m v w a1 a2 ha F1. eapply DJ_eq with (a := - a1) (b := - a2) (h := - ha); [|ring..].
    eapply (DJ_local m (fun y => - f y) _ (fun y => - f y)); [apply DJ_opp; exact F1|apply DJ_opp; exact F1|lra|]. intros y Hy. rewrite Rabs_left; lra.
Qed.
Lemma chain_min : forall f g a b, chain f a -> chain g b -> f x <> g x -> chain (fun y => Rmin (f y) (g y)) (ad_min st a b).
Proof.
  intros f g a b G G' Hne. use G. use G'. unfold ad_min. rewrite H1, H4. destruct (Rle_dec (f x) (g x)) as [Hp|Hp].
  - apply (chain_intro2 f g _ a b _ _ _ 1 0 0 0 0 G G' (take_ent st n a _ _ H H0 (orb_l _ _) (orb_l _ _))); [cbn [val take]; rewrite H1, Rmin_left; lra|intros; ring|intros; ring|].
    intros m v w a1 a2 ha b1 b2 hb F1 F2. eapply DJ_eq with (a := a1) (b := a2) (h := ha); [|ring..].
    eapply (DJ_local m f _ (fun y => g y + - f y)); [exact F1|apply DJ_plus; [exact F2|apply DJ_opp; exact F1]|lra|]. intros y Hy. rewrite Rmin_left; lra.
  - apply (chain_intro2 f g _ a b _ _ _ 0 1 0 0 0 G G' (take_ent st n b _ _ H2 H3 (orb_r _ _) (orb_r _ _))); [cbn [val take]; rewrite H4, Rmin_right; lra|intros; ring|intros; ring|].
    intros m v w a1 a2 ha b1 b2 hb F1 F2. eapply DJ_eq with (a := b1) (b := b2) (h := hb); [|ring..].
    eapply (DJ_local m g _ (fun y => f y + - g y)); [exact F2|apply DJ_plus; [exact F1|apply DJ_opp; exact F2]|lra|]. intros y Hy. rewrite Rmin_right; lra.
Qed.
Lemma chain_max : forall f g a b, chain f a -> chain g b -> f x <> g x -> chain (fun y => Rmax (f y) (g y)) (ad_max st a b).
Proof.
  intros f g a b G G' Hne. use G. use G'. unfold ad_max. rewrite H1, H4. destruct (Rle_dec (g x) (f x)) as [Hp|Hp].
  - apply (chain_intro2 f g _ a b _ _ _ 1 0 0 0 0 G G' (take_ent st n a _ _ H H0 (orb_l _ _) (orb_l _ _))); [cbn [val take]; rewrite H1, Rmax_left; lra|intros; ring|intros; ring|].
    intros m v w a1 a2 ha b1 b2 hb F1 F2. eapply DJ_eq with (a := a1) (b := a2) (h := ha); [|ring..].
    eapply (DJ_local m f _ (fun y => f y + - g y)); [exact F1|apply DJ_plus; [exact F1|apply DJ_opp; exact F2]|lra|]. intros y Hy. rewrite Rmax_left; lra.
  - apply (chain_intro2 f g _ a b _ _ _ 0 1 0 0 0 G G' (take_ent st n b _ _ H2 H3 (orb_r _ _) (orb_r _ _))); [cbn [val take]; rewrite H4, Rmax_right; lra|intros; ring|intros; ring|].
    intros m v w a1 a2 ha b1 b2 hb F1 F2. eapply DJ_eq with (a := b1) (b := b2) (h := hb); [|ring..].
    eapply (DJ_local m g _ (fun y => g y + - f y)); [exact F2|apply DJ_plus; [exact F2|apply DJ_opp; exact F1]|lra|]. intros y Hy. rewrite Rmax_right; lra.
Qed.

(** hypot *)
Lemma L_sum : forall E (a : E -> R) (A : E -> nat -> R) v l, L v (fun k => sum_of (fun e => a e * A e k) l) = sum_of (fun e => a e * L v (A e)) l.
Proof.
  intros E a A v l. induction l as [|e l IH].
  - unfold L. apply Rsum_zero. intros. cbn. ring.
  - cbn [sum_of fold_right]. fold (sum_of (fun e => a e * L v (A e)) l). rewrite <- IH.
    rewrite (L_ext v _ (fun k => a e * A e k + 1 * sum_of (fun e => a e * A e k) l)) by (intros; unfold sum_of; cbn; ring).
    rewrite (L_lin v (a e) 1 (A e) (fun k => sum_of (fun e => a e * A e k) l)). ring.
Qed.
Lemma Q_sum : forall E (a : E -> R) (A : E -> nat -> R) (H : E -> nat -> nat -> R) v w l,
  Q v w (fun k => sum_of (fun e => a e * A e k) l) (fun k l' => sum_of (fun e => a e * H e k l') l + sum_of (fun e => A e k * A e l') l) =
  sum_of (fun e => a e * Q v w (A e) (H e)) l + sum_of (fun e => L v (A e) * L w (A e)) l.
Proof.
  intros E a A H v w l. induction l as [|e l IH].
  - unfold Q. rewrite (Rsum_zero (ng st) (fun k => Rsum _ _)), Rsum_zero; [cbn; ring|intros; cbn; ring|]. intros k Hk. apply Rsum_zero. intros; cbn; ring.
  - transitivity (a e * Q v w (A e) (H e) + L v (A e) * L w (A e) + (sum_of (fun e => a e * Q v w (A e) (H e)) l + sum_of (fun e => L v (A e) * L w (A e)) l));
      [|unfold sum_of; cbn [fold_right]; ring].
    rewrite <- IH.
    pose proof (Q_form v w (a e) 1 1 0 0 (A e) (fun k => sum_of (fun e => a e * A e k) l) (H e)
      (fun k l' => sum_of (fun e => a e * H e k l') l + sum_of (fun e => A e k * A e l') l)) as F.
    rewrite (Q_ext v w _ (fun k => a e * A e k + 1 * sum_of (fun e => a e * A e k) l) _
      (fun k l' => 1 * (A e k * A e l') + 0 * (A e k * sum_of (fun e => a e * A e l') l + sum_of (fun e => a e * A e k) l * A e l')
        + 0 * (sum_of (fun e => a e * A e k) l * sum_of (fun e => a e * A e l') l)
        + (a e * H e k l' + 1 * (sum_of (fun e => a e * H e k l') l + sum_of (fun e => A e k * A e l') l)))).
    + rewrite F. ring.
    + intros; unfold sum_of; cbn [fold_right]; ring.
    + intros; unfold sum_of; cbn [fold_right]; ring.
Qed.
Lemma chain_hypot : forall E (F : E -> (nat -> R) -> R) (r : E -> ad) e0 e1 tl, let l := e0 :: e1 :: tl in
  (forall e, In e l -> chain (F e) (r e) /\ nt1 (r e) = nt1 (r e0) /\ nt2 (r e) = nt2 (r e0)) -> (n <= dif (r e0))%nat ->
  0 < fold_right (fun e s => F e x * F e x + s) 0 l ->
  chain (fun y => sqrt (fold_right (fun e s => F e y * F e y + s) 0 l)) (ad_hypot st (map r l)).
Proof.
  intros E F r e0 e1 tl l H Hn Hp.
  destruct (hypot_ent st n (r e0) (r e1) (map r tl)) as (V & RR); [|exact Hn|].
  { intros a Ha. change (In a (map r l)) in Ha. apply in_map_iff in Ha as (e & <- & He). destruct (H e He) as (G & E1 & E2).
    split; [exact (chain_sized _ _ G)|]. split; [exact (chain_flags _ _ G)|]. now split. }
  change (r e0 :: r e1 :: map r tl) with (map r l) in V, RR. cbv zeta in RR.
  set (S := fold_right (fun e s => F e x * F e x + s) 0 l) in *.
  assert (EQ : sum_of (fun e => val e * val e) (map r l) = S).
  { rewrite sum_of_map. apply sum_of_ext. intros e He. destruct (H e He) as (G & _). now rewrite (chain_val _ _ G). }
  assert (Es : forall g : E -> R, sum_of (fun e => val (r e) * g e) l = sum_of (fun e => F e x * g e) l).
  { intros g. apply sum_of_ext. intros e He. destruct (H e He) as (G & _). now rewrite (chain_val _ _ G). }
  assert (Hs : sqrt S <> 0) by (apply Rgt_not_eq; now apply sqrt_lt_R0).
  rewrite EQ in *.
  set (T := fun k => sum_of (fun e => F e x * gr (r e) k) l).
  set (U := fun k l' => sum_of (fun e => F e x * he (r e) k l') l + sum_of (fun e => gr (r e) k * gr (r e) l') l).
  apply (chain_intro _ _ _ _ RR).
  - exact V.
  - intros d k l'. f_equal. f_equal; [|ring]. f_equal. apply sum_of_ext. intros; ring.
  - intros m v w Hm.
    assert (EL : forall v, L v (fun k => sum_of (fun e => val e * nth k (D e) 0) (map r l) / sqrt S) = / sqrt S * L v T).
    { intros v'. rewrite (L_ext v' _ (fun k => / sqrt S * T k + 0 * T k)); [rewrite L_lin; ring|].
      intros k _. rewrite sum_of_map, Es. unfold T, gr. unfold Rdiv. ring. }
    rewrite !EL.
    rewrite (Q_ext v w _ (fun k => / sqrt S * T k + 0 * T k) _
      (fun k l' => - (/ sqrt S * / sqrt S * / sqrt S) * (T k * T l') + 0 * (T k * T l' + T k * T l') + 0 * (T k * T l') + (/ sqrt S * U k l' + 0 * U k l'))).
    + rewrite (Q_form v w (/ sqrt S) 0 (- (/ sqrt S * / sqrt S * / sqrt S)) 0 0 T T U U). unfold T, U at 1.
      rewrite (L_sum E (fun e => F e x) (fun e => gr (r e)) v l), (L_sum E (fun e => F e x) (fun e => gr (r e)) w l),
        (Q_sum E (fun e => F e x) (fun e => gr (r e)) (fun e => he (r e)) v w l).
      eapply DJ_eq; [apply (DJ_comp m (fun y => fold_right (fun e s => F e y * F e y + s) 0 l) sqrt);
        [apply (DJ_sumsq m E F (fun e => L v (gr (r e))) (fun e => L w (gr (r e))) (fun e => Q v w (gr (r e)) (he (r e)))); intros e He; destruct (H e He) as (G & _); now apply chain_DJ
        |apply (fn_table Sqrt); exact Hp]|..]; fold S; unfold op1, op2; cbn [op_of fst snd Nat.leb].
      * field. assumption.
      * field. assumption.
      * replace (4 * sqrt S * S) with (4 * sqrt S * (sqrt S * sqrt S)) by (rewrite sqrt_sqrt by lra; ring). field. assumption.
    + intros k _. rewrite sum_of_map, Es. unfold T, gr. unfold Rdiv. ring.
    + intros k l' _ _. rewrite !sum_of_map, !Es. unfold T, U, gr, he. field. assumption.
Qed.
End Chain.

Theorem chain_run : forall st dirs dir c q pos x n leaf u,
  (forall k l, (k < ng st)%nat -> (l < ng st)%nat -> nth_error (hidx st) (pos k l) = Some (k, l) \/ nth_error (hidx st) (pos k l) = Some (l, k)) ->
  (forall i, chain st dirs dir c q pos x n (u i) (leaf i)) ->
  forall e, smooth u x e -> admissible st leaf n e -> chain st dirs dir c q pos x n (denote u e) (run st leaf e).
Proof.
  intros st dirs dir c q pos x n leaf u Hp HL. induction e using expr_rect'; cbn [smooth admissible]; intros HS HA; cbn [run].
  - exact (HL n0).
  - apply (chain_const st dirs dir c q pos Hp x n).
  - apply (chain_neg st dirs dir c q pos Hp x n); auto.
  - destruct HS, HA. apply (chain_add st dirs dir c q pos Hp x n); auto.
  - destruct HS, HA. apply (chain_sub st dirs dir c q pos Hp x n); auto.
  - destruct HS, HA. apply (chain_mul st dirs dir c q pos Hp x n); auto.
  - destruct HS as (? & ? & ?), HA as (? & ? & ?). apply (chain_div st dirs dir c q pos Hp x n); auto.
  - destruct HS. apply (chain_powr st dirs dir c q pos Hp x n); auto.
  - destruct HS. apply (chain_powz st dirs dir c q pos Hp x n); auto.
  - destruct HS as (? & ? & ?), HA. apply (chain_pow st dirs dir c q pos Hp x n); auto.
  - apply (chain_sq st dirs dir c q pos Hp x n); auto.
  - destruct HS. apply (chain_fn st dirs dir c q pos Hp x n); auto.
  - destruct HS as (? & ? & ?), HA. apply (chain_atan2 st dirs dir c q pos Hp x n); auto.
  - destruct HS as (HS & Hpos), HA as (HA & HX). destruct l as [|e0 [|e1 tl]]; [easy|easy|]. destruct HX as (Hn & HX).
    apply (chain_hypot st dirs dir c q pos Hp x n expr (denote u) (run st leaf) e0 e1 tl); [|exact Hn|exact Hpos].
    intros e He. split; [apply H; [exact He|exact (all_In _ _ _ HS e He)|exact (all_In _ _ _ HA e He)]|].
    exact (all_In _ _ _ HX e He).
  - destruct HS. apply (chain_abs st dirs dir c q pos Hp x n); auto.
  - destruct HS. apply (chain_sign st dirs dir c q pos Hp x n); auto.
  - destruct HS as (? & ? & ?), HA. apply (chain_min st dirs dir c q pos Hp x n); auto.
  - destruct HS as (? & ? & ?), HA. apply (chain_max st dirs dir c q pos Hp x n); auto.
  - apply (chain_shell st dirs dir c q pos Hp x n); auto.
Qed.
