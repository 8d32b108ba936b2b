(** Operations on polynomials in barycentric coordinates *)
From Coq Require Import ZArith Reals List Lia Lra Permutation.
From Coquelicot Require Import Coquelicot.
From Verif Require Import Prelude RSum BasModel BasSpec QuadModel QuadRules QuadSpec QuadProofs.
Import ListNotations.
Open Scope R_scope.

Definition zipadd (a b : list nat) : list nat := map (fun xy => (fst xy + snd xy)%nat) (List.combine a b).
Definition bmul (P Q : bpoly) : bpoly := flat_map (fun a => map (fun b => (fst a * fst b, zipadd (snd a) (snd b))) Q) P.
Fixpoint bpow (n : nat) (P : bpoly) (k : nat) : bpoly := match k with O => [(1, repeat O n)] | S k => bmul P (bpow n P k) end.
Definition bscal (c : R) (P : bpoly) : bpoly := map (fun a => (c * fst a, snd a)) P.
Definition bsumn (n : nat) (f : nat -> bpoly) : bpoly := flat_map f (seq 0 n).
Definition bcoord (n : nat) (X : nat -> R) : bpoly := map (fun i => (X i, bump i (repeat O n))) (seq 0 n).

Lemma zipadd_length : forall a b, length a = length b -> length (zipadd a b) = length a.
Proof. intros a b H. unfold zipadd. rewrite map_length, combine_length. lia. Qed.
Lemma zipadd_sum : forall a b, length a = length b -> list_sum (zipadd a b) = (list_sum a + list_sum b)%nat.
Proof. induction a as [|x a IH]; intros [|y b] H; try discriminate; [reflexivity|]. unfold zipadd. cbn [List.combine map fst snd]. fold (zipadd a b). rewrite !list_sum_cons, IH by (cbn in H; lia). lia. Qed.
Lemma zipadd_mono : forall a b p, length a = length p -> length b = length p -> mono (zipadd a b) p = mono a p * mono b p.
Proof.
  induction a as [|x a IH]; intros [|y b] [|z p] Ha Hb; try discriminate; [cbn; ring|].
  unfold zipadd. cbn [List.combine map fst snd mono]. fold (zipadd a b). rewrite IH by (cbn in Ha, Hb; lia). rewrite pow_add. ring.
Qed.
Lemma beval_nil : forall p, beval [] p = 0.
Proof. reflexivity. Qed.
Lemma bnorm_nil : bnorm [] = 0.
Proof. reflexivity. Qed.
Lemma bdegree_app : forall m n P Q, bdegree m n P -> bdegree m n Q -> bdegree m n (P ++ Q).
Proof. intros m n P Q HP HQ c es Hi. apply in_app_or in Hi. destruct Hi; [eapply HP|eapply HQ]; eassumption. Qed.
Lemma beval_app : forall P Q p, beval (P ++ Q) p = beval P p + beval Q p.
Proof. intros P Q p. induction P as [|a P IH]; [cbn [app]; rewrite beval_nil; ring|]. cbn [app]. rewrite !beval_cons, IH. ring. Qed.
Lemma bnorm_cons : forall a P, bnorm (a :: P) = Rabs (fst a) + bnorm P.
Proof. reflexivity. Qed.
Lemma bnorm_app : forall P Q, bnorm (P ++ Q) = bnorm P + bnorm Q.
Proof. intros P Q. induction P as [|a P IH]; [cbn [app]; rewrite bnorm_nil; ring|]. cbn [app]. rewrite !bnorm_cons, IH. ring. Qed.
Lemma bmul_degree : forall m a b P Q, bdegree m a P -> bdegree m b Q -> bdegree m (a + b) (bmul P Q).
Proof.
  intros m a b P Q HP HQ c es Hi. unfold bmul in Hi. apply in_flat_map in Hi. destruct Hi as ([u eu] & Hu & Hi). apply in_map_iff in Hi. destruct Hi as ([v ev] & E & Hv).
  inversion E; subst. cbn [fst snd]. destruct (HP u eu Hu) as [L1 S1]. destruct (HQ v ev Hv) as [L2 S2].
  rewrite zipadd_length, zipadd_sum by lia. split; lia.
Qed.
Lemma bmul_eval : forall m a b P Q p, bdegree m a P -> bdegree m b Q -> length p = S m -> beval (bmul P Q) p = beval P p * beval Q p.
Proof.
  intros m a b P Q p HP HQ Hp. induction P as [|[u eu] P IH]; [cbn [flat_map map bmul bscal]; rewrite ?beval_nil, ?bnorm_nil; ring|]. unfold bmul. cbn [flat_map]. fold (bmul P Q). rewrite beval_app, IH by (intros c es Hi; apply (HP c es); now right).
  rewrite beval_cons. cbn [fst snd]. rewrite Rmult_plus_distr_r. f_equal. destruct (HP u eu (or_introl eq_refl)) as [Lu _]. clear IH HP.
  induction Q as [|[v ev] Q IHQ]; [cbn [flat_map map bmul bscal]; rewrite ?beval_nil, ?bnorm_nil; ring|]. cbn [map fst snd]. rewrite !beval_cons, IHQ by (intros c es Hi; apply (HQ c es); now right). cbn [fst snd].
  destruct (HQ v ev (or_introl eq_refl)) as [Lv _]. rewrite zipadd_mono by lia. ring.
Qed.
Lemma bmul_norm : forall P Q, bnorm (bmul P Q) = bnorm P * bnorm Q.
Proof.
  intros P Q. induction P as [|[u eu] P IH]; [cbn [flat_map map bmul bscal]; rewrite ?beval_nil, ?bnorm_nil; ring|]. unfold bmul. cbn [flat_map]. fold (bmul P Q). rewrite bnorm_app, IH, bnorm_cons. cbn [fst snd].
  rewrite Rmult_plus_distr_r. f_equal. clear IH. induction Q as [|[v ev] Q IHQ]; [cbn [flat_map map bmul bscal]; rewrite ?beval_nil, ?bnorm_nil; ring|]. cbn [map fst snd]. rewrite !bnorm_cons, IHQ. cbn [fst]. rewrite Rabs_mult. ring.
Qed.
Lemma mono_zero : forall n p, mono (repeat O n) p = 1.
Proof. induction n as [|n IH]; intros [|x p]; cbn [repeat mono]; trivial. rewrite IH. cbn. ring. Qed.
Lemma sum_zero : forall n, list_sum (repeat O n) = O.
Proof. induction n as [|n IH]; [reflexivity|]. cbn [repeat]. rewrite list_sum_cons, IH. reflexivity. Qed.
Lemma bpow_ok : forall m d P, bdegree m d P -> forall k, bdegree m (k * d) (bpow (S m) P k) /\ bnorm (bpow (S m) P k) = bnorm P ^ k /\
  forall p, length p = S m -> beval (bpow (S m) P k) p = beval P p ^ k.
Proof.
  intros m d P HP. induction k as [|k (I1 & I2 & I3)].
  - split; [|split].
    + intros c es [E|[]]. apply (f_equal snd) in E. cbn [snd] in E. subst es. rewrite sum_zero, repeat_length. split; lia.
    + cbn. rewrite Rabs_R1. ring.
    + intros p Hp. cbn [bpow]. rewrite beval_cons. cbn [fst snd]. rewrite mono_zero. cbn. ring.
  - cbn [bpow]. split; [|split].
    + replace (S k * d)%nat with (d + k * d)%nat by lia. now apply bmul_degree.
    + rewrite bmul_norm, I2. reflexivity.
    + intros p Hp. rewrite (bmul_eval m d (k * d)) by trivial. rewrite I3 by trivial. reflexivity.
Qed.
Lemma bscal_ok : forall m d c P, bdegree m d P -> bdegree m d (bscal c P) /\ bnorm (bscal c P) = Rabs c * bnorm P /\ forall p, beval (bscal c P) p = c * beval P p.
Proof.
  intros m d c P HP. split; [|split].
  - intros u es Hi. apply in_map_iff in Hi. destruct Hi as ([v ev] & E & Hi). inversion E; subst. now apply (HP v).
  - clear HP. induction P as [|a P IH]; [cbn [flat_map map bmul bscal]; rewrite ?beval_nil, ?bnorm_nil; ring|]. unfold bscal. cbn [map]. fold (bscal c P). rewrite !bnorm_cons, IH. cbn [fst]. rewrite Rabs_mult. ring.
  - clear HP. intros p. induction P as [|a P IH]; [cbn [flat_map map bmul bscal]; rewrite ?beval_nil, ?bnorm_nil; ring|]. unfold bscal. cbn [map]. fold (bscal c P). rewrite !beval_cons, IH. cbn [fst snd]. ring.
Qed.
Lemma bsumn_S : forall n f, bsumn (S n) f = bsumn n f ++ f n.
Proof. intros n f. unfold bsumn. rewrite seq_S, flat_map_app. cbn. now rewrite app_nil_r. Qed.
Lemma bsumn_ok : forall m d n f g h, (forall i, (i < n)%nat -> bdegree m d (f i) /\ bnorm (f i) = g i /\ forall p, length p = S m -> beval (f i) p = h i p) ->
  bdegree m d (bsumn n f) /\ bnorm (bsumn n f) = Rsum n g /\ forall p, length p = S m -> beval (bsumn n f) p = Rsum n (fun i => h i p).
Proof.
  intros m d n f g h. induction n as [|n IH]; intros H.
  - split; [intros c es []|]. split; [reflexivity|intros; reflexivity].
  - destruct (IH (fun i Hi => H i ltac:(lia))) as (A & B & D). destruct (H n ltac:(lia)) as (A' & B' & D'). rewrite bsumn_S. split; [now apply bdegree_app|]. split.
    + rewrite bnorm_app, B, B', Rsum_S. reflexivity.
    + intros p Hp. rewrite beval_app, D, D', Rsum_S by trivial. reflexivity.
Qed.
Lemma bcoord_ok : forall m X, bdegree m 1 (bcoord (S m) X) /\ bnorm (bcoord (S m) X) = Rsum (S m) (fun i => Rabs (X i)) /\
  forall p, length p = S m -> beval (bcoord (S m) X) p = Rsum (S m) (fun i => nth i p 0 * X i).
Proof.
  intros m X. assert (E : bcoord (S m) X = bsumn (S m) (fun i => [(X i, bump i (repeat O (S m)))])).
  { unfold bcoord, bsumn. generalize (seq 0 (S m)) (bump) (repeat O (S m)). intros l b r. induction l as [|a l IH]; [reflexivity|]. cbn. now rewrite <- IH. }
  rewrite E. apply (bsumn_ok m 1 (S m) _ (fun i => Rabs (X i)) (fun i p => nth i p 0 * X i)). intros i Hi. split; [|split].
  - intros c es [Eq|[]]. apply (f_equal snd) in Eq. cbn [snd] in Eq. subst es. rewrite bump_length, bump_sum, sum_zero, repeat_length by (rewrite repeat_length; lia). split; lia.
  - rewrite bnorm_cons. cbn. ring.
  - intros p Hp. rewrite beval_cons. cbn [fst snd]. rewrite bump_mono by (rewrite ?repeat_length; lia). rewrite mono_zero. cbn. ring.
Qed.
Lemma bdegree_le : forall m a b P, (a <= b)%nat -> bdegree m a P -> bdegree m b P.
Proof. intros m a b P H HP c es Hi. destruct (HP c es Hi). split; trivial. lia. Qed.
Lemma mean_ext : forall s g h, (forall l, length l = S (dim s) -> fold_right Rplus 0 l = 1 -> g l = h l) -> mean s g = mean s h.
Proof.
  intros s g h H. destruct s; cbn [mean dim] in *.
  - apply RInt_ext. intros x _. apply H; [reflexivity|cbn [fold_right]; ring].
  - f_equal. apply RInt_ext. intros x _. apply RInt_ext. intros y _. apply H; [reflexivity|cbn [fold_right]; ring].
  - f_equal. apply RInt_ext. intros x _. apply RInt_ext. intros y _. apply RInt_ext. intros z _. apply H; [reflexivity|cbn [fold_right]; ring].
Qed.

