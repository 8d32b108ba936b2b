(** Householder reflections. *)
From Verif Require GeoProofs2.
From Verif Require Import Prelude RSum DenseModel DenseSpec DenseProofs DenseProofs2 DenseProofs3 QrModel QrSpec.
Local Open Scope R_scope.

Definition dotn (N : nat) (x y : nat -> R) : R := Rsum N (fun i => x i * y i).
Definition refl (N : nat) (t : R) (u x : nat -> R) : nat -> R := fun i => x i - t * dotn N u x * u i.
Definition vm (k : nat) (v : nat -> R) : nat -> R := fun i => if (i <? k)%nat then 0 else v i.
Lemma dotn_ext : forall N x x' y y', (forall i, (i < N)%nat -> x i = x' i) -> (forall i, (i < N)%nat -> y i = y' i) -> dotn N x y = dotn N x' y'.
Proof. intros N x x' y y' H1 H2. apply Rsum_ext. intros i Hi. now rewrite H1, H2. Qed.
Lemma for_range_add : forall n lo (f : nat -> R) body v0, (forall j v, (lo <= j < lo + n)%nat -> body j v = Some (v + f j)) ->
  for_range lo n body v0 = Some (v0 + Rsum n (fun u => f (lo + u)%nat)).
Proof.
  intros n lo f body v0 H. rewrite (for_range_sub n lo (fun j => - f j)) by (intros; rewrite H by assumption; f_equal; lra).
  f_equal. rewrite (Rsum_ext n (fun u => - f (lo + u)%nat) (fun u => (-1) * f (lo + u)%nat)) by (intros; lra). rewrite Rsum_scal. lra.
Qed.
Lemma dotn_vm : forall N k v x, (k < N)%nat -> dotn N (vm k v) x = v k * x k + Rsum (N - S k) (fun u => v (S k + u)%nat * x (S k + u)%nat).
Proof.
  intros N k v x Hk. unfold dotn. rewrite (Rsum_split N (S k)) by lia. cbn [Rsum]. rewrite Rsum_zero by (intros i Hi; unfold vm; beqs; lra).
  unfold vm at 1. rewrite Nat.ltb_irrefl. rewrite (Rsum_ext (N - S k) (fun u => vm k v (S k + u)%nat * _) (fun u => v (S k + u)%nat * x (S k + u)%nat)) by (intros u Hu; unfold vm; beqs; reflexivity). lra.
Qed.
Lemma reflect_col_ok : forall N C k j t v x, (k < N)%nat -> (j < C)%nat ->
  reflect_col N k j t (arr N v) (store N C x) = Some (store N C (fun i j' => if (j' =? j)%nat then refl N t (vm k v) (fun i => x i j) i else x i j')).
Proof.
  intros N C k j t v x Hk Hj. unfold reflect_col. rewrite (Nat.mul_comm j N). rewrite rd_arr by assumption. cbn [obind]. rewrite store_rd by assumption. cbn [obind].
  rewrite (for_range_add (N - S k) (S k) (fun i => v i * x i j)).
  2:{ intros i d Hi. rewrite rd_arr, store_rd by lia. reflexivity. }
  cbn [obind]. rewrite store_wr by assumption. cbn [obind]. rewrite <- (dotn_vm N k v (fun i => x i j)) by assumption. set (d := dotn N (vm k v) (fun i => x i j)).
  match goal with |- for_range _ _ ?b (store N C ?y) = _ => set (body := b); set (y1 := y) end.
  destruct (for_rep (store N C) (fun r y => forall i j', (i < N)%nat -> y i j' = if ((j' =? j) && (i <? r))%nat then refl N t (vm k v) (fun i => x i j) i else x i j') (N - S k) (S k) body y1) as (y & E & H).
  - intros i j' Hi. unfold y1, upd2, refl. fold d. destruct (Nat.eqb_spec j' j) as [->|]; [|now rewrite Bool.andb_false_r]. rewrite Bool.andb_true_r. cbn [andb].
    destruct (Nat.eqb_spec i k) as [->|].
    + destruct (Nat.ltb_spec k (S k)); [|lia]. unfold vm. rewrite Nat.ltb_irrefl. ring.
    + destruct (Nat.ltb_spec i (S k)); [|reflexivity]. unfold vm. destruct (Nat.ltb_spec i k); [ring|lia].
  - intros i y Hi Hy. unfold body. rewrite store_rd by lia. cbn [obind]. rewrite rd_arr by lia. cbn [obind]. rewrite store_wr by lia. eexists. split; [reflexivity|].
    intros i' j' Hi'. unfold upd2. rewrite (Hy i j ltac:(lia)). rewrite Nat.eqb_refl, Nat.ltb_irrefl. cbn [andb]. rewrite (Hy i' j' Hi').
    destruct (Nat.eqb_spec j' j) as [->|]; [|now rewrite Bool.andb_false_r]. rewrite Bool.andb_true_r. cbn [andb].
    destruct (Nat.eqb_spec i' i) as [->|].
    + destruct (Nat.ltb_spec i (S i)); [|lia]. unfold refl. fold d. unfold vm. destruct (Nat.ltb_spec i k); [lia|]. ring.
    + destruct (Nat.ltb_spec i' i), (Nat.ltb_spec i' (S i)); try lia; reflexivity.
  - rewrite E. apply f_equal, store_ext. intros i j' Hi Hj'. rewrite H by assumption. destruct (Nat.ltb_spec i (S k + (N - S k))); [|lia]. rewrite Bool.andb_true_r. reflexivity.
Qed.

(** A reflection: t = 0 or t |u|^2 = 2. *)
Definition reflector (N : nat) (t : R) (u : nat -> R) : Prop := t * (t * dotn N u u - 2) = 0.
Lemma dotn_refl_r : forall N t u x y, dotn N y (refl N t u x) = dotn N y x - t * dotn N u x * dotn N y u.
Proof.
  intros N t u x y. unfold dotn at 1, refl. rewrite (Rsum_ext N _ (fun i => y i * x i - (t * dotn N u x) * (y i * u i))) by (intros; ring).
  rewrite Rsum_minus, Rsum_scal. reflexivity.
Qed.
Lemma dotn_comm : forall N x y, dotn N x y = dotn N y x.
Proof. intros. apply Rsum_ext. intros; ring. Qed.
Lemma refl_dot : forall N t u x y, reflector N t u -> dotn N (refl N t u x) (refl N t u y) = dotn N x y.
Proof.
  intros N t u x y H. rewrite dotn_refl_r, (dotn_comm N (refl N t u x) y), (dotn_comm N (refl N t u x) u), !dotn_refl_r.
  rewrite (dotn_comm N y x), (dotn_comm N y u). unfold reflector in H.
  replace (dotn N x y - t * dotn N u x * dotn N u y - t * dotn N u y * (dotn N u x - t * dotn N u x * dotn N u u)) with (dotn N x y + dotn N u x * dotn N u y * (t * (t * dotn N u u - 2))) by ring.
  rewrite H. ring.
Qed.
Lemma refl_refl : forall N t u x, reflector N t u -> forall i, refl N t u (refl N t u x) i = x i.
Proof.
  intros N t u x H i. unfold refl at 1. rewrite dotn_refl_r. unfold refl. unfold reflector in H.
  replace (x i - t * dotn N u x * u i - t * (dotn N u x - t * dotn N u x * dotn N u u) * u i) with (x i + dotn N u x * u i * (t * (t * dotn N u u - 2))) by ring.
  rewrite H. ring.
Qed.
Lemma refl_ext : forall N t u u' x x', (forall i, (i < N)%nat -> u i = u' i) -> (forall i, (i < N)%nat -> x i = x' i) -> forall i, (i < N)%nat -> refl N t u x i = refl N t u' x' i.
Proof. intros N t u u' x x' H1 H2 i Hi. unfold refl. rewrite (dotn_ext N u u' x x' H1 H2). now rewrite H1, H2. Qed.
Lemma refl_lin : forall N t u M c (x : nat -> nat -> R), forall i, refl N t u (fun r => Rsum M (fun m => c m * x m r)) i = Rsum M (fun m => c m * refl N t u (x m) i).
Proof.
  intros N t u M c x i. unfold refl. rewrite (Rsum_ext M (fun m => c m * (x m i - t * dotn N u (x m) * u i)) (fun m => c m * x m i - (t * u i) * (c m * dotn N u (x m)))) by (intros; ring).
  rewrite Rsum_minus, Rsum_scal. replace (dotn N u (fun r => Rsum M (fun m => c m * x m r))) with (Rsum M (fun m => c m * dotn N u (x m))); [ring|].
  unfold dotn. rewrite (Rsum_ext N _ (fun r => Rsum M (fun m => c m * (u r * x m r)))) by (intros r Hr; rewrite <- Rsum_scal; apply Rsum_ext; intros; ring).
  rewrite Rsum_swap. apply Rsum_ext. intros m Hm. now rewrite Rsum_scal.
Qed.

(** H_0 (H_1 (... H_{k-1} x)) *)
Fixpoint app (N : nat) (t : nat -> R) (u : nat -> nat -> R) (k : nat) (x : nat -> R) : nat -> R :=
  match k with O => x | S k => app N t u k (refl N (t k) (u k) x) end.
(** the reflections k .. k + n - 1, outermost first *)
Fixpoint appr (N : nat) (t : nat -> R) (u : nat -> nat -> R) (n k : nat) (x : nat -> R) : nat -> R :=
  match n with O => x | S n => refl N (t k) (u k) (appr N t u n (S k) x) end.
Lemma app_ext : forall N t u k x x', (forall i, (i < N)%nat -> x i = x' i) -> forall i, (i < N)%nat -> app N t u k x i = app N t u k x' i.
Proof. intros N t u k. induction k as [|k IH]; intros x x' H i Hi; [now apply H|]. cbn. apply IH; [|exact Hi]. apply refl_ext; [reflexivity|exact H]. Qed.
Lemma app_change : forall N t u t' u' k x, (forall m, (m < k)%nat -> t m = t' m /\ forall i, (i < N)%nat -> u m i = u' m i) -> forall i, (i < N)%nat -> app N t u k x i = app N t' u' k x i.
Proof.
  intros N t u t' u' k. induction k as [|k IH]; intros x H i Hi; [reflexivity|]. cbn. rewrite IH by (try assumption; intros; apply H; lia).
  apply app_ext; [|exact Hi]. intros r Hr. destruct (H k ltac:(lia)) as [Ht Hu]. rewrite Ht. apply refl_ext; auto.
Qed.
Lemma app_dot : forall N t u k, (forall m, (m < k)%nat -> reflector N (t m) (u m)) -> forall x y, dotn N (app N t u k x) (app N t u k y) = dotn N x y.
Proof. intros N t u k. induction k as [|k IH]; intros H x y; [reflexivity|]. cbn. rewrite IH by (intros; apply H; lia). apply refl_dot. apply H. lia. Qed.
Lemma app_lin : forall N t u k M c (x : nat -> nat -> R) i, (i < N)%nat -> app N t u k (fun r => Rsum M (fun m => c m * x m r)) i = Rsum M (fun m => c m * app N t u k (x m) i).
Proof.
  intros N t u k. induction k as [|k IH]; intros M c x i Hi; [reflexivity|]. cbn. rewrite <- IH by assumption. apply app_ext; [|exact Hi]. intros r Hr. apply refl_lin.
Qed.
Lemma appr_shift : forall N t u n k x i, (i < N)%nat -> appr N t u (S n) k x i = appr N t u n k (refl N (t (k + n)%nat) (u (k + n)%nat) x) i.
Proof.
  intros N t u n. induction n as [|n IH]; intros k x i Hi; [cbn; now rewrite Nat.add_0_r|].
  change (appr N t u (S (S n)) k x) with (refl N (t k) (u k) (appr N t u (S n) (S k) x)).
  change (appr N t u (S n) k (refl N (t (k + S n)%nat) (u (k + S n)%nat) x)) with (refl N (t k) (u k) (appr N t u n (S k) (refl N (t (k + S n)%nat) (u (k + S n)%nat) x))).
  apply refl_ext; [reflexivity| |exact Hi]. intros r Hr. rewrite IH by assumption. now rewrite Nat.add_succ_r.
Qed.
Lemma app_appr : forall N t u k x i, (i < N)%nat -> app N t u k x i = appr N t u k 0 x i.
Proof. intros N t u k. induction k as [|k IH]; intros x i Hi; [reflexivity|]. rewrite appr_shift by assumption. cbn [app]. now apply IH. Qed.
