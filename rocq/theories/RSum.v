(** Finite sums of reals, and arrays and column-major matrices seen as functions.
    No repository code is modelled here. *)
From Coq Require Export Reals Lra.
From Verif Require Export Prelude.
Local Open Scope R_scope.

(** Sum of f 0 .. f (n-1). *)
Fixpoint Rsum (n : nat) (f : nat -> R) : R :=
  match n with O => 0 | S n' => Rsum n' f + f n' end.

Lemma Some_inj' : forall {A} (x y : A), Some x = Some y -> x = y.
Proof. intros A x y H. now injection H. Qed.
Lemma Rsum_S : forall n f, Rsum (S n) f = Rsum n f + f n.
Proof. reflexivity. Qed.
Lemma Rsum_ext : forall n f g, (forall i, (i < n)%nat -> f i = g i) -> Rsum n f = Rsum n g.
Proof. induction n as [|n IH]; intros f g H; cbn; [reflexivity|]. rewrite (IH f g), (H n); auto. Qed.
Lemma Rsum_plus : forall n f g, Rsum n (fun i => f i + g i) = Rsum n f + Rsum n g.
Proof. induction n as [|n IH]; intros f g; cbn; [lra|]. rewrite IH. lra. Qed.
Lemma Rsum_minus : forall n f g, Rsum n (fun i => f i - g i) = Rsum n f - Rsum n g.
Proof. induction n as [|n IH]; intros f g; cbn; [lra|]. rewrite IH. lra. Qed.
Lemma Rsum_scal : forall n c f, Rsum n (fun i => c * f i) = c * Rsum n f.
Proof. induction n as [|n IH]; intros c f; cbn; [lra|]. rewrite IH. lra. Qed.
Lemma Rsum_scal_r : forall n c f, Rsum n (fun i => f i * c) = Rsum n f * c.
Proof. induction n as [|n IH]; intros c f; cbn; [lra|]. rewrite IH. lra. Qed.
Lemma Rsum_zero : forall n f, (forall i, (i < n)%nat -> f i = 0) -> Rsum n f = 0.
Proof. induction n as [|n IH]; intros f H; cbn; [reflexivity|]. rewrite IH, H; auto; lra. Qed.
Lemma Rsum_single : forall n k f, (k < n)%nat -> (forall i, (i < n)%nat -> i <> k -> f i = 0) -> Rsum n f = f k.
Proof.
  induction n as [|n IH]; intros k f Hk H; [lia|]. cbn. destruct (Nat.eq_dec k n) as [->|Hne].
  - rewrite Rsum_zero; [lra|]. intros i Hi. apply H; lia.
  - rewrite (IH k) by (try lia; intros; apply H; lia). rewrite (H n) by lia. lra.
Qed.
Lemma Rsum_swap : forall n m f, Rsum n (fun i => Rsum m (fun j => f i j)) = Rsum m (fun j => Rsum n (fun i => f i j)).
Proof.
  induction n as [|n IH]; intros m f; cbn.
  - symmetry. apply Rsum_zero. reflexivity.
  - rewrite IH, <- Rsum_plus. reflexivity.
Qed.
(* remove one term *)
Lemma Rsum_remove : forall n k f, (k < n)%nat -> Rsum n f = f k + Rsum n (fun i => if (i =? k)%nat then 0 else f i).
Proof.
  intros n k f Hk. transitivity (Rsum n (fun i => (if (i =? k)%nat then f k else 0) + (if (i =? k)%nat then 0 else f i))).
  - apply Rsum_ext. intros i _. destruct (Nat.eqb_spec i k) as [->|]; lra.
  - rewrite Rsum_plus. f_equal. rewrite (Rsum_single n k); [now rewrite Nat.eqb_refl|exact Hk|].
    intros i _ Hi. destruct (Nat.eqb_spec i k); [contradiction|reflexivity].
Qed.

(** *** Arrays as functions *)
Definition arr {A} (n : nat) (f : nat -> A) : list A := map f (seq 0 n).
Definition upd {A} (f : nat -> A) (i : nat) (v : A) : nat -> A := fun j => if j =? i then v else f j.

Lemma arr_length : forall {A} n (f : nat -> A), length (arr n f) = n.
Proof. intros. unfold arr. now rewrite map_length, seq_length. Qed.
Lemma rd_arr : forall {A} n (f : nat -> A) i, (i < n)%nat -> rd (arr n f) i = Some (f i).
Proof.
  intros A n f i Hi. unfold rd, arr. rewrite nth_error_map, nth_error_nth' with (d := O) by (now rewrite seq_length).
  cbn. now rewrite seq_nth.
Qed.
Lemma arr_ext : forall {A} n (f g : nat -> A), (forall i, (i < n)%nat -> f i = g i) -> arr n f = arr n g.
Proof. intros A n f g H. unfold arr. apply map_ext_in. intros i Hi. apply in_seq in Hi. apply H. lia. Qed.
Lemma arr_inj : forall {A} n (f g : nat -> A), arr n f = arr n g -> forall i, (i < n)%nat -> f i = g i.
Proof. intros A n f g H i Hi. pose proof (rd_arr n f i Hi) as E. rewrite H, rd_arr in E by assumption. congruence. Qed.
Lemma list_arr : forall {A} (d : A) l, l = arr (length l) (fun i => nth i l d).
Proof.
  intros A d l. apply nth_ext with (d := d) (d' := d); [now rewrite arr_length|]. intros i Hi.
  pose proof (rd_arr (length l) (fun i => nth i l d) i Hi) as E. unfold rd in E. erewrite (nth_error_nth _ _ _ E). reflexivity.
Qed.
Lemma wr_arr : forall {A} n (f : nat -> A) i v, (i < n)%nat -> wr (arr n f) i v = Some (arr n (upd f i v)).
Proof.
  intros A n f i v Hi. destruct (wr_some (arr n f) i v) as (m & E & L & H); [now rewrite arr_length|]. rewrite E. f_equal.
  rewrite arr_length in L. apply nth_ext with (d := v) (d' := v); [now rewrite arr_length|]. intros j Hj. rewrite L in Hj.
  pose proof (H j) as Ej. rewrite (rd_arr n f j Hj) in Ej. pose proof (rd_arr n (upd f i v) j Hj) as Ej'.
  unfold rd in Ej, Ej'. rewrite (nth_error_nth _ _ _ Ej'). unfold upd.
  destruct (j =? i)%nat; rewrite (nth_error_nth _ _ _ Ej); reflexivity.
Qed.

(** Column-major matrix with n rows and c columns. *)
Definition store {A} (n c : nat) (a : nat -> nat -> A) : list A := arr (n * c) (fun p => a (p mod n)%nat (p / n)%nat).
Definition upd2 {A} (a : nat -> nat -> A) (i j : nat) (v : A) : nat -> nat -> A :=
  fun i' j' => if ((i' =? i) && (j' =? j))%bool then v else a i' j'.
(* DenseMatrix::operator() *)
Definition mrd {A} (m : list A) (n i j : nat) : option A := rd m (i + n * j).
Definition mwr {A} (m : list A) (n i j : nat) (v : A) : option (list A) := wr m (i + n * j) v.

Lemma store_length : forall {A} n c (a : nat -> nat -> A), length (store n c a) = (n * c)%nat.
Proof. intros. apply arr_length. Qed.
Lemma cell_lt : forall n c i j, (i < n)%nat -> (j < c)%nat -> (i + n * j < n * c)%nat.
Proof. intros. nia. Qed.
Lemma cell_split : forall n i j, (i < n)%nat -> ((i + n * j) mod n = i)%nat /\ ((i + n * j) / n = j)%nat.
Proof.
  intros n i j Hi. rewrite Nat.mul_comm, Nat.mod_add, Nat.div_add by lia. rewrite Nat.mod_small, Nat.div_small by lia. lia.
Qed.
Lemma mrd_store : forall {A} n c (a : nat -> nat -> A) i j, (i < n)%nat -> (j < c)%nat -> mrd (store n c a) n i j = Some (a i j).
Proof.
  intros A n c a i j Hi Hj. unfold mrd, store. rewrite rd_arr by (now apply cell_lt).
  destruct (cell_split n i j Hi) as [-> ->]. reflexivity.
Qed.
Lemma store_ext : forall {A} n c (a b : nat -> nat -> A), (forall i j, (i < n)%nat -> (j < c)%nat -> a i j = b i j) -> store n c a = store n c b.
Proof.
  intros A n c a b H. apply arr_ext. intros p Hp. destruct (Nat.eq_dec n 0) as [->|Hn]; [cbn in Hp; lia|].
  apply H; [now apply Nat.mod_upper_bound|]. apply Nat.div_lt_upper_bound; lia.
Qed.
Lemma store_inj : forall {A} n c (a b : nat -> nat -> A), store n c a = store n c b -> forall i j, (i < n)%nat -> (j < c)%nat -> a i j = b i j.
Proof. intros A n c a b H i j Hi Hj. pose proof (mrd_store n c a i j Hi Hj) as E. rewrite H, mrd_store in E by assumption. congruence. Qed.
Lemma mwr_store : forall {A} n c (a : nat -> nat -> A) i j v, (i < n)%nat -> (j < c)%nat ->
  mwr (store n c a) n i j v = Some (store n c (upd2 a i j v)).
Proof.
  intros A n c a i j v Hi Hj. unfold mwr, store at 1. rewrite wr_arr by (now apply cell_lt). f_equal.
  apply arr_ext. intros p Hp. unfold upd, upd2. destruct (cell_split n i j Hi) as [E1 E2].
  destruct (Nat.eqb_spec p (i + n * j)) as [->|Hne].
  - rewrite E1, E2, !Nat.eqb_refl. reflexivity.
  - destruct (Nat.eqb_spec (p mod n) i) as [E3|]; [|reflexivity]. destruct (Nat.eqb_spec (p / n) j) as [E4|]; [|reflexivity].
    exfalso. apply Hne. rewrite (Nat.div_mod p n) by lia. rewrite E3, E4. lia.
Qed.
Lemma list_store : forall {A} (d : A) n c l, (0 < n)%nat -> length l = (n * c)%nat ->
  l = store n c (fun i j => nth (i + n * j) l d).
Proof.
  intros A d n c l Hn Hl. rewrite (list_arr d l) at 1. rewrite Hl. apply arr_ext. intros p Hp.
  f_equal. rewrite (Nat.div_mod p n) at 1 by lia. lia.
Qed.

(** Loop rule for states represented by functions. *)
Lemma for_rep : forall {S T} (rep : T -> S) (I : nat -> T -> Prop) n lo body t,
  I lo t ->
  (forall i t, (lo <= i < lo + n)%nat -> I i t -> exists t', body i (rep t) = Some (rep t') /\ I (Datatypes.S i) t') ->
  exists t', for_range lo n body (rep t) = Some (rep t') /\ I (lo + n)%nat t'.
Proof.
  intros S T rep I n lo body t H0 Hs.
  destruct (for_range_inv (fun i s => exists t, s = rep t /\ I i t) n lo body (rep t)) as (s & E & t' & -> & H).
  - eauto.
  - intros i s Hi (t1 & -> & H1). destruct (Hs i t1 Hi H1) as (t2 & E & H2). eauto.
  - eauto.
Qed.
Lemma for_rep0 : forall {S T} (rep : T -> S) (I : nat -> T -> Prop) n body t,
  I O t ->
  (forall i t, (i < n)%nat -> I i t -> exists t', body i (rep t) = Some (rep t') /\ I (Datatypes.S i) t') ->
  exists t', for_ n body (rep t) = Some (rep t') /\ I n t'.
Proof.
  intros S T rep I n body t H0 Hs. unfold for_. destruct (for_rep rep I n 0 body t H0) as (t' & E & H); [|eauto].
  intros i t1 Hi. apply Hs. lia.
Qed.
(* accumulate a sum *)
Lemma for_sum : forall n (f : nat -> R) body s0, (forall i s, (i < n)%nat -> body i s = Some (s + f i)) ->
  for_ n body s0 = Some (s0 + Rsum n f).
Proof.
  intros n f body s0 H. destruct (for_inv (fun i s => s = s0 + Rsum i f) n body s0) as (s & E & ->).
  - cbn. lra.
  - intros i s Hi ->. rewrite H by assumption. eexists. split; [reflexivity|]. cbn. lra.
  - exact E.
Qed.
