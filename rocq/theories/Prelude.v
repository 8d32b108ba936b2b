(** Shared vocabulary: prefix sums, first-greater search, counted loops that can
    fail, and a bounds-checked store.  No repository code is modelled here; the
    definitions are the C++ constructs the model files are written with. *)
From Coq Require Export List Arith ZArith Lia Bool.
Export ListNotations.

(** Prefix sums [0; x0; x0+x1; ...] (one longer than the input), the shape of
    every "shift" array in the code base. *)
Fixpoint prefix_from (a : nat) (l : list nat) : list nat :=
  match l with
  | [] => [a]
  | x :: r => a :: prefix_from (a + x) r
  end.
Definition prefix (l : list nat) : list nat := prefix_from 0 l.

(** std::upper_bound on a sorted array: index of the first element > x, or the
    length.  (The binary search of the standard library is replaced by its
    specified result.) *)
Fixpoint upper_bound (l : list nat) (x : nat) : nat :=
  match l with
  | [] => 0
  | y :: r => if x <? y then 0 else S (upper_bound r x)
  end.

(** A failing computation: [None] is an assertion failure, an out-of-range
    access or another undefined behaviour. *)
Definition obind {A B} (x : option A) (f : A -> option B) : option B :=
  match x with Some a => f a | None => None end.
Notation "'do' x <- e ; f" := (obind e (fun x => f)) (at level 200, x pattern, e at level 100, f at level 200).
Definition guard (b : bool) : option unit := if b then Some tt else None.

(** for (i = lo; i < lo + n; ++i) body *)
Fixpoint for_range {S} (lo n : nat) (body : nat -> S -> option S) (s : S) : option S :=
  match n with
  | O => Some s
  | S n' => do s' <- body lo s; for_range (Datatypes.S lo) n' body s'
  end.
Definition for_ {S} (n : nat) (body : nat -> S -> option S) (s : S) : option S := for_range 0 n body s.

(** Bounds-checked array. *)
Definition rd {A} (m : list A) (i : nat) : option A := nth_error m i.
Fixpoint wr {A} (m : list A) (i : nat) (v : A) : option (list A) :=
  match m, i with
  | [], _ => None
  | _ :: r, O => Some (v :: r)
  | x :: r, S j => do r' <- wr r j v; Some (x :: r')
  end.

(** *** Lemmas *)

Lemma length_prefix_from : forall l a, length (prefix_from a l) = S (length l).
Proof. induction l as [|x l IH]; intros a; cbn; [reflexivity|]. now rewrite IH. Qed.
Lemma length_prefix : forall l, length (prefix l) = S (length l).
Proof. intros; apply length_prefix_from. Qed.

Lemma list_sum_cons : forall x l, list_sum (x :: l) = x + list_sum l.
Proof. reflexivity. Qed.
Lemma list_sum_nil : list_sum [] = 0.
Proof. reflexivity. Qed.
#[global] Arguments list_sum : simpl never.
#[global] Hint Rewrite list_sum_cons list_sum_nil list_sum_app : lsum.

Lemma nth_prefix_from : forall l a i, i <= length l ->
  nth i (prefix_from a l) 0 = a + list_sum (firstn i l).
Proof.
  induction l as [|x l IH]; intros a i Hi.
  - cbn in Hi. assert (i = 0) by lia; subst; cbn; rewrite list_sum_nil; lia.
  - destruct i as [|i]; cbn [prefix_from firstn nth]; [rewrite list_sum_nil; lia|].
    cbn in Hi. rewrite IH by lia. rewrite list_sum_cons. lia.
Qed.
Lemma nth_prefix : forall l i, i <= length l -> nth i (prefix l) 0 = list_sum (firstn i l).
Proof. intros; unfold prefix; rewrite nth_prefix_from by assumption; lia. Qed.

Lemma nth_error_prefix : forall l i, i <= length l -> nth_error (prefix l) i = Some (list_sum (firstn i l)).
Proof.
  intros l i Hi. rewrite <- (nth_prefix l i Hi).
  apply nth_error_nth'. rewrite length_prefix; lia.
Qed.

Lemma list_sum_firstn_S : forall l i, i < length l ->
  list_sum (firstn (S i) l) = list_sum (firstn i l) + nth i l 0.
Proof.
  induction l as [|x l IH]; intros i Hi; cbn in Hi; [lia|].
  destruct i as [|i]; [cbn; autorewrite with lsum; lia|].
  change (firstn (S (S i)) (x :: l)) with (x :: firstn (S i) l).
  change (firstn (S i) (x :: l)) with (x :: firstn i l).
  rewrite !list_sum_cons, IH by lia. cbn [nth]. lia.
Qed.

Lemma firstn_all_sum : forall l n, length l <= n -> list_sum (firstn n l) = list_sum l.
Proof. intros; now rewrite firstn_all2. Qed.

Lemma list_sum_firstn_le : forall l i j, i <= j -> list_sum (firstn i l) <= list_sum (firstn j l).
Proof.
  induction l as [|x l IH]; intros i j Hij; [now rewrite !firstn_nil|].
  destruct i as [|i]; [cbn; rewrite list_sum_nil; lia|]. destruct j as [|j]; [lia|].
  cbn [firstn]. rewrite !list_sum_cons. specialize (IH i j). lia.
Qed.

(** The search on a prefix-sum array finds the block containing [x]. *)
Lemma upper_bound_prefix_from : forall l a x, a <= x -> x < a + list_sum l ->
  exists v, upper_bound (prefix_from a l) x = S v /\ v < length l /\
            a + list_sum (firstn v l) <= x /\ x < a + list_sum (firstn v l) + nth v l 0.
Proof.
  induction l as [|y l IH]; intros a x Ha Hx; autorewrite with lsum in Hx; [lia|].
  cbn [prefix_from upper_bound].
  destruct (Nat.ltb_spec x a) as [Hlt|Hge]; [lia|].
  destruct (Nat.lt_ge_cases x (a + y)) as [Hxy|Hxy].
  - exists 0. cbn [firstn nth length]. rewrite list_sum_nil. repeat split; try lia.
    f_equal. destruct l as [|z l']; cbn [prefix_from upper_bound];
      destruct (Nat.ltb_spec x (a + y)); lia.
  - destruct (IH (a + y) x) as (v & Hv & Hvl & Hlo & Hhi); [lia|lia|].
    exists (S v). rewrite Hv. cbn [firstn nth length]. rewrite list_sum_cons. repeat split; lia.
Qed.
Lemma upper_bound_prefix : forall l x, x < list_sum l ->
  exists v, upper_bound (prefix l) x = S v /\ v < length l /\
            list_sum (firstn v l) <= x /\ x < list_sum (firstn v l) + nth v l 0.
Proof.
  intros l x Hx. destruct (upper_bound_prefix_from l 0 x) as (v & H); [lia|cbn; lia|].
  exists v. exact H.
Qed.

Lemma block_unique : forall l v w x, v < length l -> w < length l ->
  list_sum (firstn v l) <= x < list_sum (firstn v l) + nth v l 0 ->
  list_sum (firstn w l) <= x < list_sum (firstn w l) + nth w l 0 -> v = w.
Proof.
  intros l v w x Hv Hw H1 H2.
  destruct (Nat.lt_trichotomy v w) as [Hlt|[Heq|Hgt]]; [|assumption|]; exfalso.
  - pose proof (list_sum_firstn_le l (S v) w Hlt). rewrite list_sum_firstn_S in H by lia. lia.
  - pose proof (list_sum_firstn_le l (S w) v Hgt). rewrite list_sum_firstn_S in H by lia. lia.
Qed.

(** Loop rule: an invariant indexed by the loop counter. *)
Lemma for_range_inv : forall {S} (I : nat -> S -> Prop) n lo body (s : S),
  I lo s ->
  (forall i s, lo <= i < lo + n -> I i s -> exists s', body i s = Some s' /\ I (Datatypes.S i) s') ->
  exists s', for_range lo n body s = Some s' /\ I (lo + n) s'.
Proof.
  intros S I n. induction n as [|n IH]; intros lo body s H0 Hstep.
  - exists s. rewrite Nat.add_0_r. split; [reflexivity|assumption].
  - cbn [for_range]. destruct (Hstep lo s) as (s1 & E1 & H1); [lia|assumption|].
    rewrite E1; cbn [obind].
    destruct (IH (Datatypes.S lo) body s1 H1) as (s2 & E2 & H2).
    + intros i s0 Hi. apply Hstep. lia.
    + exists s2. split; [assumption|]. now replace (lo + Datatypes.S n) with (Datatypes.S lo + n) by lia.
Qed.
Lemma for_inv : forall {S} (I : nat -> S -> Prop) n body (s : S),
  I 0 s ->
  (forall i s, i < n -> I i s -> exists s', body i s = Some s' /\ I (Datatypes.S i) s') ->
  exists s', for_ n body s = Some s' /\ I n s'.
Proof.
  intros S I n body s H0 Hstep. destruct (for_range_inv I n 0 body s H0) as (s' & E & H).
  - intros i s1 Hi. apply Hstep. lia.
  - exists s'. auto.
Qed.

Lemma wr_some : forall {A} (m : list A) i v, i < length m -> exists m', wr m i v = Some m' /\ length m' = length m /\
  (forall j, rd m' j = if j =? i then Some v else rd m j).
Proof.
  intros A m. induction m as [|x m IH]; intros i v Hi; cbn in Hi; [lia|].
  destruct i as [|i]; cbn [wr].
  - exists (v :: m). repeat split. intros [|j]; reflexivity.
  - destruct (IH i v) as (m' & E & L & H); [lia|]. rewrite E. cbn [obind].
    exists (x :: m'). repeat split; [cbn; lia|]. intros [|j]; [reflexivity|]. cbn. apply H.
Qed.
Lemma wr_none : forall {A} (m : list A) i v, length m <= i -> wr m i v = None.
Proof.
  intros A m. induction m as [|x m IH]; intros i v Hi; [reflexivity|].
  destruct i as [|i]; cbn in Hi; [lia|]. cbn [wr]. rewrite IH by lia. reflexivity.
Qed.
Lemma rd_some : forall {A} (m : list A) i, i < length m -> exists v, rd m i = Some v.
Proof.
  intros A m i Hi. destruct (rd m i) as [v|] eqn:E; [now exists v|].
  apply nth_error_None in E. lia.
Qed.
Lemma rd_lt : forall {A} (m : list A) i v, rd m i = Some v -> i < length m.
Proof. intros A m i v H. apply nth_error_Some. unfold rd in H. congruence. Qed.
