(** C26: numbers stored by intervals: positions, reverse lookup, membership, iteration. *)
From Verif Require Import Prelude IenModel IenSpec IenProofs.
From Coq Require Import Sorting.Sorted.
Open Scope Z_scope.

Lemma adv l k : intervals l -> l <> [] -> 0 <= k <= total l -> exists it, advance (store l) (Z.to_nat k) (begin (store l)) = Some it /\ P l k it.
Proof.
  intros Hl Hn Hk. destruct (P_advance l Hl Hn (Z.to_nat k) 0 _ (P_begin l Hl Hn) ltac:(lia)) as (it & E & H). exists it. split; [auto|]. replace k with (0 + Z.of_nat (Z.to_nat k)) by lia. exact H.
Qed.
Lemma P_adv l k it : intervals l -> l <> [] -> P l k it -> advance (store l) (Z.to_nat k) (begin (store l)) = Some it.
Proof.
  intros Hl Hn H. pose proof (P_range l Hl Hn _ _ H). destruct (adv l k Hl Hn ltac:(lia)) as (it' & E & H'). rewrite E. f_equal. eapply P_unique; eauto.
Qed.
Lemma nth_total l n : intervals l -> l <> [] -> nth_error (elements l) n = None <-> total l <= Z.of_nat n.
Proof. intros Hl Hn. rewrite nth_error_None. pose proof (len_elements l Hl Hn). lia. Qed.

(** The elements are listed in increasing order *)
Theorem C26_increasing : forall l, intervals l -> StronglySorted Z.lt (elements l).
Proof.
  intros l Hl. destruct l as [|p t] eqn:El; [constructor|]. rewrite <- El in *. assert (Hn : l <> []) by (rewrite El; discriminate). clear El p t.
  pose proof (elements_sorted l Hl Hn) as H. revert H. generalize (elements l) as e. induction e as [|x e IH]; intros H; [constructor|]. constructor.
  - apply IH. intros i j a b Hij E1 E2. apply (H (S i) (S j)); auto. lia.
  - apply Forall_forall. intros y Hy. apply In_nth_error in Hy as (n & Hy). apply (H 0%nat (S n)); auto. lia.
Qed.
Print Assumptions C26_increasing.

(** size *)
Theorem C26_size : forall l, intervals l -> size (store l) = Some (Z.of_nat (length (elements l))).
Proof.
  intros l Hl. destruct l as [|p t] eqn:El; [reflexivity|]. rewrite <- El in *. assert (Hn : l <> []) by (rewrite El; discriminate). clear El p t.
  unfold size. rewrite (m_match l Hl Hn), (len_elements l Hl Hn). rewrite (P_diff l Hl Hn _ _ _ _ (P_end l Hl Hn) (P_begin l Hl Hn)). f_equal. lia.
Qed.
Print Assumptions C26_size.

(** Iteration from begin visits the elements in order, with their numbers, reaches end after the last one and not before *)
Theorem C26_iteration : forall l, intervals l ->
  (forall n v, nth_error (elements l) n = Some v -> exists it, advance (store l) n (begin (store l)) = Some it /\ deref (store l) it = Some (Z.of_nat n, v) /\ eq_it it (end_ (store l)) = false) /\
  advance (store l) (length (elements l)) (begin (store l)) = Some (end_ (store l)).
Proof.
  intros l Hl. destruct l as [|p t] eqn:El; [split; [intros [|n] v H; discriminate|reflexivity]|]. rewrite <- El in *. assert (Hn : l <> []) by (rewrite El; discriminate). clear El p t.
  pose proof (len_elements l Hl Hn) as HL. split.
  - intros n v E. assert (Hlt : (n < length (elements l))%nat) by (apply nth_error_Some; congruence).
    destruct (adv l (Z.of_nat n) Hl Hn ltac:(lia)) as (it & Ea & HP). rewrite Nat2Z.id in Ea. exists it. split; [auto|].
    destruct (P_deref l Hl Hn _ _ HP ltac:(lia)) as (w & Ed & En). rewrite Nat2Z.id in En. split; [rewrite Ed; congruence|].
    destruct (P_not_end l _ _ HP ltac:(lia)) as (i & j & v0 & len & -> & Ei & _). unfold eq_it, end_. rewrite (m_len l Hl Hn). cbn [m_it m_shift].
    assert (i < length l)%nat by (apply nth_error_Some; congruence). replace (i =? S (length l) - 1)%nat with false by (symmetry; apply Nat.eqb_neq; lia). reflexivity.
  - rewrite <- (Nat2Z.id (length (elements l))), HL. apply (P_adv l); auto. apply P_end; auto.
Qed.
Print Assumptions C26_iteration.

(** Stepping back undoes stepping forward *)
Theorem C26_back : forall l, intervals l -> forall n it, (n < length (elements l))%nat -> advance (store l) n (begin (store l)) = Some it ->
  exists it', incr (store l) it = Some it' /\ decr (store l) it' = Some it.
Proof.
  intros l Hl n it Hlt E. destruct l as [|p t] eqn:El; [cbn in Hlt; lia|]. rewrite <- El in *. assert (Hn : l <> []) by (rewrite El; discriminate). clear El p t.
  pose proof (len_elements l Hl Hn) as HL. destruct (adv l (Z.of_nat n) Hl Hn ltac:(lia)) as (it0 & Ea & HP). rewrite Nat2Z.id, E in Ea. injection Ea as <-.
  destruct (P_incr l Hl Hn _ _ HP ltac:(lia)) as (it' & E1 & P1). exists it'. split; [auto|].
  destruct (P_decr l Hl Hn _ _ P1 ltac:(lia)) as (it2 & E2 & P2). rewrite E2. f_equal. apply (P_unique l Hl Hn (Z.of_nat n)); [|auto].
  replace (Z.of_nat n) with (Z.of_nat n + 1 - 1) by lia. exact P2.
Qed.
Print Assumptions C26_back.

(** The iterator for a number is the one reached by that many steps; other numbers give end *)
Theorem C26_by_number : forall l, intervals l -> forall n,
  (forall v, 0 <= n -> nth_error (elements l) (Z.to_nat n) = Some v -> exists it, find_left (store l) n = Some it /\ advance (store l) (Z.to_nat n) (begin (store l)) = Some it /\ deref (store l) it = Some (n, v)) /\
  (n < 0 \/ Z.of_nat (length (elements l)) <= n -> find_left (store l) n = Some (end_ (store l))) /\
  contains_left (store l) n = Some ((0 <=? n) && (n <? Z.of_nat (length (elements l)))).
Proof.
  intros l Hl n. split; [|split].
  - intros v H0 E. destruct l as [|p t] eqn:El; [destruct (Z.to_nat n); discriminate|]. rewrite <- El in *. assert (Hn : l <> []) by (rewrite El; discriminate). clear El p t.
    assert (Hlt : (Z.to_nat n < length (elements l))%nat) by (apply nth_error_Some; congruence). pose proof (len_elements l Hl Hn).
    destruct (find_left_in l Hl Hn n ltac:(lia)) as (it & Ef & HP). exists it. split; [auto|]. split; [apply (P_adv l); auto|].
    destruct (P_deref l Hl Hn _ _ HP ltac:(lia)) as (w & Ed & En). rewrite Ed. congruence.
  - intros Ho. destruct l as [|p t] eqn:El; [reflexivity|]. rewrite <- El in *. assert (Hn : l <> []) by (rewrite El; discriminate). clear El p t.
    apply (find_left_out l Hl Hn). rewrite <- (len_elements l Hl Hn). lia.
  - unfold contains_left. rewrite (C26_size l Hl). reflexivity.
Qed.
Print Assumptions C26_by_number.

(** The iterator for an element inverts it; other values give end; membership *)
Theorem C26_by_value : forall l, intervals l -> forall x,
  (forall n, nth_error (elements l) n = Some x -> exists it, find_right (store l) x = Some it /\ find_left (store l) (Z.of_nat n) = Some it /\ deref (store l) it = Some (Z.of_nat n, x)) /\
  (~ In x (elements l) -> find_right (store l) x = Some (end_ (store l))) /\
  exists b, contains_right (store l) x = Some b /\ (b = true <-> In x (elements l)).
Proof.
  intros l Hl x. destruct l as [|p t] eqn:El.
  { split; [intros [|n]; discriminate|]. split; [reflexivity|]. exists false. split; [reflexivity|]. split; [discriminate|intros []]. }
  rewrite <- El in *. assert (Hn : l <> []) by (rewrite El; discriminate). clear El p t. pose proof (len_elements l Hl Hn) as HL.
  assert (H1 : forall n, nth_error (elements l) n = Some x -> exists it, find_right (store l) x = Some it /\ P l (Z.of_nat n) it /\ (n < length (elements l))%nat).
  { intros n E. assert (Hlt : (n < length (elements l))%nat) by (apply nth_error_Some; congruence).
    destruct (find_right_in l Hl Hn x (nth_error_In _ _ E)) as (k & it & Ef & HP & Hk & En). exists it. split; [auto|]. split; [|auto].
    assert (Z.to_nat k = n).
    { destruct (Nat.lt_trichotomy (Z.to_nat k) n) as [C|[C|C]]; [|auto|]; exfalso.
      - pose proof (elements_sorted l Hl Hn _ _ _ _ C En E). lia.
      - pose proof (elements_sorted l Hl Hn _ _ _ _ C E En). lia. }
    replace (Z.of_nat n) with k by lia. exact HP. }
  split; [|split].
  - intros n E. destruct (H1 n E) as (it & Ef & HP & Hlt). exists it. split; [auto|]. destruct (find_left_in l Hl Hn (Z.of_nat n) ltac:(lia)) as (it' & Ef' & HP').
    split; [rewrite Ef'; f_equal; eapply P_unique; eauto|]. destruct (P_deref l Hl Hn _ _ HP ltac:(lia)) as (w & Ed & En). rewrite Nat2Z.id in En. rewrite Ed. congruence.
  - apply (find_right_out l Hl Hn).
  - unfold contains_right. destruct (in_dec Z.eq_dec x (elements l)) as [Hi|Hi].
    + pose proof Hi as Hi'. apply In_nth_error in Hi' as (n & En). destruct (H1 n En) as (it & Ef & HP & Hlt). rewrite Ef. cbn [obind]. eexists. split; [reflexivity|]. split; [auto|intros _].
      destruct (P_not_end l _ _ HP ltac:(lia)) as (i & j & v0 & len & -> & Ei & _). unfold eq_it, end_. rewrite (m_len l Hl Hn). cbn [m_it m_shift].
      assert (i < length l)%nat by (apply nth_error_Some; congruence). replace (i =? S (length l) - 1)%nat with false by (symmetry; apply Nat.eqb_neq; lia). reflexivity.
    + rewrite (find_right_out l Hl Hn x Hi). cbn [obind]. eexists. split; [reflexivity|]. unfold eq_it. rewrite Nat.eqb_refl, Z.eqb_refl. cbn. split; [discriminate|tauto].
Qed.
Print Assumptions C26_by_value.

(** The first element not less than x, greater than x; the first number not less than n, greater than n.
    The position is the number of smaller elements. *)
Definition below (l : list Z) (x : Z) : nat := length (filter (fun y => y <? x) l).
Lemma below_sorted e : forall k x, StronglySorted Z.lt e -> (forall j y, (j < k)%nat -> nth_error e j = Some y -> y < x) -> (forall y, nth_error e k = Some y -> x <= y) -> (k <= length e)%nat -> below e x = k.
Proof.
  unfold below. induction e as [|a e IH]; intros k x HS H1 H2 Hk; [cbn in *; lia|]. inversion_clear HS as [|? ? HS' HF]. cbn [filter]. destruct k as [|k].
  - specialize (H2 a eq_refl). replace (a <? x) with false by (symmetry; apply Z.ltb_ge; lia). apply IH; auto; [lia| |lia]. intros y Ey. rewrite Forall_forall in HF. pose proof (HF y (nth_error_In _ _ Ey)). lia.
  - assert (a < x) by (apply (H1 0%nat); [lia|reflexivity]). replace (a <? x) with true by (symmetry; apply Z.ltb_lt; lia). cbn [length]. f_equal. apply IH; auto; [|cbn in Hk; lia]. intros j y Hj Ey. apply (H1 (S j)); [lia|auto].
Qed.
Theorem C26_bounds : forall l, intervals l -> forall x,
  lower_bound_right (store l) x = advance (store l) (below (elements l) x) (begin (store l)) /\
  upper_bound_right (store l) x = advance (store l) (below (elements l) (x + 1)) (begin (store l)) /\
  lower_bound_left (store l) x = advance (store l) (Nat.min (Z.to_nat x) (length (elements l))) (begin (store l)) /\
  upper_bound_left (store l) x = advance (store l) (Nat.min (Z.to_nat (x + 1)) (length (elements l))) (begin (store l)).
Proof.
  intros l Hl. assert (H : forall x, lower_bound_right (store l) x = advance (store l) (below (elements l) x) (begin (store l)) /\ lower_bound_left (store l) x = advance (store l) (Nat.min (Z.to_nat x) (length (elements l))) (begin (store l))).
  { destruct l as [|p t] eqn:El.
    { intros x. split; [reflexivity|]. unfold lower_bound_left. destruct (x <? 0); cbn; rewrite Nat.min_0_r; reflexivity. }
    rewrite <- El in *. assert (Hn : l <> []) by (rewrite El; discriminate). clear El p t. pose proof (len_elements l Hl Hn) as HL. intros x. split.
    - destruct (lower_bound_right_spec l Hl Hn x) as (k & it & E & HP & H1 & H2). pose proof (P_range l Hl Hn _ _ HP). rewrite E. symmetry.
      replace (below (elements l) x) with (Z.to_nat k); [apply (P_adv l); auto|]. symmetry. apply below_sorted; [apply C26_increasing; auto| |exact H2|lia].
      intros j y Hj Ey. apply (H1 (Z.of_nat j)); [lia|rewrite Nat2Z.id; auto].
    - unfold lower_bound_left. destruct (Z.ltb_spec x 0) as [Hx|Hx]; [replace (Z.to_nat x) with 0%nat by lia; reflexivity|].
      destruct (Z_lt_ge_dec x (total l)) as [Hc|Hc].
      + destruct (find_left_in l Hl Hn x ltac:(lia)) as (it & E & HP). rewrite E. symmetry. rewrite Nat.min_l by lia. apply (P_adv l); auto.
      + rewrite (find_left_out l Hl Hn x ltac:(lia)). symmetry. rewrite Nat.min_r by lia. apply (proj2 (C26_iteration l Hl)). }
  intros x. destruct (H x), (H (x + 1)). auto.
Qed.
Print Assumptions C26_bounds.

(** Comparison and distance of iterators are those of the positions *)
Theorem C26_order : forall l, intervals l -> l <> [] -> forall a b i j, (a <= length (elements l))%nat -> (b <= length (elements l))%nat ->
  advance (store l) a (begin (store l)) = Some i -> advance (store l) b (begin (store l)) = Some j ->
  (lt_it i j = true <-> (a < b)%nat) /\ (eq_it i j = true <-> a = b) /\ diff (store l) i j = Some (Z.of_nat a - Z.of_nat b).
Proof.
  intros l Hl Hn a b i j Ha Hb Ei Ej. pose proof (len_elements l Hl Hn) as HL.
  destruct (adv l (Z.of_nat a) Hl Hn ltac:(lia)) as (i' & Ei' & Pi). rewrite Nat2Z.id, Ei in Ei'. injection Ei' as <-.
  destruct (adv l (Z.of_nat b) Hl Hn ltac:(lia)) as (j' & Ej' & Pj). rewrite Nat2Z.id, Ej in Ej'. injection Ej' as <-.
  split; [|split].
  - rewrite (P_lt l Hl Hn _ _ _ _ Pi Pj). lia.
  - split.
    + intros E. unfold eq_it in E. apply andb_true_iff in E as (E1 & E2). apply Nat.eqb_eq in E1. apply Z.eqb_eq in E2.
      pose proof (P_diff l Hl Hn _ _ _ _ Pi Pj) as D. pose proof (P_diff l Hl Hn _ _ _ _ Pi Pi) as D'. unfold diff in D, D'. rewrite <- E1, <- E2 in D. rewrite D in D'. injection D' as D'. lia.
    + intros <-. assert (i = j) by congruence. subst. unfold eq_it. rewrite Nat.eqb_refl, Z.eqb_refl. reflexivity.
  - apply (P_diff l Hl Hn); auto.
Qed.
Print Assumptions C26_order.

(** Witness: {3, 4, 10, 12, 13, 14} with touching intervals *)
Definition demo : list (Z * Z) := [(3, 2); (10, 1); (12, 2); (14, 1)].
Example demo_ok : intervals demo /\ elements demo = [3; 4; 10; 12; 13; 14] /\ store demo = [(0, 3); (2, 10); (3, 12); (5, 14); (6, 15)].
Proof. repeat split; lia. Qed.
Example demo_find : (do i <- find_right (store demo) 13; deref (store demo) i) = Some (4, 13) /\ (do i <- find_left (store demo) 5; deref (store demo) i) = Some (5, 14) /\ contains_right (store demo) 11 = Some false.
Proof. repeat split. Qed.
