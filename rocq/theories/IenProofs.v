(** Numbers stored by intervals: positions, lookup, iteration. *)
From Verif Require Import Prelude IenModel IenSpec.
From Coq Require Import Sorting.Sorted.
Open Scope Z_scope.

Definition total (l : list (Z * Z)) : Z := fold_right (fun p t => snd p + t) 0 l.
Definition T (l : list (Z * Z)) (i : nat) : Z := total (firstn i l).
Lemma total_app a b : total (a ++ b) = total a + total b.
Proof. unfold total. induction a as [|x a IH]; cbn; [reflexivity|]. rewrite IH. lia. Qed.
Lemma nth_firstn_S {A} (l : list A) i x : nth_error l i = Some x -> firstn (S i) l = firstn i l ++ [x].
Proof. revert l. induction i as [|i IH]; intros [|y l] H; try discriminate; cbn in *; [congruence|]. f_equal. apply IH, H. Qed.
Lemma T_S l i v len : nth_error l i = Some (v, len) -> T l (S i) = T l i + len.
Proof. intros H. unfold T. rewrite (nth_firstn_S _ _ _ H), total_app. cbn. lia. Qed.
Lemma T_0 l : T l 0 = 0.
Proof. reflexivity. Qed.
Lemma T_len l : T l (length l) = total l.
Proof. unfold T. rewrite firstn_all. reflexivity. Qed.

Section Inv.
Variable l : list (Z * Z).
Hypothesis Hl : intervals l.
Hypothesis Hne : l <> [].

Lemma sorted_from_pos lo i v len : forall l, sorted_from lo l -> nth_error l i = Some (v, len) -> 0 < len /\ lo <= v.
Proof.
  intros l0. revert l0 lo. induction i as [|i IH]; intros [|(a, b) t] lo H E; try discriminate; cbn in *; destruct H as (H1 & H2 & H3).
  - injection E as <- <-. auto.
  - destruct (IH t (a + b) H3 E). lia.
Qed.
Lemma sorted_from_order lo : forall l i j v len w z, sorted_from lo l -> (i < j)%nat -> nth_error l i = Some (v, len) -> nth_error l j = Some (w, z) -> v + len <= w.
Proof.
  intros l0 i j. revert l0 lo j. induction i as [|i IH]; intros [|(a, b) t] lo j v len w z H Hij E1 E2; try discriminate; destruct j as [|j]; try lia; cbn in *; destruct H as (H1 & H2 & H3).
  - injection E1 as <- <-. destruct (sorted_from_pos _ _ _ _ _ H3 E2). lia.
  - apply (IH t (a + b) j v len w z); auto. lia.
Qed.
Lemma sorted_l : exists lo, sorted_from lo l.
Proof. unfold intervals in Hl. destruct l as [|(v, len) t]; [congruence|eauto]. Qed.
Lemma len_pos i v len : nth_error l i = Some (v, len) -> 0 < len.
Proof. destruct sorted_l as (lo & H). intros E. apply (sorted_from_pos _ _ _ _ _ H E). Qed.
Lemma order i j v len w z : (i < j)%nat -> nth_error l i = Some (v, len) -> nth_error l j = Some (w, z) -> v + len <= w.
Proof. destruct sorted_l as (lo & H). intros. eapply sorted_from_order; eauto. Qed.

(** The storage *)
Definition last_v : Z := match rev l with (v, len) :: _ => v + len | [] => 0 end.
Lemma store_from_len n l0 last : length (store_from n l0 last) = S (length l0).
Proof. revert n last. induction l0 as [|(v, len) t IH]; intros; cbn; [reflexivity|]. rewrite IH. reflexivity. Qed.
Lemma store_from_nth l0 : forall n last i v len, nth_error l0 i = Some (v, len) -> nth_error (store_from n l0 last) i = Some (n + T l0 i, v).
Proof.
  induction l0 as [|(a, b) t IH]; intros n last [|i] v len H; try discriminate; cbn in *.
  - injection H as <- <-. unfold T; cbn. f_equal. f_equal. lia.
  - rewrite (IH _ _ _ _ _ H). unfold T. cbn. f_equal. f_equal. unfold total; lia.
Qed.
Lemma store_from_last l0 : forall n last, nth_error (store_from n l0 last) (length l0) = Some (n + total l0, match rev l0 with (v, len) :: _ => v + len | [] => last end).
Proof.
  induction l0 as [|(a, b) t IH]; intros n last; cbn [store_from length nth_error].
  - cbn. f_equal. f_equal. lia.
  - rewrite IH. cbn [total fold_right snd rev]. f_equal. f_equal; [unfold total; lia|].
    destruct (rev t) as [|(c, d) r] eqn:E; reflexivity.
Qed.
Notation m := (store l).
Notation N := (length l).
Lemma m_eq : m = store_from 0 l 0.
Proof. unfold store. destruct l; [congruence|reflexivity]. Qed.
Lemma m_len : length m = S N.
Proof. rewrite m_eq. apply store_from_len. Qed.
Lemma m_match {A} (a b : A) : match m with [] => a | _ :: _ => b end = b.
Proof. pose proof m_len as H. destruct m; [discriminate|reflexivity]. Qed.
Lemma m_nth i v len : nth_error l i = Some (v, len) -> nth_error m i = Some (T l i, v).
Proof. intros H. rewrite m_eq, (store_from_nth _ _ _ _ _ _ H). reflexivity. Qed.
Lemma m_last : nth_error m N = Some (total l, last_v).
Proof. rewrite m_eq, store_from_last. unfold last_v. destruct (rev l) as [|(v, len) t] eqn:E; [|reflexivity]. apply (f_equal (@rev _)) in E. rewrite rev_involutive in E. contradiction. Qed.
Lemma m_fst i : (i <= N)%nat -> exists v, nth_error m i = Some (T l i, v).
Proof.
  intros H. destruct (nth_error l i) as [(v, len)|] eqn:E; [rewrite (m_nth _ _ _ E); eauto|]. apply nth_error_None in E. replace i with N by lia.
  rewrite m_last, T_len. eauto.
Qed.
Lemma T_incr i j : (i < j <= N)%nat -> T l i < T l j.
Proof.
  intros (H1 & H2). induction j as [|j IH]; [lia|]. destruct (nth_error l j) as [(v, len)|] eqn:E; [|apply nth_error_None in E; lia].
  rewrite (T_S _ _ _ _ E). pose proof (len_pos _ _ _ E). destruct (Nat.eq_dec i j) as [->|?]; [lia|]. assert (T l i < T l j) by (apply IH; lia). lia.
Qed.
Lemma T_nonneg i : (i <= N)%nat -> 0 <= T l i.
Proof. intros H. destruct i; [rewrite T_0; lia|]. pose proof (T_incr 0 (S i) ltac:(lia)). rewrite T_0 in *. lia. Qed.
Lemma last_v_bound i v len : nth_error l i = Some (v, len) -> v + len <= last_v.
Proof.
  intros H. unfold last_v. destruct (rev l) as [|(w, z) t] eqn:E.
  - apply (f_equal (@rev _)) in E. rewrite rev_involutive in E. cbn in E. contradiction.
  - apply (f_equal (@rev _)) in E. rewrite rev_involutive in E. cbn in E.
    assert (Ew : nth_error l (length (rev t)) = Some (w, z)) by (rewrite E, nth_error_app2, Nat.sub_diag; [reflexivity|lia]).
    assert (Hi : (i < N)%nat) by (apply nth_error_Some; congruence). rewrite E, app_length in Hi. cbn in Hi.
    destruct (Nat.eq_dec i (length (rev t))) as [->|Hn]; [rewrite H in Ew; injection Ew as -> ->; lia|].
    pose proof (order i (length (rev t)) v len w z ltac:(lia) H Ew). pose proof (len_pos _ _ _ Ew). lia.
Qed.
Lemma last_v_eq i v len : nth_error l i = Some (v, len) -> S i = N -> last_v = v + len.
Proof.
  intros H Hi. unfold last_v. destruct (rev l) as [|(w, z) t] eqn:E.
  - apply (f_equal (@rev _)) in E. rewrite rev_involutive in E. cbn in E. contradiction.
  - apply (f_equal (@rev _)) in E. rewrite rev_involutive in E. cbn in E. rewrite E, app_length in Hi. cbn in Hi. rewrite E, nth_error_app2 in H by lia.
    replace (i - length (rev t))%nat with 0%nat in H by lia. cbn in H. congruence.
Qed.

(** Iterators at a position *)
Definition P (k : Z) (it : iter) : Prop := exists i j, it = It i N j /\
  ((exists v len, nth_error l i = Some (v, len) /\ 0 <= j < len /\ k = T l i + j) \/ (i = N /\ j = 0 /\ k = T l i)).
Lemma P_unique k a b : P k a -> P k b -> a = b.
Proof.
  assert (H : forall i j i' j', (i < i' <= N)%nat -> (exists v len, nth_error l i = Some (v, len) /\ 0 <= j < len) -> 0 <= j' -> T l i + j < T l i' + j').
  { intros i j i' j' Hi (v & len & E & Hj) Hj'. pose proof (T_S _ _ _ _ E). destruct (Nat.eq_dec (S i) i') as [<-|?]; [lia|]. pose proof (T_incr (S i) i' ltac:(lia)). lia. }
  intros (i & j & -> & Ha) (i' & j' & -> & Hb).
  assert (Hi : (i <= N)%nat) by (destruct Ha as [(v & len & E & _)|(-> & _)]; [|lia]; assert (i < N)%nat by (apply nth_error_Some; congruence); lia).
  assert (Hi' : (i' <= N)%nat) by (destruct Hb as [(v & len & E & _)|(-> & _)]; [|lia]; assert (i' < N)%nat by (apply nth_error_Some; congruence); lia).
  assert (Hj : 0 <= j) by (destruct Ha as [(? & ? & _ & ? & _)|(_ & -> & _)]; lia).
  assert (Hj' : 0 <= j') by (destruct Hb as [(? & ? & _ & ? & _)|(_ & -> & _)]; lia).
  assert (Hk : T l i + j = T l i' + j') by (destruct Ha as [(? & ? & _ & _ & ?)|(_ & -> & ?)]; destruct Hb as [(? & ? & _ & _ & ?)|(_ & -> & ?)]; lia).
  assert (i = i').
  { destruct (Nat.lt_trichotomy i i') as [C|[C|C]]; [|auto|].
    - destruct Ha as [(v & len & E & Hj0 & _)|(-> & _)]; [|lia]. assert (T l i + j < T l i' + j') by (apply H; eauto; lia). lia.
    - destruct Hb as [(v & len & E & Hj0 & _)|(-> & _)]; [|lia]. assert (T l i' + j' < T l i + j) by (apply H; eauto; lia). lia. }
  subst i'. f_equal. lia.
Qed.
Lemma first_ex : exists v len, nth_error l 0 = Some (v, len).
Proof. clear Hl. destruct l as [|(v, len) t]; [contradiction|]. exists v, len. reflexivity. Qed.
Lemma P_begin : P 0 (begin m).
Proof.
  exists O, 0. unfold begin. rewrite m_len. replace (S N - 1)%nat with N by lia. split; [reflexivity|]. left.
  destruct first_ex as (v & len & E). exists v, len. split; [auto|]. rewrite T_0. pose proof (len_pos _ _ _ E). lia.
Qed.
Lemma P_end : P (total l) (end_ m).
Proof. exists N, 0. unfold end_. rewrite m_len. replace (S N - 1)%nat with N by lia. split; [reflexivity|]. right. rewrite T_len. auto. Qed.
Lemma P_range k it : P k it -> 0 <= k <= total l.
Proof.
  intros (i & j & _ & H). rewrite <- T_len. destruct H as [(v & len & E & Hj & ->)|(-> & -> & ->)].
  - assert (i < N)%nat by (apply nth_error_Some; congruence). pose proof (T_nonneg i ltac:(lia)). pose proof (T_S _ _ _ _ E).
    destruct (Nat.eq_dec (S i) N) as [<-|?]; [lia|]. pose proof (T_incr (S i) N ltac:(lia)). lia.
  - pose proof (T_nonneg N ltac:(lia)). lia.
Qed.
Lemma P_not_end k it : P k it -> k < total l -> exists i j v len, it = It i N j /\ nth_error l i = Some (v, len) /\ 0 <= j < len /\ k = T l i + j.
Proof. intros (i & j & -> & [(v & len & E & Hj & ->)|(-> & -> & ->)]) Hk; [exists i, j, v, len; auto|rewrite T_len in Hk; lia]. Qed.
Lemma P_incr k it : P k it -> k < total l -> exists it', incr m it = Some it' /\ P (k + 1) it'.
Proof.
  intros HP Hk. destruct (P_not_end _ _ HP Hk) as (i & j & v & len & -> & E & Hj & ->). assert (Hi : (i < N)%nat) by (apply nth_error_Some; congruence).
  unfold incr. cbn [m_it m_end m_shift]. replace (i =? N)%nat with false by (symmetry; apply Nat.eqb_neq; lia). cbn [negb].
  destruct (m_fst (S i) ltac:(lia)) as (w & Ew). rewrite (m_nth _ _ _ E), Ew. cbn [obind fst]. rewrite (T_S _ _ _ _ E).
  replace (T l i + len - T l i) with len by lia. eexists. split; [reflexivity|]. destruct (Z.ltb_spec (j + 1) len) as [H|H].
  - exists i, (j + 1). split; [reflexivity|]. left. exists v, len. split; [auto|]. lia.
  - exists (S i), 0. split; [reflexivity|]. assert (Ek : T l i + j + 1 = T l (S i)) by (rewrite (T_S _ _ _ _ E); lia). rewrite Ek.
    destruct (nth_error l (S i)) as [(v', len')|] eqn:E'.
    + left. exists v', len'. split; [auto|]. pose proof (len_pos _ _ _ E'). lia.
    + right. apply nth_error_None in E'. split; [lia|]. split; [reflexivity|]. reflexivity.
Qed.
Lemma P_decr k it : P k it -> 0 < k -> exists it', decr m it = Some it' /\ P (k - 1) it'.
Proof.
  intros HP Hk. pose proof HP as (i & j & -> & H).
  assert (Hj : 0 <= j) by (destruct H as [(? & ? & _ & ? & _)|(_ & -> & _)]; lia).
  unfold decr. cbn [m_it m_end m_shift]. destruct (Z.ltb_spec 0 j) as [H0|H0].
  - eexists. split; [reflexivity|]. destruct H as [(v & len & E & Hl0 & ->)|(_ & -> & _)]; [|lia]. exists i, (j - 1). split; [reflexivity|]. left. exists v, len. split; [auto|]. lia.
  - assert (j = 0) by lia. subst j. assert (Ek : k = T l i) by (destruct H as [(? & ? & _ & _ & ?)|(_ & _ & ?)]; lia).
    assert (Hi : (i <= N)%nat) by (destruct H as [(v & len & E & _)|(-> & _)]; [|lia]; assert (i < N)%nat by (apply nth_error_Some; congruence); lia).
    destruct i as [|p]; [rewrite T_0 in Ek; lia|]. destruct (nth_error l p) as [(v, len)|] eqn:E; [|apply nth_error_None in E; lia].
    destruct (m_fst (S p) Hi) as (w & Ew). rewrite (m_nth _ _ _ E), Ew. cbn [obind fst]. eexists. split; [reflexivity|].
    rewrite (T_S _ _ _ _ E) in *. exists p, (T l p + len - 1 - T l p). split; [reflexivity|]. left. exists v, len. split; [auto|]. pose proof (len_pos _ _ _ E). lia.
Qed.
Lemma P_advance n : forall k it, P k it -> k + Z.of_nat n <= total l -> exists it', advance m n it = Some it' /\ P (k + Z.of_nat n) it'.
Proof.
  induction n as [|n IH]; intros k it HP Hk.
  - exists it. split; [reflexivity|]. replace (k + Z.of_nat 0) with k by lia. exact HP.
  - destruct (P_incr k it HP ltac:(lia)) as (it1 & E1 & P1). destruct (IH (k + 1) it1 P1 ltac:(lia)) as (it2 & E2 & P2).
    exists it2. cbn [advance]. rewrite E1. cbn [obind]. split; [exact E2|]. replace (k + Z.of_nat (S n)) with (k + 1 + Z.of_nat n) by lia. exact P2.
Qed.

(** Elements *)
Lemma elements_len l0 : (forall v len, In (v, len) l0 -> 0 <= len) -> Z.of_nat (length (elements l0)) = total l0.
Proof.
  induction l0 as [|(v, len) t IH]; intros H; [reflexivity|]. unfold elements in *. cbn [flat_map total fold_right snd]. rewrite app_length, map_length, seq_length, Nat2Z.inj_add.
  fold (total t). rewrite <- IH; [|intros; eapply H; right; eauto]. rewrite Z2Nat.id; [reflexivity|]. eapply H. left. reflexivity.
Qed.
Lemma elements_nth : forall l0 i v len j, (forall v len, In (v, len) l0 -> 0 <= len) -> nth_error l0 i = Some (v, len) -> 0 <= j < len -> nth_error (elements l0) (Z.to_nat (T l0 i + j)) = Some (v + j).
Proof.
  induction l0 as [|(a, b) t IH]; intros [|i] v len j Hp E Hj; try discriminate; cbn [nth_error] in E.
  - injection E as <- <-. unfold T, elements. cbn [firstn total fold_right flat_map]. rewrite nth_error_app1 by (rewrite map_length, seq_length; lia).
    rewrite nth_error_map, nth_error_nth' with (d := O) by (rewrite seq_length; lia). rewrite seq_nth by lia. cbn. f_equal. lia.
  - pose proof (Hp a b (or_introl eq_refl)). assert (Hp' : forall v len, In (v, len) t -> 0 <= len) by (intros; eapply Hp; right; eauto).
    assert (HT : 0 <= T t i).
    { unfold T. clear -Hp'. revert i. induction t as [|(c, d) t IH]; intros [|i]; cbn; try lia. pose proof (Hp' c d (or_introl eq_refl)). assert (0 <= total (firstn i t)); [apply IH; intros; eapply Hp'; right; eauto|]. unfold total in *. lia. }
    unfold T, elements. cbn [firstn total fold_right flat_map snd]. change (fold_right (fun p t => snd p + t) 0 (firstn i t)) with (T t i).
    rewrite nth_error_app2 by (rewrite map_length, seq_length; lia). rewrite map_length, seq_length.
    replace (Z.to_nat (b + T t i + j) - Z.to_nat b)%nat with (Z.to_nat (T t i + j)) by lia. apply (IH i v len j); auto.
Qed.
Lemma pos_all v len : In (v, len) l -> 0 <= len.
Proof. intros H. apply In_nth_error in H as (i & H). pose proof (len_pos _ _ _ H). lia. Qed.
Lemma len_elements : Z.of_nat (length (elements l)) = total l.
Proof. apply elements_len, pos_all. Qed.
Lemma P_deref k it : P k it -> k < total l -> exists v, deref m it = Some (k, v) /\ nth_error (elements l) (Z.to_nat k) = Some v.
Proof.
  intros HP Hk. destruct (P_not_end _ _ HP Hk) as (i & j & v & len & -> & E & Hj & ->). exists (v + j). unfold deref. cbn [m_it m_shift]. rewrite (m_nth _ _ _ E). cbn. split; [reflexivity|].
  apply (elements_nth l i v len j pos_all E Hj).
Qed.
Lemma in_elements x : In x (elements l) <-> exists i v len, nth_error l i = Some (v, len) /\ v <= x < v + len.
Proof.
  unfold elements. rewrite in_flat_map. split.
  - intros ((v, len) & H1 & H2). apply In_nth_error in H1 as (i & H1). apply in_map_iff in H2 as (j & <- & H2). apply in_seq in H2. exists i, v, len. split; [auto|]. pose proof (len_pos _ _ _ H1). lia.
  - intros (i & v & len & H1 & H2). exists (v, len). split; [eapply nth_error_In; eauto|]. apply in_map_iff. exists (Z.to_nat (x - v)). split; [lia|]. apply in_seq. lia.
Qed.
Lemma P_exists k : 0 <= k <= total l -> exists it, P k it.
Proof.
  intros Hk. destruct (P_advance (Z.to_nat k) 0 (begin m) P_begin ltac:(lia)) as (it & _ & H). exists it. replace k with (0 + Z.of_nat (Z.to_nat k)) by lia. exact H.
Qed.

(** Search *)
Lemma ub_left_spec m0 x : (ub_left m0 x <= length m0)%nat /\ (forall i a, (i < ub_left m0 x)%nat -> nth_error m0 i = Some a -> fst a <= x) /\ (forall a, nth_error m0 (ub_left m0 x) = Some a -> x < fst a).
Proof.
  induction m0 as [|b r (H1 & H2 & H3)]; cbn [ub_left length]; [repeat split; auto; [lia|discriminate]|]. destruct (Z.ltb_spec x (fst b)).
  - split; [lia|]. split; [lia|]. intros a E. injection E as <-. auto.
  - split; [lia|]. split; [|exact H3]. intros [|i] a Hi E; [injection E as <-; auto|]. apply (H2 i); auto. lia.
Qed.
Lemma ub_right_spec m0 x : (ub_right m0 x <= length m0)%nat /\ (forall i a, (i < ub_right m0 x)%nat -> nth_error m0 i = Some a -> snd a <= x) /\ (forall a, nth_error m0 (ub_right m0 x) = Some a -> x < snd a).
Proof.
  induction m0 as [|b r (H1 & H2 & H3)]; cbn [ub_right length]; [repeat split; auto; [lia|discriminate]|]. destruct (Z.ltb_spec x (snd b)).
  - split; [lia|]. split; [lia|]. intros a E. injection E as <-. auto.
  - split; [lia|]. split; [|exact H3]. intros [|i] a Hi E; [injection E as <-; auto|]. apply (H2 i); auto. lia.
Qed.
Lemma find_left_in k : 0 <= k < total l -> exists it, find_left m k = Some it /\ P k it.
Proof.
  intros Hk. unfold find_left. rewrite m_match.
  destruct (ub_left_spec m k) as (U1 & U2 & U3). set (u := ub_left m k) in *. rewrite m_len in *.
  assert (Hu0 : u <> 0%nat). { intros E. destruct (m_fst 0 ltac:(lia)) as (v & Ev). rewrite E in U3. specialize (U3 _ Ev). cbn in U3. lia. }
  assert (HuN : u <> S N). { intros E. assert (H : fst (total l, last_v) <= k) by (apply (U2 N); [lia|apply m_last]). cbn in H. lia. }
  replace (u =? 0)%nat with false by (symmetry; apply Nat.eqb_neq; auto). replace (u =? S N)%nat with false by (symmetry; apply Nat.eqb_neq; auto). cbn [orb].
  destruct (nth_error l (u - 1)) as [(v, len)|] eqn:E; [|apply nth_error_None in E; lia]. pose proof (m_nth _ _ _ E) as Em. rewrite Em. cbn [obind fst].
  eexists. split; [reflexivity|]. replace (S N - 1)%nat with N by lia. exists (u - 1)%nat, (k - T l (u - 1)). split; [reflexivity|]. left. exists v, len. split; [auto|].
  destruct (m_fst u ltac:(lia)) as (w & Ew). specialize (U3 _ Ew). cbn in U3. replace u with (S (u - 1)) in U3 by lia. rewrite (T_S _ _ _ _ E) in U3.
  assert (H1 : fst (T l (u - 1), v) <= k) by (apply (U2 (u - 1)%nat); [lia|auto]). cbn in H1. lia.
Qed.
Lemma find_left_out k : k < 0 \/ total l <= k -> find_left m k = Some (end_ m).
Proof.
  intros Hk. unfold find_left. rewrite m_match.
  destruct (ub_left_spec m k) as (U1 & U2 & U3). set (u := ub_left m k) in *. rewrite m_len in *.
  assert (Hu : u = 0%nat \/ u = S N).
  { destruct Hk as [Hk|Hk].
    - left. destruct u; [reflexivity|]. destruct (m_fst 0 ltac:(lia)) as (v & Ev). assert (H : fst (T l 0, v) <= k) by (apply (U2 0%nat); [lia|auto]). rewrite T_0 in H. cbn in H. lia.
    - right. destruct (Nat.eq_dec u (S N)); [auto|]. exfalso. destruct (m_fst u ltac:(lia)) as (v & Ev). specialize (U3 _ Ev). cbn in U3.
      destruct (Nat.eq_dec u N) as [E|?]; [rewrite E, T_len in U3; lia|]. pose proof (T_incr u N ltac:(lia)). rewrite T_len in *. lia. }
  destruct Hu as [->| ->]; [reflexivity|]. rewrite Nat.eqb_refl, orb_true_r. reflexivity.
Qed.
(** Where a value falls *)
Lemma right_cases x : (ub_right m x = 0%nat /\ forall i v len, nth_error l i = Some (v, len) -> x < v) \/
  (ub_right m x = S N /\ last_v <= x) \/
  (exists i v len, ub_right m x = S i /\ (i < N)%nat /\ nth_error l i = Some (v, len) /\ v <= x /\ forall j w z, (i < j)%nat -> nth_error l j = Some (w, z) -> x < w).
Proof.
  destruct (ub_right_spec m x) as (U1 & U2 & U3). set (u := ub_right m x) in *. rewrite m_len in *.
  destruct (Nat.eq_dec u 0) as [E|E0]; [left|right; destruct (Nat.eq_dec u (S N)) as [E|E1]; [left|right]].
  - split; [auto|]. intros i v len H. destruct first_ex as (v0 & len0 & E2).
    rewrite E in U3. specialize (U3 _ (m_nth _ _ _ E2)). cbn in U3. destruct i as [|i]; [rewrite E2 in H; injection H as <- <-; auto|].
    pose proof (order 0 (S i) v0 len0 v len ltac:(lia) E2 H). pose proof (len_pos _ _ _ E2). lia.
  - split; [auto|]. assert (H : snd (total l, last_v) <= x) by (apply (U2 N); [lia|apply m_last]). exact H.
  - exists (u - 1)%nat. destruct (nth_error l (u - 1)) as [(v, len)|] eqn:E; [|apply nth_error_None in E; lia]. exists v, len.
    split; [lia|]. split; [lia|]. split; [auto|]. split.
    + assert (H : snd (T l (u - 1), v) <= x) by (apply (U2 (u - 1)%nat); [lia|exact (m_nth _ _ _ E)]). exact H.
    + intros j w z Hj Ej. assert (HjN : (j < N)%nat) by (apply nth_error_Some; congruence).
      destruct (nth_error l u) as [(vu, lu)|] eqn:Eu; [|apply nth_error_None in Eu; lia]. specialize (U3 _ (m_nth _ _ _ Eu)). cbn in U3.
      destruct (Nat.eq_dec j u) as [->|?]; [rewrite Eu in Ej; injection Ej as <- <-; auto|].
      pose proof (order u j vu lu w z ltac:(lia) Eu Ej). pose proof (len_pos _ _ _ Eu). lia.
Qed.
Lemma find_right_in x : In x (elements l) -> exists k it, find_right m x = Some it /\ P k it /\ 0 <= k < total l /\ nth_error (elements l) (Z.to_nat k) = Some x.
Proof.
  intros Hx. apply in_elements in Hx as (i & v & len & E & Hx). assert (Hi : (i < N)%nat) by (apply nth_error_Some; congruence).
  assert (Hu : ub_right m x = S i).
  { destruct (right_cases x) as [(_ & H)|[(_ & H)|(i' & v' & len' & Hu & Hi' & E' & Hv' & H)]].
    - specialize (H _ _ _ E). lia.
    - pose proof (last_v_bound _ _ _ E). lia.
    - rewrite Hu. f_equal. destruct (Nat.lt_trichotomy i i') as [C|[C|C]]; [|auto|].
      + pose proof (order _ _ _ _ _ _ C E E'). lia.
      + specialize (H _ _ _ C E). lia. }
  assert (HP : P (T l i + (x - v)) (It i N (x - v))).
  { exists i, (x - v). split; [reflexivity|]. left. exists v, len. split; [auto|]. lia. }
  exists (T l i + (x - v)), (It i N (x - v)). split; [|split; [auto|]].
  - unfold find_right. rewrite m_match.
    rewrite Hu, m_len. cbn [Nat.eqb orb]. replace (i =? N)%nat with false by (symmetry; apply Nat.eqb_neq; lia).
    destruct (m_fst (S i) ltac:(lia)) as (w & Ew). rewrite Ew. replace (S i - 1)%nat with i by lia. rewrite (m_nth _ _ _ E). cbn [obind fst snd].
    rewrite (T_S _ _ _ _ E). replace (T l i + len <=? T l i + (x - v)) with false by (symmetry; apply Z.leb_gt; lia). replace (S N - 1)%nat with N by lia. reflexivity.
  - pose proof (P_range _ _ HP) as HR. split.
    + split; [lia|]. rewrite <- T_len. pose proof (T_S _ _ _ _ E). destruct (Nat.eq_dec (S i) N) as [<-|?]; [lia|]. pose proof (T_incr (S i) N ltac:(lia)). lia.
    + rewrite (elements_nth l i v len (x - v) pos_all E ltac:(lia)). f_equal. lia.
Qed.
Lemma find_right_out x : ~ In x (elements l) -> find_right m x = Some (end_ m).
Proof.
  intros Hx. unfold find_right. rewrite m_match. rewrite m_len.
  destruct (right_cases x) as [(-> & H)|[(-> & H)|(i & v & len & -> & Hi & E & Hv & H)]]; [reflexivity|rewrite Nat.eqb_refl, orb_true_r; reflexivity|].
  cbn [Nat.eqb orb]. replace (i =? N)%nat with false by (symmetry; apply Nat.eqb_neq; lia).
  destruct (m_fst (S i) ltac:(lia)) as (w & Ew). rewrite Ew. replace (S i - 1)%nat with i by lia. rewrite (m_nth _ _ _ E). cbn [obind fst snd].
  rewrite (T_S _ _ _ _ E). replace (T l i + len <=? T l i + (x - v)) with true; [reflexivity|]. symmetry. apply Z.leb_le.
  destruct (Z_le_gt_dec (v + len) x); [lia|]. exfalso. apply Hx, in_elements. exists i, v, len. split; [auto|lia].
Qed.
Lemma nth_all k v : nth_error (elements l) (Z.to_nat k) = Some v -> 0 <= k -> exists i w len, nth_error l i = Some (w, len) /\ w <= v < w + len /\ k = T l i + (v - w).
Proof.
  intros H Hk. assert (Hlt : (Z.to_nat k < length (elements l))%nat) by (apply nth_error_Some; congruence). pose proof len_elements.
  destruct (P_exists k ltac:(lia)) as (it & HP). destruct (P_not_end _ _ HP ltac:(lia)) as (i & j & w & len & -> & E & Hj & ->).
  rewrite (elements_nth l i w len j pos_all E Hj) in H. injection H as <-. exists i, w, len. split; [auto|]. lia.
Qed.
(** The first element that is not smaller *)
Lemma lower_bound_right_spec x : exists k it, lower_bound_right m x = Some it /\ P k it /\
  (forall j y, 0 <= j < k -> nth_error (elements l) (Z.to_nat j) = Some y -> y < x) /\ (forall y, nth_error (elements l) (Z.to_nat k) = Some y -> x <= y).
Proof.
  unfold lower_bound_right. rewrite m_match. rewrite m_len.
  destruct (right_cases x) as [(-> & H)|[(-> & H)|(i & v & len & -> & Hi & E & Hv & H)]].
  - exists 0, (begin m). cbn. split; [reflexivity|]. split; [exact P_begin|]. split; [lia|]. intros y Hy. destruct (nth_all 0 y Hy ltac:(lia)) as (i & w & len & Ew & Hw & _). specialize (H _ _ _ Ew). lia.
  - exists (total l), (end_ m). cbn [Nat.eqb]. rewrite Nat.eqb_refl. split; [reflexivity|]. split; [exact P_end|]. split.
    + intros j y Hj Hy. destruct (nth_all j y Hy ltac:(lia)) as (i & w & len & Ew & Hw & _). pose proof (last_v_bound _ _ _ Ew). lia.
    + intros y Hy. assert (Z.to_nat (total l) < length (elements l))%nat by (apply nth_error_Some; congruence). pose proof len_elements. lia.
  - cbn [Nat.eqb]. replace (i =? N)%nat with false by (symmetry; apply Nat.eqb_neq; lia).
    destruct (m_fst (S i) ltac:(lia)) as (w & Ew). rewrite Ew. replace (S i - 1)%nat with i by lia. rewrite (m_nth _ _ _ E). cbn [obind fst snd].
    rewrite (T_S _ _ _ _ E). replace (S N - 1)%nat with N by lia.
    assert (Hbelow : forall j y, 0 <= j -> j < T l (S i) -> nth_error (elements l) (Z.to_nat j) = Some y -> y < v + len /\ (T l i <= j -> y = v + (j - T l i))).
    { intros j y Hj0 Hj Hy. destruct (nth_all j y Hy Hj0) as (i' & w' & len' & E' & Hw' & Ej). destruct (Nat.lt_trichotomy i i') as [C|[C|C]].
      - exfalso. assert (HiN : (i' < N)%nat) by (apply nth_error_Some; congruence). destruct (Nat.eq_dec (S i) i') as [Ee|?]; [rewrite Ee in Hj; lia|]. pose proof (T_incr (S i) i' ltac:(lia)). lia.
      - subst i'. rewrite E in E'. injection E' as <- <-. lia.
      - pose proof (order _ _ _ _ _ _ C E' E). split; [pose proof (len_pos _ _ _ E); lia|]. pose proof (T_S _ _ _ _ E').
        assert (T l (S i') <= T l i) by (destruct (Nat.eq_dec (S i') i) as [->|?]; [lia|]; pose proof (T_incr (S i') i ltac:(lia)); lia). lia. }
    pose proof (T_S _ _ _ _ E) as HTS. pose proof (T_nonneg i ltac:(lia)) as HT0.
    destruct (Z.leb_spec (T l i + len) (T l i + (x - v))) as [Hc|Hc].
    + exists (T l (S i)), (It (S i) N 0). split; [reflexivity|]. split; [|split].
      * exists (S i), 0. split; [reflexivity|]. destruct (nth_error l (S i)) as [(v', len')|] eqn:E'; [left; exists v', len'; split; [auto|]; pose proof (len_pos _ _ _ E'); lia|].
        right. apply nth_error_None in E'. split; [lia|]. auto.
      * intros j y Hj Hy. destruct (Hbelow j y ltac:(lia) ltac:(lia) Hy). lia.
      * intros y Hy. destruct (nth_all (T l (S i)) y Hy ltac:(pose proof (len_pos _ _ _ E); lia)) as (i' & w' & len' & E' & Hw' & Ej).
        assert (C : (i < i')%nat).
        { destruct (Nat.le_gt_cases i' i) as [C|C]; [|auto]. exfalso. pose proof (T_S _ _ _ _ E').
          assert (T l (S i') <= T l (S i)) by (destruct (Nat.eq_dec (S i') (S i)) as [->|?]; [lia|]; pose proof (T_incr (S i') (S i) ltac:(lia)); lia). lia. }
        specialize (H _ _ _ C E'). lia.
    + exists (T l i + (x - v)), (It i N (x - v)). split; [reflexivity|]. split; [|split].
      * exists i, (x - v). split; [reflexivity|]. left. exists v, len. split; [auto|lia].
      * intros j y Hj Hy. destruct (Hbelow j y ltac:(lia) ltac:(lia) Hy) as (H1 & H2). destruct (Z_le_gt_dec (T l i) j); [specialize (H2 ltac:(lia)); lia|].
        destruct (nth_all j y Hy ltac:(lia)) as (i' & w' & len' & E' & Hw' & Ej). destruct (Nat.le_gt_cases i i') as [C|C].
        -- assert (HiN : (i' < N)%nat) by (apply nth_error_Some; congruence). assert (T l i <= T l i') by (destruct (Nat.eq_dec i i') as [->|?]; [lia|]; pose proof (T_incr i i' ltac:(lia)); lia). lia.
        -- pose proof (order _ _ _ _ _ _ C E' E). lia.
      * intros y Hy. destruct (Hbelow (T l i + (x - v)) y ltac:(lia) ltac:(lia) Hy) as (_ & H2). specialize (H2 ltac:(lia)). lia.
Qed.
Lemma elements_sorted : forall i j x y, (i < j)%nat -> nth_error (elements l) i = Some x -> nth_error (elements l) j = Some y -> x < y.
Proof.
  intros i j x y Hij Hx Hy. rewrite <- (Nat2Z.id i) in Hx. rewrite <- (Nat2Z.id j) in Hy.
  destruct (nth_all _ _ Hx ltac:(lia)) as (a & v & len & E & Hv & Ei). destruct (nth_all _ _ Hy ltac:(lia)) as (b & w & z & E' & Hw & Ej).
  destruct (Nat.lt_trichotomy a b) as [C|[C|C]].
  - pose proof (order _ _ _ _ _ _ C E E'). lia.
  - subst b. rewrite E in E'. injection E' as <- <-. lia.
  - exfalso. assert (a < N)%nat by (apply nth_error_Some; congruence). pose proof (T_S _ _ _ _ E').
    assert (T l (S b) <= T l a) by (destruct (Nat.eq_dec (S b) a) as [->|?]; [lia|]; pose proof (T_incr (S b) a ltac:(lia)); lia). lia.
Qed.
Lemma P_diff a b ka kb : P ka a -> P kb b -> diff m a b = Some (ka - kb).
Proof.
  assert (H : forall k it, P k it -> exists v, nth_error m (m_it it) = Some (T l (m_it it), v) /\ k = T l (m_it it) + m_shift it).
  { intros k it (i & j & -> & Hc). cbn [m_it m_shift]. assert (Hi : (i <= N)%nat) by (destruct Hc as [(v & len & E & _)|(-> & _)]; [|lia]; assert (i < N)%nat by (apply nth_error_Some; congruence); lia).
    destruct (m_fst i Hi) as (v & E). exists v. split; [auto|]. destruct Hc as [(? & ? & _ & _ & ->)|(_ & -> & ->)]; lia. }
  intros Ha Hb. destruct (H _ _ Ha) as (v & E & ->). destruct (H _ _ Hb) as (w & E' & ->). unfold diff. rewrite E, E'. cbn. f_equal. lia.
Qed.
Lemma P_lt a b ka kb : P ka a -> P kb b -> lt_it a b = true <-> ka < kb.
Proof.
  intros (i & j & -> & Ha) (i' & j' & -> & Hb). unfold lt_it. cbn [m_it m_shift].
  assert (Hi : (i <= N)%nat /\ 0 <= j /\ ka = T l i + j /\ ((i < N)%nat -> j < T l (S i) - T l i)).
  { destruct Ha as [(v & len & E & Hj & ->)|(-> & -> & ->)]; [|repeat split; lia]. assert (i < N)%nat by (apply nth_error_Some; congruence). rewrite (T_S _ _ _ _ E). repeat split; lia. }
  assert (Hi' : (i' <= N)%nat /\ 0 <= j' /\ kb = T l i' + j' /\ ((i' < N)%nat -> j' < T l (S i') - T l i')).
  { destruct Hb as [(v & len & E & Hj & ->)|(-> & -> & ->)]; [|repeat split; lia]. assert (i' < N)%nat by (apply nth_error_Some; congruence). rewrite (T_S _ _ _ _ E). repeat split; lia. }
  destruct Hi as (H1 & H2 & H3 & H4). destruct Hi' as (H1' & H2' & H3' & H4').
  assert (Hlt : forall p q, (p < q <= N)%nat -> T l (S p) <= T l q) by (intros p q Hp; destruct (Nat.eq_dec (S p) q) as [->|?]; [lia|]; pose proof (T_incr (S p) q ltac:(lia)); lia).
  destruct (Nat.ltb_spec i i') as [C|C]; cbn.
  - split; [intros _|auto]. specialize (Hlt i i' ltac:(lia)). specialize (H4 ltac:(lia)). lia.
  - destruct (Nat.eqb_spec i i') as [->|D]; cbn; [rewrite Z.ltb_lt; lia|]. split; [discriminate|]. specialize (Hlt i' i ltac:(lia)). specialize (H4' ltac:(lia)). lia.
Qed.
End Inv.
