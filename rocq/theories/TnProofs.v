(** Positions of stored elements, sums over them. *)
From Coq Require Import Reals Lra Lia.
From Verif Require Import Prelude RSum AdModel AdSpec AdProofs8 TnModel TnSpec.

Open Scope nat_scope.

Lemma sym_cont_lt : forall N i j, i < N -> j < N -> sym_cont N i j < tri_size N.
Proof.
  intros N i j Hi Hj. destruct (sym_cont_pos N i j Hi Hj) as (a & b & _ & Hab & -> & _).
  unfold tri_size. rewrite tri_total. now apply tri_lt.
Qed.
Lemma sym_cont_same : forall N i j k l, i < N -> j < N -> k < N -> l < N -> (sym_cont N i j = sym_cont N k l <-> same2 i j k l).
Proof.
  intros N i j k l Hi Hj Hk Hl. unfold same2.
  destruct (sym_cont_pos N i j Hi Hj) as (a & b & _ & Hab & -> & C), (sym_cont_pos N k l Hk Hl) as (c & d & _ & Hcd & -> & C').
  split.
  - intros E. apply tri_inj in E as (-> & ->); [|assumption..]. destruct C as [C|C], C' as [C'|C']; inversion C; inversion C'; subst; auto.
  - intros H. assert (a = c /\ b = d) as (-> & ->); [|reflexivity].
    destruct C as [C|C], C' as [C'|C']; inversion C; inversion C'; subst; lia.
Qed.
Lemma sym_index_cont : forall N c, c < tri_size N -> exists i j, sym_index N c = Some (i, j) /\ i <= j < N /\ sym_cont N i j = c.
Proof.
  intros N c Hc. destruct (sym_index_some N c Hc) as (a & b & Hab & Ec & E). exists a, b. split; [assumption|]. split; [assumption|].
  destruct (sym_cont_pos N a b ltac:(lia) ltac:(lia)) as (p & q & _ & Hpq & -> & C). destruct C as [C|C]; inversion C; subst; [reflexivity|].
  assert (a = b) by lia. subst. reflexivity.
Qed.

Lemma cell_nat : forall N i j, i < N -> j < N -> j + N * i < N * N.
Proof. intros. nia. Qed.
Lemma cell_eq : forall N i j k l, j < N -> l < N -> j + N * i = l + N * k -> i = k /\ j = l.
Proof. intros N i j k l Hj Hl E. assert (i = k) by nia. subst. lia. Qed.
Lemma t4_cont_eq : forall N i j k l, t4_cont N i j k l = sym_cont (N * N) (j + N * i) (l + N * k).
Proof.
  intros. unfold t4_cont, t4_sort. destruct (l + k * N <? j + i * N) eqn:E; [|reflexivity].
  apply Nat.ltb_lt in E. unfold sym_cont, sym_sort. replace (j + N * i <? l + N * k) with false by (symmetry; apply Nat.ltb_ge; lia).
  replace (l + N * k <? j + N * i) with true by (symmetry; apply Nat.ltb_lt; lia). reflexivity.
Qed.
Lemma t4_cont_lt : forall N i j k l, i < N -> j < N -> k < N -> l < N -> t4_cont N i j k l < tri_size (N * N).
Proof. intros. rewrite t4_cont_eq. apply sym_cont_lt; now apply cell_nat. Qed.
Lemma t4_cont_same : forall N i j k l i' j' k' l', i < N -> j < N -> k < N -> l < N -> i' < N -> j' < N -> k' < N -> l' < N ->
  (t4_cont N i j k l = t4_cont N i' j' k' l' <-> same4 i j k l i' j' k' l').
Proof.
  intros. rewrite !t4_cont_eq. rewrite sym_cont_same by now apply cell_nat. unfold same2, same4. split.
  - intros [(A & B)|(A & B)]; apply cell_eq in A as (-> & ->); try assumption; apply cell_eq in B as (-> & ->); auto.
  - intros [(-> & -> & -> & ->)|(-> & -> & -> & ->)]; auto.
Qed.
Lemma t4_index_cont : forall N c, c < tri_size (N * N) -> exists i j k l, t4_index N c = Some (i, j, k, l) /\
  i < N /\ j < N /\ k < N /\ l < N /\ t4_cont N i j k l = c.
Proof.
  intros N c Hc. destruct (t4_index_ok N c Hc) as (a & b & Hab & -> & E). assert (HN : N <> 0) by (intros ->; lia).
  exists (a / N), (a mod N), (b / N), (b mod N). split; [assumption|].
  assert (Ha : a / N < N) by (apply Nat.div_lt_upper_bound; lia). assert (Hb : b / N < N) by (apply Nat.div_lt_upper_bound; lia).
  pose proof (Nat.mod_upper_bound a N HN). pose proof (Nat.mod_upper_bound b N HN). repeat split; try assumption.
  rewrite t4_cont_eq.
  replace (a mod N + N * (a / N)) with a by (rewrite (Nat.div_mod a N HN) at 1; lia).
  replace (b mod N + N * (b / N)) with b by (rewrite (Nat.div_mod b N HN) at 1; lia).
  destruct (sym_cont_pos (N * N) a b ltac:(lia) ltac:(lia)) as (p & q & _ & Hpq & -> & C). destruct C as [C|C]; inversion C; subst; [reflexivity|].
  assert (a = b) by lia. subst. reflexivity.
Qed.

Lemma sym_cont_swap : forall N i j, sym_cont N i j = sym_cont N j i.
Proof.
  intros. unfold sym_cont, sym_sort. destruct (j <? i) eqn:E, (i <? j) eqn:F; try reflexivity.
  - apply Nat.ltb_lt in E, F. lia.
  - apply Nat.ltb_ge in E, F. assert (i = j) by lia. now subst.
Qed.
Lemma sym_cont_sort : forall N i j, (let (a, b) := sym_sort i j in sym_cont N a b) = sym_cont N i j.
Proof. intros. unfold sym_sort. destruct (j <? i); [apply sym_cont_swap|reflexivity]. Qed.
Lemma bi_cont_eq : forall N i j k l, bi_cont N i j k l = sym_cont (tri_size N) (sym_cont N i j) (sym_cont N k l).
Proof.
  intros. unfold bi_cont, bi_sort, tri_size. pose proof (sym_cont_sort N i j) as A. pose proof (sym_cont_sort N k l) as B.
  destruct (sym_sort i j) as (a, b), (sym_sort k l) as (c, d).
  destruct ((c <? a) || ((a =? c) && (d <? b))); cbn; rewrite A, B; [apply sym_cont_swap|reflexivity].
Qed.
Lemma bi_cont_lt : forall N i j k l, i < N -> j < N -> k < N -> l < N -> bi_cont N i j k l < tri_size (tri_size N).
Proof. intros. rewrite bi_cont_eq. apply sym_cont_lt; now apply sym_cont_lt. Qed.
Lemma bi_cont_same : forall N i j k l i' j' k' l', i < N -> j < N -> k < N -> l < N -> i' < N -> j' < N -> k' < N -> l' < N ->
  (bi_cont N i j k l = bi_cont N i' j' k' l' <-> bisame4 i j k l i' j' k' l').
Proof.
  intros. rewrite !bi_cont_eq. rewrite sym_cont_same by now apply sym_cont_lt. unfold bisame4.
  split; (intros [(A & B)|(A & B)]; [left|right]; split; now apply (sym_cont_same N)).
Qed.

(** *** Duplication *)
Lemma sym_dup_eq : forall N c i j, sym_index N c = Some (i, j) -> i <= j -> c < tri_size N -> sym_dup N c = Some (if i =? j then 1 else 2).
Proof.
  intros N c i j E Hij Hc. destruct (sym_index_some N c Hc) as (a & b & Hab & -> & E'). rewrite E in E'. inversion E'; subst.
  unfold sym_dup. destruct (sym_map_ok N) as (im & jm & -> & HI). cbn [obind]. destruct (HI a b Hab) as (-> & ->). reflexivity.
Qed.

Open Scope R_scope.
Lemma Rsum_split : forall m n f, Rsum (m + n) f = Rsum m f + Rsum n (fun i => f (m + i)%nat).
Proof. intros m n f. induction n as [|n IH]; [rewrite Nat.add_0_r; cbn; ring|]. rewrite Nat.add_succ_r, !Rsum_S, IH. ring. Qed.
(** the rows of the stored triangle *)
Lemma Rsum_tri : forall N h, Rsum (tri_size N) h = Rsum N (fun a => Rsum (N - a) (fun b => h (tri N a + (a + b))%nat)).
Proof.
  intros N h. unfold tri_size. rewrite tri_total.
  assert (G : forall m, (m <= N)%nat -> Rsum (tri N m + m) h = Rsum m (fun a => Rsum (N - a) (fun b => h (tri N a + (a + b))%nat))).
  { induction m as [|m IH]; intros Hm; [reflexivity|]. rewrite tri_row by lia.
    replace (tri N m + N)%nat with (tri N m + m + (N - m))%nat by lia. rewrite Rsum_split, IH, Rsum_S by lia.
    f_equal. apply Rsum_ext. intros b Hb. f_equal. lia. }
  apply G. lia.
Qed.
Lemma Rsum_tail : forall N a g, (a <= N)%nat -> Rsum (N - a) (fun b => g (a + b)%nat) = Rsum N (fun b => if (a <=? b)%nat then g b else 0).
Proof.
  intros N a g H. replace N with (a + (N - a))%nat at 2 by lia. rewrite Rsum_split.
  rewrite (Rsum_zero a) by (intros i Hi; destruct (a <=? i)%nat eqn:E; [apply Nat.leb_le in E; lia|reflexivity]).
  rewrite Rplus_0_l. apply Rsum_ext. intros i Hi. destruct (a <=? a + i)%nat eqn:E; [reflexivity|apply Nat.leb_gt in E; lia].
Qed.
(** a sum over the stored elements, each as many times as it occurs, is the sum over all the elements *)
Lemma dup_sum : forall N (g : nat -> R),
  Rsum (tri_size N) (fun c => match sym_dup N c with Some d => g c * INR d | None => 0 end) = Rsum2 N (fun i j => g (sym_cont N i j)).
Proof.
  intros N g. rewrite Rsum_tri. unfold Rsum2.
  assert (C : forall a b, (a <= b < N)%nat -> sym_cont N a b = (tri N a + b)%nat).
  { intros a b Hab. destruct (sym_cont_pos N a b ltac:(lia) ltac:(lia)) as (p & q & _ & Hpq & -> & C). destruct C as [C|C]; inversion C; subst; [reflexivity|].
    assert (a = b) by lia. subst. reflexivity. }
  rewrite (Rsum_ext N _ (fun a => Rsum N (fun b => if (a <=? b)%nat then g (sym_cont N a b) * (if (a =? b)%nat then 1 else 2) else 0))).
  2:{ intros a Ha. rewrite (Rsum_ext (N - a) _ (fun b => (fun b => g (sym_cont N a b) * (if (a =? b)%nat then 1 else 2)) (a + b)%nat)).
      - exact (Rsum_tail N a (fun b => g (sym_cont N a b) * (if (a =? b)%nat then 1 else 2)) ltac:(lia)).
      - intros b Hb. cbv beta. rewrite (C a (a + b)%nat) by lia.
        rewrite (sym_dup_eq N (tri N a + (a + b)) a (a + b)); [|apply sym_index_pos; lia|lia|unfold tri_size; rewrite tri_total; apply tri_lt; lia].
        destruct (a =? a + b)%nat; cbn; ring. }
  transitivity (Rsum N (fun a => Rsum N (fun b => (if (a <=? b)%nat then g (sym_cont N a b) else 0) + (if (a <? b)%nat then g (sym_cont N a b) else 0)))).
  { apply Rsum_ext. intros a Ha. apply Rsum_ext. intros b Hb.
    destruct (Nat.leb_spec a b), (Nat.ltb_spec a b), (Nat.eqb_spec a b); try lia; try ring. }
  transitivity (Rsum N (fun a => Rsum N (fun b => if (a <=? b)%nat then g (sym_cont N a b) else 0)) +
                Rsum N (fun a => Rsum N (fun b => if (b <? a)%nat then g (sym_cont N a b) else 0))).
  { rewrite (Rsum_swap N N (fun a b => if (b <? a)%nat then g (sym_cont N a b) else 0)), <- Rsum_plus. apply Rsum_ext. intros a Ha. rewrite <- Rsum_plus.
    apply Rsum_ext. intros b Hb. now rewrite (sym_cont_swap N b a). }
  rewrite <- Rsum_plus. apply Rsum_ext. intros a Ha. rewrite <- Rsum_plus. apply Rsum_ext. intros b Hb.
  destruct (Nat.leb_spec a b), (Nat.ltb_spec b a); try lia; ring.
Qed.

Lemma Rsum2_cells : forall N f, Rsum (N * N) f = Rsum2 N (fun i j => f (j + N * i)%nat).
Proof.
  intros N f. unfold Rsum2.
  assert (G : forall m, Rsum (m * N) f = Rsum m (fun i => Rsum N (fun j => f (j + N * i)%nat))).
  { induction m as [|m IH]; [reflexivity|]. replace (S m * N)%nat with (m * N + N)%nat by lia. rewrite Rsum_split, IH, Rsum_S. f_equal.
    apply Rsum_ext. intros; f_equal; lia. }
  apply G.
Qed.

(** *** Loops *)
Lemma sum_from_eq : forall n f g v, (forall i, (i < n)%nat -> f i = Some (g i)) -> sum_from 0 n f v = Some (v + Rsum n g).
Proof.
  intros n f g v H. unfold sum_from. apply (for_sum n g). intros i s Hi. now rewrite (H i Hi).
Qed.

Lemma rd_nth : forall (m : list R) i, (i < length m)%nat -> rd m i = Some (nth i m 0).
Proof. intros. now apply nth_error_nth'. Qed.

Lemma dot_dup_eq : forall size dup w a b, length a = size -> length b = size -> (forall c, (c < size)%nat -> exists d, dup c = Some d /\ INR d = w c) ->
  dot_dup size dup a b = Some (Rsum size (fun c => nth c a 0 * nth c b 0 * w c)).
Proof.
  intros size dup w a b La Lb H. unfold dot_dup. rewrite (sum_from_eq size _ (fun c => nth c a 0 * nth c b 0 * w c)).
  - now rewrite Rplus_0_l.
  - intros c Hc. rewrite !rd_nth by lia. cbn [obind]. destruct (H c Hc) as (d & -> & <-). reflexivity.
Qed.
Lemma sym_dup_some : forall N c, (c < tri_size N)%nat -> exists d, sym_dup N c = Some d.
Proof.
  intros N c Hc. destruct (sym_index_cont N c Hc) as (i & j & E & Hij & _). eexists. apply (sym_dup_eq N c i j); [assumption|lia|assumption].
Qed.

Definition wgt (dup : nat -> option nat) (c : nat) : R := match dup c with Some d => INR d | None => 0 end.
Lemma dup_sum' : forall N (g : nat -> R), Rsum (tri_size N) (fun c => g c * wgt (sym_dup N) c) = Rsum2 N (fun i j => g (sym_cont N i j)).
Proof.
  intros. rewrite <- dup_sum. apply Rsum_ext. intros c Hc. unfold wgt. destruct (sym_dup N c); [reflexivity|ring].
Qed.
Lemma Rsum2_ext : forall n f g, (forall i j, (i < n)%nat -> (j < n)%nat -> f i j = g i j) -> Rsum2 n f = Rsum2 n g.
Proof. intros. unfold Rsum2. apply Rsum_ext; intros; apply Rsum_ext; auto. Qed.

Lemma sym_dot_ok : forall N a b, length a = tri_size N -> length b = tri_size N ->
  sym_dot N a b = Some (Rsum2 N (fun i j => nth (sym_cont N i j) a 0 * nth (sym_cont N i j) b 0)).
Proof.
  intros N a b La Lb. unfold sym_dot. rewrite (dot_dup_eq _ _ (wgt (sym_dup N))) by (auto; intros c Hc; destruct (sym_dup_some N c Hc) as (d & E); exists d; unfold wgt; now rewrite E).
  f_equal. apply (dup_sum' N (fun c => nth c a 0 * nth c b 0)).
Qed.
Lemma t4_dot_ok : forall N a b, length a = tri_size (N * N) -> length b = tri_size (N * N) ->
  t4_dot N a b = Some (Rsum4 N (fun i j k l => nth (t4_cont N i j k l) a 0 * nth (t4_cont N i j k l) b 0)).
Proof.
  intros N a b La Lb. change (t4_dot N a b) with (sym_dot (N * N) a b). rewrite sym_dot_ok by assumption. f_equal.
  unfold Rsum2 at 1, Rsum4. rewrite Rsum2_cells. apply Rsum2_ext. intros i j Hi Hj. rewrite Rsum2_cells. apply Rsum2_ext. intros k l Hk Hl.
  now rewrite t4_cont_eq.
Qed.
Lemma bi_dot_ok : forall N a b, length a = tri_size (tri_size N) -> length b = tri_size (tri_size N) ->
  bi_dot N a b = Some (Rsum4 N (fun i j k l => nth (bi_cont N i j k l) a 0 * nth (bi_cont N i j k l) b 0)).
Proof.
  intros N a b La Lb. unfold bi_dot. set (M := tri_size N) in *.
  set (h := fun c => nth c a 0 * nth c b 0).
  set (w2 := fun P Q => wgt (sym_dup N) P * wgt (sym_dup N) Q).
  rewrite (dot_dup_eq _ _ (fun c => match sym_index M c with Some (P, Q) => w2 P Q | None => 0 end * wgt (sym_dup M) c)).
  2,3: assumption.
  2:{ intros c Hc. destruct (sym_index_cont M c Hc) as (P & Q & E & HIJ & _). destruct (sym_dup_some M c Hc) as (d & Ed).
      destruct (sym_dup_some N P) as (di & Ei); [fold M; lia|]. destruct (sym_dup_some N Q) as (dj & Ej); [fold M; lia|].
      exists (d * di * dj)%nat. unfold bi_dup. fold M. rewrite Ed. cbn [obind]. rewrite E. cbn [obind fst snd]. rewrite Ei. cbn [obind]. rewrite Ej. cbn [obind].
      split; [reflexivity|]. unfold w2, wgt. rewrite Ed, Ei, Ej, !mult_INR. ring. }
  f_equal.
  transitivity (Rsum2 M (fun P Q => h (sym_cont M P Q) * w2 P Q)).
  - transitivity (Rsum (tri_size M) (fun c => (h c * match sym_index M c with Some (P, Q) => w2 P Q | None => 0 end) * wgt (sym_dup M) c)).
    + apply Rsum_ext. intros c Hc. unfold h. ring.
    + rewrite (dup_sum' M (fun c => h c * match sym_index M c with Some (P, Q) => w2 P Q | None => 0 end)).
      apply Rsum2_ext. intros P Q HP HQ. f_equal.
      destruct (sym_index_cont M (sym_cont M P Q) (sym_cont_lt M P Q HP HQ)) as (p & q & -> & Hpq & E).
      apply sym_cont_same in E; try lia. unfold w2. destruct E as [(-> & ->)|(-> & ->)]; ring.
  - unfold Rsum4.
    unfold Rsum2 at 1.
    transitivity (Rsum M (fun P => Rsum2 N (fun k l => h (sym_cont M P (sym_cont N k l))) * wgt (sym_dup N) P)).
    + apply Rsum_ext. intros P HP. rewrite <- (dup_sum' N (fun Q => h (sym_cont M P Q))). fold M. rewrite <- Rsum_scal_r.
      apply Rsum_ext. intros Q HQ. unfold w2. ring.
    + unfold M at 1. rewrite (dup_sum' N (fun P => Rsum2 N (fun k l => h (sym_cont M P (sym_cont N k l))))).
      apply Rsum2_ext. intros i j Hi Hj. apply Rsum2_ext. intros k l Hk Hl. rewrite bi_cont_eq. reflexivity.
Qed.
Lemma mtx_dot_ok : forall N a b, length a = (N * N)%nat -> length b = (N * N)%nat ->
  mtx_dot N a b = Some (Rsum2 N (fun i j => nth (N * i + j) a 0 * nth (N * i + j) b 0)).
Proof.
  intros N a b La Lb. unfold mtx_dot. rewrite (dot_dup_eq _ _ (fun _ => 1)) by (auto; intros; exists 1%nat; split; reflexivity).
  f_equal. rewrite Rsum2_cells. apply Rsum2_ext. intros i j Hi Hj. rewrite (Nat.add_comm j). ring.
Qed.
