(** The positions of the stored Hessian elements; uniqueness of derivatives. *)
From Coq Require Import Reals Lra Lia.
From Verif Require Import Prelude AdModel AdSpec AdProofs AdProofs2.

Open Scope nat_scope.

(** *** SymMtx<N> *)
(** the elements above the diagonal in the rows before a *)
Fixpoint tri (N a : nat) : nat := match a with O => 0 | S a' => tri N a' + (N - 1 - a') end.
Lemma tri_eq : forall N a, a <= N -> (2 * N - 1 - a) * a / 2 = tri N a.
Proof.
  intros N a H. assert (E : (2 * N - 1 - a) * a = tri N a * 2).
  { induction a as [|a IH]; [cbn; lia|]. cbn [tri]. specialize (IH ltac:(lia)).
    destruct (Nat.eq_dec N (S a)) as [->|Hne]; [replace (S a - 1 - a) with 0 by lia; nia|].
    assert (exists r, N = S a + r) as (r & ->) by (exists (N - S a); lia).
    replace (2 * (S a + r) - 1 - a) with (a + 2 * r + 1) in IH by lia.
    replace (2 * (S a + r) - 1 - S a) with (a + 2 * r) by lia.
    replace (S a + r - 1 - a) with r by lia. nia. }
  rewrite E. apply Nat.div_mul. lia.
Qed.
Lemma tri_total : forall N, N * (N + 1) / 2 = tri N N + N.
Proof.
  intros N. rewrite <- tri_eq by lia. destruct N as [|N]; [reflexivity|].
  replace (2 * S N - 1 - S N) with N by lia.
  replace (S N * (S N + 1)) with (N * S N + S N * 2) by nia. now rewrite Nat.div_add by lia.
Qed.
Lemma tri_mono : forall N a b, a <= b -> b <= N -> tri N a + a <= tri N b + b.
Proof. intros N a b H. induction H; intros; [lia|]. cbn [tri]. specialize (IHle ltac:(lia)). lia. Qed.
Lemma tri_row : forall N a, a < N -> tri N (S a) + S a = tri N a + N.
Proof. intros. cbn [tri]. lia. Qed.
(** the positions of the pairs are all different *)
Lemma tri_inj : forall N a b a' b', a <= b < N -> a' <= b' < N -> tri N a + b = tri N a' + b' -> a = a' /\ b = b'.
Proof.
  intros N a b a' b' H H' E. destruct (Nat.lt_trichotomy a a') as [C|[C|C]].
  - pose proof (tri_row N a ltac:(lia)). pose proof (tri_mono N (S a) a' ltac:(lia) ltac:(lia)). lia.
  - subst. lia.
  - pose proof (tri_row N a' ltac:(lia)). pose proof (tri_mono N (S a') a ltac:(lia) ltac:(lia)). lia.
Qed.
Lemma tri_lt : forall N a b, a <= b < N -> tri N a + b < tri N N + N.
Proof. intros. pose proof (tri_row N a ltac:(lia)). pose proof (tri_mono N (S a) N ltac:(lia) ltac:(lia)). lia. Qed.
Lemma tri_surj : forall N c, c < tri N N + N -> exists a b, a <= b < N /\ c = tri N a + b.
Proof.
  intros N c H. assert (G : forall m, m <= N -> c < tri N m + m -> exists a b, a <= b < N /\ c = tri N a + b).
  { induction m as [|m IH]; intros Hm Hc; [cbn in Hc; lia|].
    destruct (Nat.lt_ge_cases c (tri N m + m)) as [C|C]; [apply IH; [lia|assumption]|].
    rewrite tri_row in Hc by lia. exists m, (c - tri N m). lia. }
  exact (G N ltac:(lia) H).
Qed.

Lemma sym_map_ok : forall N, exists im jm, sym_map N = Some (im, jm) /\
  (forall a b, a <= b < N -> rd im (tri N a + b) = Some a /\ rd jm (tri N a + b) = Some b).
Proof.
  intros N. unfold sym_map. set (M := N * (N + 1) / 2). assert (EM : M = tri N N + N) by apply tri_total.
  destruct (for_inv (fun i (s : list nat * list nat) => length (fst s) = M /\ length (snd s) = M /\
    (forall a b, a < i -> a <= b < N -> rd (fst s) (tri N a + b) = Some a /\ rd (snd s) (tri N a + b) = Some b))
    N (fun i s => for_range i (N - i) (fun j s =>
    do im <- wr (fst s) ((2 * N - 1 - i) * i / 2 + j) i;
    do jm <- wr (snd s) ((2 * N - 1 - i) * i / 2 + j) j;
    Some (im, jm)) s) (repeat 0 M, repeat 0 M)) as (s & E & L1 & L2 & HI).
  - cbn [fst snd]. rewrite !repeat_length. repeat split; lia.
  - intros i s Hi (L1 & L2 & HI). rewrite tri_eq by lia.
    destruct (for_range_inv (fun j (s : list nat * list nat) => length (fst s) = M /\ length (snd s) = M /\
      (forall a b, (a < i \/ (a = i /\ b < j)) -> a <= b < N -> rd (fst s) (tri N a + b) = Some a /\ rd (snd s) (tri N a + b) = Some b))
      (N - i) i (fun j s => do im <- wr (fst s) (tri N i + j) i; do jm <- wr (snd s) (tri N i + j) j; Some (im, jm)) s)
      as (s' & E & L1' & L2' & HI').
    + repeat split; auto; apply HI; lia.
    + intros j t Hj (K1 & K2 & KI). pose proof (tri_lt N i j ltac:(lia)) as B.
      destruct (wr_some (fst t) (tri N i + j) i ltac:(lia)) as (im & -> & K3 & K4).
      destruct (wr_some (snd t) (tri N i + j) j ltac:(lia)) as (jm & -> & K5 & K6). cbn [obind fst snd].
      eexists; split; [reflexivity|]. cbn [fst snd]. split; [lia|]. split; [lia|]. intros a b Hab Hr.
      rewrite K4, K6. destruct (tri N a + b =? tri N i + j) eqn:Eq.
      * apply Nat.eqb_eq in Eq. apply tri_inj in Eq as (-> & ->); [|lia|lia]. now split.
      * apply Nat.eqb_neq in Eq. apply KI; [|assumption]. destruct Hab as [Hab|(-> & Hab)]; [now left|right; split; [reflexivity|]].
        assert (b <> j) by (intros ->; lia). lia.
    + exists s'. split; [exact E|]. split; [lia|]. split; [lia|]. intros a b Hab Hr. apply HI'; [|assumption].
      destruct (Nat.eq_dec a i); [right; lia|left; lia].
  - exists (fst s), (snd s). split; [rewrite E; now destruct s|]. intros a b Hab. apply HI; lia.
Qed.

Lemma sym_index_pos : forall N a b, a <= b < N -> sym_index N (tri N a + b) = Some (a, b).
Proof.
  intros N a b H. unfold sym_index. destruct (sym_map_ok N) as (im & jm & -> & HI). cbn [obind].
  destruct (HI a b H) as (-> & ->). cbn [obind]. unfold sym_sort. destruct (b <? a) eqn:E; [apply Nat.ltb_lt in E; lia|reflexivity].
Qed.
Lemma sym_index_some : forall N c, c < N * (N + 1) / 2 -> exists a b, a <= b < N /\ c = tri N a + b /\ sym_index N c = Some (a, b).
Proof.
  intros N c H. rewrite tri_total in H. destruct (tri_surj N c H) as (a & b & Hab & ->). exists a, b.
  split; [assumption|]. split; [reflexivity|]. now apply sym_index_pos.
Qed.
Lemma sym_sort_cases : forall i j, exists a b, sym_sort i j = (a, b) /\ a <= b /\ ((a, b) = (i, j) \/ (a, b) = (j, i)).
Proof.
  intros i j. unfold sym_sort. destruct (j <? i) eqn:E.
  - apply Nat.ltb_lt in E. exists j, i. split; [reflexivity|]. split; [lia|now right].
  - apply Nat.ltb_ge in E. exists i, j. split; [reflexivity|]. split; [lia|now left].
Qed.
Lemma sym_cont_pos : forall N i j, i < N -> j < N -> exists a b, sym_sort i j = (a, b) /\ a <= b < N /\
  sym_cont N i j = tri N a + b /\ ((a, b) = (i, j) \/ (a, b) = (j, i)).
Proof.
  intros N i j Hi Hj. destruct (sym_sort_cases i j) as (a & b & E & Hab & C). exists a, b.
  assert (b < N /\ a < N) as (Hb & Ha) by (destruct C as [C|C]; inversion C; subst; lia).
  split; [assumption|]. split; [lia|]. split; [|assumption]. unfold sym_cont. rewrite E. now rewrite tri_eq by lia.
Qed.

(** *** The lists of the storages *)
Lemma opt_list_nth : forall A (f : nat -> option A) M lo, (forall c, lo <= c < lo + M -> f c <> None) ->
  forall c, c < M -> nth_error (opt_list (map f (seq lo M))) c = f (lo + c).
Proof.
  intros A f M. induction M as [|M IH]; intros lo H c Hc; [lia|].
  cbn [seq map]. unfold opt_list. cbn [flat_map]. fold (opt_list (map f (seq (S lo) M))).
  destruct (f lo) as [a|] eqn:E; [|now apply H in E; [|lia]].
  destruct c as [|c]; cbn [app nth_error]; [now rewrite Nat.add_0_r, E|].
  rewrite IH; [f_equal; lia|intros; apply H; lia|lia].
Qed.
Lemma opt_list_len : forall A (f : nat -> option A) M lo, length (opt_list (map f (seq lo M))) <= M.
Proof.
  intros A f M. induction M as [|M IH]; intros lo; [cbn; lia|]. cbn [seq map]. unfold opt_list. cbn [flat_map].
  fold (opt_list (map f (seq (S lo) M))). rewrite app_length. specialize (IH (S lo)). destruct (f lo); cbn [length]; lia.
Qed.

Lemma arr_nth : forall N c, c < N * (N + 1) / 2 -> nth_error (hidx (arr_storage N)) c = sym_index N c.
Proof.
  intros N c H. cbn [hidx arr_storage]. rewrite opt_list_nth; [reflexivity| |assumption].
  intros d Hd. destruct (sym_index_some N d ltac:(lia)) as (a & b & _ & _ & ->). discriminate.
Qed.
Lemma arr_at : forall N i j, i < N -> j < N ->
  nth_error (hidx (arr_storage N)) (sym_cont N i j) = Some (i, j) \/ nth_error (hidx (arr_storage N)) (sym_cont N i j) = Some (j, i).
Proof.
  intros N i j Hi Hj. destruct (sym_cont_pos N i j Hi Hj) as (a & b & _ & Hab & -> & C).
  rewrite arr_nth by (rewrite tri_total; now apply tri_lt). rewrite sym_index_pos by assumption.
  destruct C as [->| ->]; auto.
Qed.
Lemma arr_pairs : forall N, pairs_ok (arr_storage N).
Proof.
  intros N c k l H. cbn [ng arr_storage].
  assert (Hc : c < N * (N + 1) / 2).
  { assert (c < length (hidx (arr_storage N))) by (apply nth_error_Some; congruence).
    pose proof (opt_list_len _ (sym_index N) (N * (N + 1) / 2) 0). cbn [hidx arr_storage] in *. lia. }
  rewrite arr_nth in H by assumption. destruct (sym_index_some N c Hc) as (a & b & Hab & _ & E). rewrite E in H. inversion H; subst. lia.
Qed.

Lemma t4_index_ok : forall N c, c < N * N * (N * N + 1) / 2 -> exists a b, a <= b < N * N /\ c = tri (N * N) a + b /\
  t4_index N c = Some (a / N, a mod N, b / N, b mod N).
Proof.
  intros N c H. destruct (sym_index_some (N * N) c H) as (a & b & Hab & Ec & E). exists a, b. split; [assumption|]. split; [assumption|].
  unfold t4_index. rewrite E. cbn [obind]. f_equal. unfold t4_sort.
  assert (N <> 0) by (intros ->; lia).
  assert (Ea : a mod N + a / N * N = a) by (rewrite (Nat.mul_comm (a / N)), Nat.add_comm; symmetry; apply Nat.div_mod; assumption).
  assert (Eb : b mod N + b / N * N = b) by (rewrite (Nat.mul_comm (b / N)), Nat.add_comm; symmetry; apply Nat.div_mod; assumption).
  rewrite Ea, Eb. destruct (b <? a) eqn:C; [apply Nat.ltb_lt in C; lia|reflexivity].
Qed.
Lemma tensor_nth : forall N c, c < N * N * (N * N + 1) / 2 -> exists a b, a <= b < N * N /\ c = tri (N * N) a + b /\
  nth_error (hidx (tensor_storage N)) c = Some (a, b).
Proof.
  intros N c H. destruct (t4_index_ok N c H) as (a & b & Hab & Ec & E). exists a, b. split; [assumption|]. split; [assumption|].
  cbn [hidx tensor_storage]. rewrite nth_error_map, opt_list_nth; [|intros d Hd; destruct (t4_index_ok N d ltac:(lia)) as (? & ? & _ & _ & ->); discriminate|assumption].
  cbn [Nat.add]. rewrite E. cbn [option_map]. assert (N <> 0) by (intros ->; lia). do 2 f_equal; symmetry; now apply Nat.div_mod.
Qed.
Lemma tensor_pairs : forall N, pairs_ok (tensor_storage N).
Proof.
  intros N c k l H. cbn [ng tensor_storage].
  assert (Hc : c < N * N * (N * N + 1) / 2).
  { assert (c < length (hidx (tensor_storage N))) by (apply nth_error_Some; congruence).
    pose proof (opt_list_len _ (t4_index N) (N * N * (N * N + 1) / 2) 0). cbn [hidx tensor_storage] in *. rewrite map_length in *. lia. }
  destruct (tensor_nth N c Hc) as (a & b & Hab & _ & E). rewrite E in H. inversion H; subst. lia.
Qed.
Lemma tensor_at : forall N i j k l, i < N -> j < N -> k < N -> l < N -> let p := j + N * i in let q := l + N * k in
  nth_error (hidx (tensor_storage N)) (t4_cont N i j k l) = Some (p, q) \/ nth_error (hidx (tensor_storage N)) (t4_cont N i j k l) = Some (q, p).
Proof.
  intros N i j k l Hi Hj Hk Hl p q. assert (Hp : p < N * N) by (unfold p; nia). assert (Hq : q < N * N) by (unfold q; nia).
  assert (G : forall p q, p < N * N -> q < N * N -> nth_error (hidx (tensor_storage N)) (sym_cont (N * N) p q) = Some (p, q) \/
    nth_error (hidx (tensor_storage N)) (sym_cont (N * N) p q) = Some (q, p)).
  { clear. intros p q Hp Hq. destruct (sym_cont_pos (N * N) p q Hp Hq) as (a & b & _ & Hab & -> & C).
    destruct (tensor_nth N (tri (N * N) a + b)) as (a' & b' & Hab' & E & ->); [rewrite tri_total; now apply tri_lt|].
    apply tri_inj in E as (-> & ->); try assumption. destruct C as [->| ->]; auto. }
  unfold t4_cont, t4_sort. destruct (l + k * N <? j + i * N).
  - destruct (G q p Hq Hp); auto.
  - exact (G p q Hp Hq).
Qed.

(** *** BiSymTensor4Rank<3> *)
Definition sym3_check (i j k l : nat) : bool :=
  match nth_error (hidx sym3_storage) (bi3_cont i j k l) with
  | Some (p, q) => ((p =? sym3_cont i j) && (q =? sym3_cont k l)) || ((p =? sym3_cont k l) && (q =? sym3_cont i j))
  | None => false
  end.
Lemma sym3_checked : forallb (fun i => forallb (fun j => forallb (fun k => forallb (sym3_check i j k) (seq 0 3)) (seq 0 3)) (seq 0 3)) (seq 0 3) = true.
Proof. vm_compute. reflexivity. Qed.
Lemma sym3_at : forall i j k l, i < 3 -> j < 3 -> k < 3 -> l < 3 ->
  nth_error (hidx sym3_storage) (bi3_cont i j k l) = Some (sym3_cont i j, sym3_cont k l) \/
  nth_error (hidx sym3_storage) (bi3_cont i j k l) = Some (sym3_cont k l, sym3_cont i j).
Proof.
  intros i j k l Hi Hj Hk Hl. pose proof sym3_checked as H.
  rewrite forallb_forall in H. specialize (H i ltac:(apply in_seq; lia)).
  rewrite forallb_forall in H. specialize (H j ltac:(apply in_seq; lia)).
  rewrite forallb_forall in H. specialize (H k ltac:(apply in_seq; lia)).
  rewrite forallb_forall in H. specialize (H l ltac:(apply in_seq; lia)).
  unfold sym3_check in H. destruct (nth_error _ _) as [[p q]|]; [|discriminate].
  apply Bool.orb_true_iff in H as [H|H]; apply andb_prop in H as (H1 & H2); apply Nat.eqb_eq in H1, H2; subst; auto.
Qed.
Lemma sym3_pairs : pairs_ok sym3_storage.
Proof.
  intros c k l H. assert (Hc : c < 21) by (change 21 with (length (hidx sym3_storage)); apply nth_error_Some; congruence).
  cbn [ng sym3_storage].
  assert (G : forallb (fun p => (fst p <? 6) && (snd p <? 6)) (hidx sym3_storage) = true) by (vm_compute; reflexivity).
  rewrite forallb_forall in G. specialize (G _ (nth_error_In _ _ H)). apply andb_prop in G as (G1 & G2).
  apply Nat.ltb_lt in G1, G2. now split.
Qed.

(** *** Uniqueness *)
Open Scope R_scope.
Lemma D1_unique : forall f v x d d', D1 f v x d -> D1 f v x d' -> d = d'.
Proof. intros f v x d d' H H'. eapply uniqueness_limite; eassumption. Qed.
Lemma D2_unique : forall f v w x d d', D2 f v w x d -> D2 f v w x d' -> d = d'.
Proof.
  intros f v w x d d' (e & G & He & HG & L) (e' & G' & He' & HG' & L').
  apply (uniqueness_limite G' 0); [|exact L'].
  apply (lim_local G G' d (Rmin e e')); [now apply Rmin_pos| |exact L].
  intros s Hs. pose proof (Rmin_l e e'). pose proof (Rmin_r e e'). eapply D1_unique; [apply HG|apply HG']; lra.
Qed.
