From Verif Require Import Prelude MeshModel MeshSpec.
From Coq Require Import Reals ZArith Lia Permutation.
Open Scope nat_scope.

(** *** Processes *)
Definition prod (l : list nat) : nat := fold_right Nat.mul 1 l.
Lemma first_div_ok : forall fuel k n, 2 <= k <= n -> n - k < fuel -> exists k', first_div fuel k n = Some k' /\ 2 <= k' <= n /\ n mod k' = 0.
Proof.
  induction fuel as [|f IH]; intros k n Hk Hf; [lia|]. cbn [first_div]. rewrite (proj2 (Nat.leb_le k n)) by lia.
  destruct (Nat.eqb_spec (n mod k) 0) as [E|E]; [exists k; auto|].
  destruct (Nat.eq_dec k n) as [->|N]; [rewrite Nat.mod_same in E by lia; lia|].
  apply IH; lia.
Qed.
Lemma divs_ok : forall fuel n, 1 <= n <= fuel -> prod (divs fuel n) = n /\ (forall k, In k (divs fuel n) -> 2 <= k).
Proof.
  induction fuel as [|f IH]; intros n Hn; [lia|]. cbn [divs]. destruct (Nat.ltb_spec 1 n) as [H|H].
  - destruct (first_div_ok n 2 n) as (k & E & Hk & Hm); [lia|lia|]. rewrite E.
    assert (Q : n = k * (n / k)) by (apply Nat.div_exact; lia).
    assert (B : 1 <= n / k <= f) by nia.
    destruct (IH (n / k) B) as (P & M). split; [cbn [prod fold_right]; fold (prod (divs f (n / k))); rewrite P; lia|].
    intros x [<-|Hx]; [lia|now apply M].
  - cbn. split; [lia|]. intros k [].
Qed.
Definition vol (e : axes) : nat := axis 0 e * axis 1 e * axis 2 e.
Lemma split_vol : forall l s, vol (fst (fold_left split_step l s)) = vol (fst s) * prod l.
Proof.
  induction l as [|k l IH]; intros (p, e); [cbn; lia|]. cbn [fold_left]. rewrite IH. cbn [prod fold_right]. fold (prod l).
  unfold split_step. cbn [fst snd]. destruct p as ((a, b), c). unfold vol, at_axis. destruct (max_axis e) as [|[|d]]; cbn; lia.
Qed.
Lemma prod_rev : forall l, prod (rev l) = prod l.
Proof.
  assert (A : forall a b, prod (a ++ b) = prod a * prod b).
  { induction a as [|x a IH]; intros b; [change (prod ([] ++ b)) with (prod b); change (prod []) with 1; ring|]. change (prod ((x :: a) ++ b)) with (x * prod (a ++ b)). change (prod (x :: a)) with (x * prod a). rewrite IH. ring. }
  induction l as [|x l IH]; [reflexivity|]. cbn [rev]. rewrite A, IH. change (prod (x :: l)) with (x * prod l). change (prod [x]) with (x * 1). ring.
Qed.
Lemma procs_vol : forall size sizes, 1 <= size -> vol (procs_per_axis size sizes) = size.
Proof.
  intros size sizes H. unfold procs_per_axis. rewrite split_vol, prod_rev, (proj1 (divs_ok size size ltac:(lia))). cbn. lia.
Qed.
Lemma procs_pos : forall size sizes d, 1 <= size -> 1 <= axis d (procs_per_axis size sizes).
Proof.
  intros size sizes d H. pose proof (procs_vol size sizes H) as V. unfold vol in V. destruct d as [|[|d]]; cbn [axis] in *; nia.
Qed.
Lemma coords_ok : forall size sizes rank, rank < size ->
  let P := procs_per_axis size sizes in let c := proc_coords rank P in
  axis 0 c < axis 0 P /\ axis 1 c < axis 1 P /\ axis 2 c < axis 2 P /\ rank = axis 0 c + axis 0 P * (axis 1 c + axis 1 P * axis 2 c).
Proof.
  intros size sizes rank H P c. pose proof (procs_vol size sizes ltac:(lia)) as V. fold P in V. unfold vol in V.
  assert (P0 : axis 0 P <> 0) by nia. assert (P1 : axis 1 P <> 0) by nia. unfold c, proc_coords. cbn [axis fst snd].
  fold (@axis nat 0 P) (@axis nat 1 P) (@axis nat 2 P).
  pose proof (Nat.mod_upper_bound rank (axis 0 P) P0). pose proof (Nat.mod_upper_bound (rank / axis 0 P) (axis 1 P) P1).
  split; [assumption|]. split; [assumption|]. split.
  - apply Nat.div_lt_upper_bound; [nia|]. lia.
  - rewrite <- Nat.div_div by assumption. rewrite (Nat.div_mod rank (axis 0 P) P0) at 1. rewrite (Nat.div_mod (rank / axis 0 P) (axis 1 P) P1) at 1. lia.
Qed.
Lemma mixed : forall p a b (c : nat), a < p -> (a + p * b) mod p = a /\ (a + p * b) / p = b.
Proof.
  intros p a b c H. split.
  - rewrite Nat.mul_comm, Nat.mod_add by lia. now apply Nat.mod_small.
  - rewrite Nat.mul_comm, Nat.div_add by lia. rewrite Nat.div_small by lia. reflexivity.
Qed.
Lemma coords_onto : forall size sizes a b c, 1 <= size ->
  let P := procs_per_axis size sizes in a < axis 0 P -> b < axis 1 P -> c < axis 2 P ->
  let r := a + axis 0 P * (b + axis 1 P * c) in r < size /\ proc_coords r P = (a, b, c).
Proof.
  intros size sizes a b c H P Ha Hb Hc r. pose proof (procs_vol size sizes H) as V. fold P in V. unfold vol in V. unfold r. split.
  { assert (b + axis 1 P * c + 1 <= axis 1 P * axis 2 P) by nia. assert (axis 0 P * (b + axis 1 P * c + 1) <= axis 0 P * (axis 1 P * axis 2 P)) by (apply Nat.mul_le_mono_l; assumption). lia. }
  unfold proc_coords. rewrite <- Nat.div_div by lia.
  destruct (mixed (axis 0 P) a (b + axis 1 P * c) 0 Ha) as (-> & ->). destruct (mixed (axis 1 P) b c 0 Hb) as (-> & ->). reflexivity.
Qed.

(** *** An axis *)
Definition lo (s P c : nat) : nat := avgsize s P * c.
Definition hi (s P c : nat) : nat := if c =? P - 1 then s else avgsize s P * (c + 1).
Lemma avg_ge : forall s P, 1 <= P -> s <= avgsize s P * P.
Proof.
  intros s P H. unfold avgsize. pose proof (Nat.div_mod (s + P - 1) P ltac:(lia)). pose proof (Nat.mod_upper_bound (s + P - 1) P ltac:(lia)). nia.
Qed.
Lemma avg_pos : forall s P, 1 <= P -> 1 <= s -> 1 <= avgsize s P.
Proof. intros s P H Hs. pose proof (avg_ge s P H). nia. Qed.
Lemma axis_ok : forall s P c, 1 <= P -> c < P -> fits s P -> (Z.of_nat s < 2 ^ 32)%Z ->
  local_start s P c = Z.of_nat (lo s P c) /\ local_end s P c = Z.of_nat (hi s P c) /\ local_size s P c = (Z.of_nat (hi s P c) - Z.of_nat (lo s P c))%Z /\
  lo s P c <= hi s P c <= s.
Proof.
  intros s P c HP Hc Hf Hs. unfold fits in Hf.
  assert (B : lo s P c <= hi s P c <= s) by (unfold lo, hi; destruct (Nat.eqb_spec c (P - 1)) as [->|N]; [lia|]; pose proof (Nat.mul_le_mono_l (c + 1) (P - 1) (avgsize s P) ltac:(lia)); lia).
  assert (E1 : local_start s P c = Z.of_nat (lo s P c)).
  { unfold local_start, u32. rewrite <- Nat2Z.inj_mul. apply Z.mod_small. lia. }
  assert (E3 : local_size s P c = (Z.of_nat (hi s P c) - Z.of_nat (lo s P c))%Z).
  { unfold local_size, lo, hi. destruct (Nat.eqb_spec c (P - 1)) as [->|N]; [|lia]. unfold u32.
    replace (Z.of_nat P - 1)%Z with (Z.of_nat (P - 1)) by lia. rewrite <- Nat2Z.inj_mul. apply inj_le in Hf. pose proof (Nat2Z.is_nonneg (avgsize s P * (P - 1))) as Q0. clear B E1. remember (Z.of_nat (avgsize s P * (P - 1))) as q. rewrite Z.mod_small; lia. }
  split; [exact E1|]. split; [|split; [exact E3|exact B]].
  unfold local_end. rewrite E1, E3. unfold u32. rewrite Z.mod_small; lia.
Qed.
Lemma axis_cover : forall s P i, 1 <= P -> fits s P -> 1 <= i <= s -> exists c, c < P /\ lo s P c < i <= hi s P c.
Proof.
  intros s P i HP Hf Hi. pose proof (avg_pos s P HP ltac:(lia)) as Ha. pose proof (avg_ge s P HP) as Hg.
  pose proof (Nat.div_mod (i - 1) (avgsize s P) ltac:(lia)) as D. pose proof (Nat.mod_upper_bound (i - 1) (avgsize s P) ltac:(lia)) as M.
  exists ((i - 1) / avgsize s P). assert ((i - 1) / avgsize s P < P) by (apply Nat.div_lt_upper_bound; nia).
  split; [assumption|]. unfold lo, hi. destruct (Nat.eqb_spec ((i - 1) / avgsize s P) (P - 1)); [|nia]. nia.
Qed.
Lemma axis_once : forall s P i c c', 1 <= P -> c < P -> c' < P -> fits s P -> lo s P c < i <= hi s P c -> lo s P c' < i <= hi s P c' -> c = c'.
Proof.
  assert (G : forall s P i c c', 1 <= P -> c < P -> c' < P -> fits s P -> lo s P c < i <= hi s P c -> lo s P c' < i <= hi s P c' -> ~ c < c').
  { intros s P i c c' HP Hc Hc' Hf. unfold lo, hi, fits in *. intros H H' L. destruct (Nat.eqb_spec c (P - 1)); [lia|]. nia. }
  intros s P i c c' HP Hc Hc' Hf H H'. destruct (Nat.lt_trichotomy c c') as [L|[L|L]]; [exfalso; eapply (G s P i c c'); eassumption|exact L|exfalso; eapply (G s P i c' c); eassumption].
Qed.

(** *** Loops *)
Lemma upto_in : forall a b i, In i (upto a b) <-> (a <= i <= b)%Z.
Proof.
  intros a b i. unfold upto. rewrite in_map_iff. split.
  - intros (t & <- & H). apply in_seq in H. lia.
  - intros H. exists (Z.to_nat (i - a)). split; [lia|]. apply in_seq. lia.
Qed.
Lemma upto_len : forall a b, length (upto a b) = Z.to_nat (b - a + 1).
Proof. intros. unfold upto. now rewrite map_length, seq_length. Qed.
Lemma upto_nth : forall a b i, (a <= i <= b)%Z -> nth_error (upto a b) (Z.to_nat (i - a)) = Some i.
Proof.
  intros a b i H. unfold upto. rewrite nth_error_map. rewrite (nth_error_nth' _ 0) by (rewrite seq_length; lia). rewrite seq_nth by lia. cbn. f_equal. lia.
Qed.
Lemma flat_nth : forall {A B} (f : A -> list B) n (l : list A) a b x, (forall y, length (f y) = n) -> nth_error l a = Some x -> b < n ->
  nth_error (flat_map f l) (a * n + b) = nth_error (f x) b.
Proof.
  intros A B f n l. induction l as [|y l IH]; intros a b x Hf Ha Hb; [now destruct a|]. cbn [flat_map]. destruct a as [|a].
  - injection Ha as ->. apply nth_error_app1. rewrite Hf. lia.
  - rewrite nth_error_app2 by (rewrite Hf; lia). rewrite Hf. replace (S a * n + b - n) with (a * n + b) by lia. now apply IH.
Qed.
Lemma flat_len : forall {A B} (f : A -> list B) n (l : list A), (forall y, length (f y) = n) -> length (flat_map f l) = length l * n.
Proof. intros A B f n l Hf. induction l; [reflexivity|]. cbn. rewrite app_length, Hf, IHl. reflexivity. Qed.

(** *** The nodes and cells of a process *)
Record good_local (l : local) : Prop := {
  g_le : forall d, d < 3 -> (0 <= axis d (lstart l) <= axis d (lend l))%Z;
  g_size : forall d, d < 3 -> axis d (lsize l) = (axis d (lend l) - axis d (lstart l))%Z;
  g_count : ((axis 0 (lsize l) + 1) * (axis 1 (lsize l) + 1) * (axis 2 (lsize l) + 1) < 2 ^ 32)%Z }.
Definition in_local (l : local) (x y z : Z) : Prop :=
  (axis 0 (lstart l) <= x <= axis 0 (lend l) /\ axis 1 (lstart l) <= y <= axis 1 (lend l) /\ axis 2 (lstart l) <= z <= axis 2 (lend l))%Z.
Definition nid (l : local) (x y z : Z) : nat := Z.to_nat (V_ID l x y z).
Lemma vid_ok : forall l sizes A O x y z, good_local l -> in_local l x y z ->
  V_ID l x y z = ((x - axis 0 (lstart l)) * (axis 1 (lsize l) + 1) * (axis 2 (lsize l) + 1) + (y - axis 1 (lstart l)) * (axis 2 (lsize l) + 1) + (z - axis 2 (lstart l)))%Z /\
  rd (new_nodes l sizes A O) (nid l x y z) = Some (node_at sizes A O x y z) /\
  vert l (new_nodes l sizes A O) x y z = Some (nid l x y z).
Proof.
  intros l sizes A O x y z G (Hx & Hy & Hz).
  pose proof (g_le l G 0 ltac:(lia)). pose proof (g_le l G 1 ltac:(lia)). pose proof (g_le l G 2 ltac:(lia)).
  pose proof (g_size l G 0 ltac:(lia)) as S0. pose proof (g_size l G 1 ltac:(lia)) as S1. pose proof (g_size l G 2 ltac:(lia)) as S2.
  pose proof (g_count l G) as C.
  remember (axis 0 (lstart l)) as a0. remember (axis 1 (lstart l)) as a1. remember (axis 2 (lstart l)) as a2.
  remember (axis 0 (lsize l)) as n0. remember (axis 1 (lsize l)) as n1. remember (axis 2 (lsize l)) as n2.
  remember (axis 0 (lend l)) as b0. remember (axis 1 (lend l)) as b1. remember (axis 2 (lend l)) as b2.
  assert (E : V_ID l x y z = ((x - a0) * (n1 + 1) * (n2 + 1) + (y - a1) * (n2 + 1) + (z - a2))%Z).
  { unfold V_ID. rewrite <- Heqa0, <- Heqa1, <- Heqa2, <- Heqn1, <- Heqn2. apply Z.mod_small. split; [nia|].
    eapply Z.le_lt_trans; [|exact C]. assert ((y - a1) * (n2 + 1) + (z - a2) <= (n1 + 1) * (n2 + 1) - 1)%Z by nia.
    assert ((x - a0) * ((n1 + 1) * (n2 + 1)) <= n0 * ((n1 + 1) * (n2 + 1)))%Z by (apply Z.mul_le_mono_nonneg_r; nia). nia. }
  split; [exact E|].
  assert (R : rd (new_nodes l sizes A O) (nid l x y z) = Some (node_at sizes A O x y z)).
  { unfold nid. rewrite E. unfold new_nodes, rd. rewrite <- Heqa0, <- Heqa1, <- Heqa2, <- Heqb0, <- Heqb1, <- Heqb2.
    replace (Z.to_nat ((x - a0) * (n1 + 1) * (n2 + 1) + (y - a1) * (n2 + 1) + (z - a2))) with
      (Z.to_nat (x - a0) * (Z.to_nat (n1 + 1) * Z.to_nat (n2 + 1)) + (Z.to_nat (y - a1) * Z.to_nat (n2 + 1) + Z.to_nat (z - a2))).
    2:{ apply Nat2Z.inj. rewrite !Nat2Z.inj_add, !Nat2Z.inj_mul, !Z2Nat.id by nia. ring. }
    assert (L2 : forall i j, length (map (fun k => node_at sizes A O i j k) (upto a2 b2)) = Z.to_nat (n2 + 1)) by (intros; rewrite map_length, upto_len; f_equal; lia).
    rewrite (flat_nth _ (Z.to_nat (n1 + 1) * Z.to_nat (n2 + 1)) _ _ _ x).
    - rewrite (flat_nth _ (Z.to_nat (n2 + 1)) _ _ _ y); [|intros; apply L2|apply upto_nth; lia|lia].
      rewrite nth_error_map, upto_nth by lia. reflexivity.
    - intros i. rewrite (flat_len _ (Z.to_nat (n2 + 1))) by (intros; apply L2). rewrite upto_len. f_equal. f_equal. lia.
    - apply upto_nth. lia.
    - assert (Z.to_nat (y - a1) < Z.to_nat (n1 + 1)) by lia. assert (Z.to_nat (z - a2) < Z.to_nat (n2 + 1)) by lia. nia. }
  split; [exact R|]. unfold vert. fold (nid l x y z). rewrite (proj2 (Nat.ltb_lt _ _) (rd_lt _ _ _ R)). reflexivity.
Qed.
Lemma nid_inj : forall l x y z x' y' z', good_local l -> in_local l x y z -> in_local l x' y' z' -> nid l x y z = nid l x' y' z' -> x = x' /\ y = y' /\ z = z'.
Proof.
  intros l x y z x' y' z' G H H' E.
  destruct (vid_ok l (1, 1, 1) (0%R, 0%R, 0%R) (0%R, 0%R, 0%R) x y z G H) as (E1 & _). destruct (vid_ok l (1, 1, 1) (0%R, 0%R, 0%R) (0%R, 0%R, 0%R) x' y' z' G H') as (E2 & _).
  unfold nid in E. destruct H as (Hx & Hy & Hz). destruct H' as (Hx' & Hy' & Hz').
  pose proof (g_size l G 0 ltac:(lia)) as S0. pose proof (g_size l G 1 ltac:(lia)) as S1. pose proof (g_size l G 2 ltac:(lia)) as S2.
  assert (Q : V_ID l x y z = V_ID l x' y' z').
  { apply Z2Nat.inj; [| |exact E]; unfold V_ID, u32; apply Z.mod_pos_bound; reflexivity. }
  rewrite E1, E2 in Q. clear E E1 E2 G.
  remember (axis 0 (lstart l)) as a0. remember (axis 1 (lstart l)) as a1. remember (axis 2 (lstart l)) as a2.
  remember (axis 1 (lsize l)) as n1. remember (axis 2 (lsize l)) as n2.
  assert (Dx : forall u v N s t, (0 <= s < N -> 0 <= t < N -> u * N + s = v * N + t -> u = v)%Z).
  { intros u v N s t Hs Ht Q'. destruct (Z.lt_trichotomy u v) as [L|[L|L]]; [|exact L|]; exfalso; nia. }
  assert (X : (x - a0 = x' - a0)%Z).
  { apply (Dx (x - a0) (x' - a0) ((n1 + 1) * (n2 + 1)) ((y - a1) * (n2 + 1) + (z - a2)) ((y' - a1) * (n2 + 1) + (z' - a2)))%Z; nia. }
  assert (Y : (y - a1 = y' - a1)%Z).
  { apply (Dx (y - a1) (y' - a1) (n2 + 1) (z - a2) (z' - a2))%Z; [lia|lia|]. rewrite X in Q. lia. }
  rewrite X, Y in Q. lia.
Qed.
