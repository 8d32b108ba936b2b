From Coq Require Import NArith.
From Verif Require Import Prelude DofModel DofSpec SparsityModel SparsitySpec.

Lemma sel_tst : forall s d k, entity d k -> (sel s d k <-> tst s d k = true).
Proof.
  intros s d k [Hd Hk]. unfold sel, get_elems_ids. rewrite filter_In, in_seq.
  unfold lookup_sz, ent_count in *. intuition lia.
Qed.
Lemma sel_range : forall s d k, sel s d k -> d < 4 -> entity d k.
Proof.
  intros s d k H Hd. unfold sel, get_elems_ids in H. apply filter_In in H. destruct H as [H _].
  apply in_seq in H. split; [assumption|]. unfold lookup_sz, ent_count in *. lia.
Qed.

Definition entityb (p : nat * nat) : bool := (fst p <? 4) && (snd p <? ent_count (fst p)).
Lemma in_all_entities : forall d k, In (d, k) all_entities <-> entity d k.
Proof.
  intros d k. unfold all_entities. rewrite in_flat_map. split.
  - intros (x & H1 & H2). apply in_seq in H1. apply in_map_iff in H2. destruct H2 as (y & E & H2).
    injection E as <- <-. apply in_seq in H2. split; lia.
  - intros [H1 H2]. exists d. split; [apply in_seq; lia|]. apply in_map, in_seq. lia.
Qed.
Definition inclb (a b : list nat) : bool := forallb (fun x => existsb (Nat.eqb x) b) a.
Lemma inclb_ok : forall a b, inclb a b = true <-> incl a b.
Proof.
  intros a b. unfold inclb. rewrite forallb_forall. split; intros H x Hx.
  - specialize (H x Hx). apply existsb_exists in H. destruct H as (y & Hy & E). apply Nat.eqb_eq in E. now subst.
  - apply existsb_exists. exists x. split; [now apply H|apply Nat.eqb_refl].
Qed.

(** Every entity is one of fifteen. *)
Ltac ent H :=
  let p := fresh in
  apply in_all_entities in H; cbn in H; repeat (destruct H as [H|H]; [injection H as <- <-|]); [..|now destruct H].

Ltac bitsimp := cbn [upd elems e0 e1 e2 e3 set_cell unset_cell set_face unset_face set_edge unset_edge set_node unset_node set_ent unset_ent sp_empty_set];
   unfold tst; cbn [upd elems e0 e1 e2 e3].

Lemma tst_set : forall d k cl s d' k', entity d k -> entity d' k' ->
  exists s', set_ent d k cl s = Some s' /\
  tst s' d' k' = tst s d' k' || (if cl then inclb (verts d' k') (verts d k) else (d' =? d) && (k' =? k)).
Proof.
  intros d k cl s d' k' H H'. destruct s as [a0 a1 a2 a3].
  ent H; ent H'; destruct cl; (eexists; split; [reflexivity|]);
  unfold set_node, set_edge, set_face, set_cell, tst; cbn [upd elems e0 e1 e2 e3];
  rewrite ?N.lor_spec; vm_compute (inclb _ _); cbn [Nat.eqb andb];
  rewrite ?orb_true_r, ?orb_false_r; try reflexivity;
  match goal with |- context [N.testbit ?b _ ] => idtac end;
  try (match goal with |- ?x || ?y = _ => let v := eval vm_compute in y in change y with v end; rewrite ?orb_true_r, ?orb_false_r; reflexivity).
Qed.
Lemma tst_unset : forall d k cl s d' k', entity d k -> entity d' k' ->
  exists s', unset_ent d k cl s = Some s' /\
  tst s' d' k' = tst s d' k' && negb (if cl then inclb (verts d' k') (verts d k) else (d' =? d) && (k' =? k)).
Proof.
  intros d k cl s d' k' H H'. destruct s as [a0 a1 a2 a3].
  ent H; ent H'; destruct cl; (eexists; split; [reflexivity|]);
  unfold unset_node, unset_edge, unset_face, unset_cell, sp_empty_set, tst; cbn [upd elems e0 e1 e2 e3];
  rewrite ?N.ldiff_spec; vm_compute (inclb _ _); cbn [Nat.eqb andb negb];
  rewrite ?andb_true_r, ?andb_false_r; try reflexivity;
  try (match goal with |- ?x && negb ?y = _ => let v := eval vm_compute in y in change y with v end; cbn [negb]; rewrite ?andb_true_r, ?andb_false_r; reflexivity).
Qed.

Lemma op_ok_run : forall o s d' k', op_ok o -> entity d' k' ->
  exists s', run_op s o = Some s' /\ (sel s' d' k' <-> op_spec o (sel s) d' k').
Proof.
  intros o s d' k' Hok He. destruct o; cbn [op_ok run_op op_spec] in *.
  - destruct (tst_set d k cl s d' k' Hok He) as (s' & E & T). exists s'. split; [exact E|].
    destruct cl; rewrite !sel_tst, T, orb_true_iff by assumption.
    + rewrite inclb_ok. reflexivity.
    + rewrite andb_true_iff, !Nat.eqb_eq. reflexivity.
  - destruct (tst_unset d k cl s d' k' Hok He) as (s' & E & T). exists s'. split; [exact E|].
    destruct cl; rewrite !sel_tst, T, andb_true_iff, negb_true_iff, <- not_true_iff_false by assumption.
    + rewrite inclb_ok. reflexivity.
    + rewrite andb_true_iff, !Nat.eqb_eq. reflexivity.
  - eexists; split; [reflexivity|]. rewrite !sel_tst by assumption. unfold tst, set_dim.
    destruct s as [a0 a1 a2 a3]. destruct d as [|[|[|[|d]]]]; try lia;
    ent He; cbn [upd elems e0 e1 e2 e3];
    (split; [intros H; try (now left); now right | intros [H|H]; try assumption; try lia; try reflexivity]).
  - eexists; split; [reflexivity|]. rewrite !sel_tst by assumption. unfold tst, unset_dim.
    destruct s as [a0 a1 a2 a3]. destruct d as [|[|[|[|d]]]]; try lia;
    ent He; cbn [upd elems e0 e1 e2 e3]; rewrite ?N.bits_0;
    (split; [intros H; try discriminate; try (split; [assumption|lia]) | intros [H1 H2]; try assumption; lia]).
  - eexists; split; [reflexivity|]. rewrite sel_tst by assumption. unfold tst. ent He; cbn; intuition discriminate.
  - eexists; split; [reflexivity|]. rewrite !sel_tst by assumption.
    rewrite <- orb_true_iff. unfold tst, sp_or, sp_map2. ent He; cbn [elems e0 e1 e2 e3]; now rewrite N.lor_spec.
  - eexists; split; [reflexivity|]. rewrite !sel_tst by assumption.
    rewrite <- andb_true_iff. unfold tst, sp_and, sp_map2. ent He; cbn [elems e0 e1 e2 e3]; now rewrite N.land_spec.
  - eexists; split; [reflexivity|]. rewrite !sel_tst by assumption.
    rewrite !not_true_iff_false.
    assert (E : tst (sp_xor s t) d' k' = xorb (tst s d' k') (tst t d' k')).
    { unfold tst, sp_xor, sp_map2. ent He; cbn [elems e0 e1 e2 e3]; now rewrite N.lxor_spec. }
    rewrite E. destruct (tst s d' k'), (tst t d' k'); cbn; intuition discriminate.
  - eexists; split; [reflexivity|]. rewrite !sel_tst by assumption.
    assert (E : tst (sp_diff s t) d' k' = tst s d' k' && negb (tst t d' k')).
    { unfold tst, sp_diff, sp_map2. ent He; cbn [elems e0 e1 e2 e3]; now rewrite N.ldiff_spec. }
    rewrite E. destruct (tst s d' k'), (tst t d' k'); cbn; intuition discriminate.
  - eexists; split; [reflexivity|]. rewrite !sel_tst by assumption.
    assert (E : tst (sp_not s) d' k' = negb (tst s d' k')).
    { unfold tst, sp_not. ent He; cbn [elems e0 e1 e2 e3]; rewrite N.lnot_spec_low by reflexivity; reflexivity. }
    rewrite E. destruct (tst s d' k'); cbn; intuition discriminate.
Qed.

Lemma run_op_total : forall o s, op_ok o -> exists s', run_op s o = Some s'.
Proof.
  intros o s H. destruct (op_ok_run o s 0 0 H ltac:(split; cbn; lia)) as (s' & E & _). eauto.
Qed.
Lemma op_spec_ext : forall o P Q d k, (forall d k, entity d k -> (P d k <-> Q d k)) -> entity d k ->
  (op_spec o P d k <-> op_spec o Q d k).
Proof.
  intros o P Q d k H He. specialize (H d k He). destruct o; cbn; try destruct cl; tauto.
Qed.
Lemma ops_spec_ext : forall l P Q d k, (forall d k, entity d k -> (P d k <-> Q d k)) -> entity d k ->
  (ops_spec l P d k <-> ops_spec l Q d k).
Proof.
  induction l as [|o l IH]; intros P Q d k H He; cbn; [now apply H|].
  apply IH; [|assumption]. intros. now apply op_spec_ext.
Qed.
Lemma run_ops_ok : forall l s, Forall op_ok l ->
  exists s', run_ops s l = Some s' /\ forall d k, entity d k -> (sel s' d k <-> ops_spec l (sel s) d k).
Proof.
  induction l as [|o l IH]; intros s H; cbn.
  - exists s. split; [reflexivity|]. tauto.
  - inversion H; subst. destruct (run_op_total o s H2) as (s1 & E1). rewrite E1. cbn.
    destruct (IH s1 H3) as (s' & E & T). exists s'. split; [exact E|]. intros d k He.
    rewrite (T d k He). apply ops_spec_ext; [|assumption]. intros d0 k0 He0.
    destruct (op_ok_run o s d0 k0 H2 He0) as (s1' & E1' & T1). rewrite E1 in E1'. injection E1' as <-. exact T1.
Qed.

(** *** Bits out of range *)
Definition is_not (o : spop) : bool := match o with ONot => true | _ => false end.
Definition arg_ok (o : spop) : Prop :=
  match o with OUnion t | OInter t | OXor t | ODiff t => in_range t | ONot => False | _ => True end.
Lemma lt_pow2_bits : forall n a, (a < 2 ^ n)%N <-> forall m, (n <= m)%N -> N.testbit a m = false.
Proof.
  intros n a. split.
  - intros H m Hm. destruct (N.eq_dec a 0) as [->|Ha]; [apply N.bits_0|].
    apply N.bits_above_log2. apply N.log2_lt_pow2 in H; lia.
  - intros H. destruct (N.eq_dec a 0) as [->|Ha]; [apply N.neq_0_lt_0, N.pow_nonzero; discriminate|].
    apply N.log2_lt_pow2; [lia|]. destruct (N.lt_ge_cases (N.log2 a) n) as [L|L]; [assumption|].
    specialize (H _ L). rewrite N.bit_log2 in H by assumption. discriminate.
Qed.
Lemma in_range_bits : forall s, in_range s <-> forall d k, d < 4 -> ent_count d <= k -> tst s d k = false.
Proof.
  intros s. unfold in_range.
  change 16%N with (2 ^ 4)%N. change 64%N with (2 ^ 6)%N. change 2%N with (2 ^ 1)%N at 4.
  rewrite !lt_pow2_bits. split.
  - intros (H0 & H1 & H2 & H3) d k Hd Hk. unfold tst.
    do 4 (destruct d as [|d]; [cbn [elems]; (apply H0 || apply H1 || apply H2 || apply H3); cbn in Hk; lia|]). lia.
  - intros H. assert (G : forall d m, d < 4 -> (N.of_nat (ent_count d) <= m)%N -> N.testbit (elems s d) m = false).
    { intros d m Hd Hm. specialize (H d (N.to_nat m) Hd ltac:(lia)). unfold tst in H. now rewrite N2Nat.id in H. }
    split; [|split; [|split]]; intros m Hm.
    + apply (G 0); [lia|exact Hm]. + apply (G 1); [lia|exact Hm]. + apply (G 2); [lia|exact Hm]. + apply (G 3); [lia|exact Hm].
Qed.
Lemma land_lt : forall n a b, (a < 2 ^ n -> N.land a b < 2 ^ n)%N.
Proof. intros n a b H. rewrite lt_pow2_bits in *. intros m Hm. now rewrite N.land_spec, H. Qed.
Lemma lor_lt : forall n a b, (a < 2 ^ n -> b < 2 ^ n -> N.lor a b < 2 ^ n)%N.
Proof. intros n a b Ha Hb. rewrite lt_pow2_bits in *. intros m Hm. now rewrite N.lor_spec, Ha, Hb. Qed.
Lemma lxor_lt : forall n a b, (a < 2 ^ n -> b < 2 ^ n -> N.lxor a b < 2 ^ n)%N.
Proof. intros n a b Ha Hb. rewrite lt_pow2_bits in *. intros m Hm. now rewrite N.lxor_spec, Ha, Hb. Qed.
Lemma ldiff_lt : forall n a b, (a < 2 ^ n -> N.ldiff a b < 2 ^ n)%N.
Proof. intros n a b Ha. rewrite lt_pow2_bits in *. intros m Hm. now rewrite N.ldiff_spec, Ha. Qed.
Lemma run_op_range : forall o s s', op_ok o -> arg_ok o -> in_range s -> run_op s o = Some s' -> in_range s'.
Proof.
  intros o [a0 a1 a2 a3] s' Hok Harg (H0 & H1 & H2 & H3) E. cbn [e0 e1 e2 e3] in *.
  assert (B : forall k n, (k < n)%nat -> (bit k < 2 ^ N.of_nat n)%N).
  { intros k n Hk. unfold bit. rewrite N.shiftl_1_l. apply N.pow_lt_mono_r; lia. }
  destruct o; cbn [run_op op_ok arg_ok] in *; try contradiction.
  - ent Hok; destruct cl; injection E as <-;
    unfold set_node, set_edge, set_face, set_cell; cbn [upd elems e0 e1 e2 e3];
    (repeat split; cbn [e0 e1 e2 e3]; try assumption;
     try (apply (lor_lt 4); [assumption|reflexivity]); try (apply (lor_lt 6); [assumption|reflexivity]); reflexivity).
  - ent Hok; destruct cl; injection E as <-;
    unfold unset_node, unset_edge, unset_face, unset_cell, sp_empty_set; cbn [upd elems e0 e1 e2 e3];
    (repeat split; cbn [e0 e1 e2 e3]; try assumption;
     try (apply (ldiff_lt 4); assumption); try (apply (ldiff_lt 6); assumption); reflexivity).
  - injection E as <-. do 4 (destruct d as [|d]; [repeat split; cbn; (assumption || reflexivity)|]). lia.
  - injection E as <-. do 4 (destruct d as [|d]; [repeat split; cbn; (assumption || reflexivity)|]). lia.
  - injection E as <-. repeat split.
  - injection E as <-. destruct Harg as (G0 & G1 & G2 & G3). repeat split; cbn [sp_or sp_map2 e0 e1 e2 e3].
    + now apply (lor_lt 4). + now apply (lor_lt 6). + now apply (lor_lt 4). + now apply (lor_lt 1).
  - injection E as <-. repeat split; cbn [sp_and sp_map2 e0 e1 e2 e3].
    + now apply (land_lt 4). + now apply (land_lt 6). + now apply (land_lt 4). + now apply (land_lt 1).
  - injection E as <-. destruct Harg as (G0 & G1 & G2 & G3). repeat split; cbn [sp_xor sp_map2 e0 e1 e2 e3].
    + now apply (lxor_lt 4). + now apply (lxor_lt 6). + now apply (lxor_lt 4). + now apply (lxor_lt 1).
  - injection E as <-. repeat split; cbn [sp_diff sp_map2 e0 e1 e2 e3].
    + now apply (ldiff_lt 4). + now apply (ldiff_lt 6). + now apply (ldiff_lt 4). + now apply (ldiff_lt 1).
Qed.
Lemma run_ops_range : forall l s s', Forall op_ok l -> Forall arg_ok l -> in_range s -> run_ops s l = Some s' -> in_range s'.
Proof.
  induction l as [|o l IH]; cbn; intros s s' H1 H2 Hs E; [injection E as <-; assumption|].
  inversion H1; inversion H2; subst. destruct (run_op s o) as [s1|] eqn:E1; [|discriminate].
  apply (IH s1); try assumption. now apply (run_op_range o s).
Qed.

Lemma byte_zero : forall s d, d < 4 -> in_range s ->
  (empty_dim s d = true <-> forall k, k < ent_count d -> tst s d k = false).
Proof.
  intros s d Hd Hr. unfold empty_dim. rewrite N.eqb_eq. split.
  - intros E k _. unfold tst. rewrite E. apply N.bits_0.
  - intros H. apply N.bits_inj. intros m. rewrite N.bits_0.
    destruct (Nat.lt_ge_cases (N.to_nat m) (ent_count d)) as [L|L].
    + specialize (H _ L). unfold tst in H. now rewrite N2Nat.id in H.
    + pose proof (proj1 (in_range_bits s) Hr d _ Hd L) as G. unfold tst in G. now rewrite N2Nat.id in G.
Qed.
Lemma is_empty_iff : forall s, in_range s -> (is_empty s = true <-> forall d k, entity d k -> ~ sel s d k).
Proof.
  intros s Hr. unfold is_empty. rewrite N.eqb_eq, !N.lor_eq_0_iff. split.
  - intros (((E0 & E1) & E2) & E3) d k He. rewrite sel_tst by assumption. unfold tst. ent He; cbn [elems];
    rewrite ?E0, ?E1, ?E2, ?E3, N.bits_0; discriminate.
  - intros H. assert (G : forall d, d < 4 -> elems s d = 0%N).
    { intros d Hd. apply N.eqb_eq, (byte_zero s d Hd Hr). intros k Hk.
      specialize (H d k (conj Hd Hk)). rewrite sel_tst in H by (split; assumption). now apply not_true_iff_false in H. }
    repeat split; [apply (G 0)|apply (G 1)|apply (G 2)|apply (G 3)]; lia.
Qed.
Lemma empty_dim_iff : forall s d, in_range s -> d < 4 -> (empty_dim s d = true <-> forall k, entity d k -> ~ sel s d k).
Proof.
  intros s d Hr Hd. rewrite byte_zero by assumption. split.
  - intros H k He. rewrite sel_tst by assumption. rewrite H; [discriminate|apply He].
  - intros H k Hk. specialize (H k (conj Hd Hk)). rewrite sel_tst in H by (split; assumption). now apply not_true_iff_false in H.
Qed.

(** *** Walking over the positions *)
Definition tstp (s : sparsity) (p : nat * nat) : bool := tst s (fst p) (snd p).
Lemma begin_pos_dim_eq : forall s d, d < 4 ->
  begin_pos_dim s d = option_map (pair d) (scan (tst s d) 0 (lookup_sz d)).
Proof.
  intros s d Hd. unfold begin_pos_dim, empty_dim. destruct (N.eqb (elems s d) 0) eqn:E; [|reflexivity].
  apply N.eqb_eq in E. unfold tst. rewrite E.
  do 4 (destruct d as [|d]; [cbn; rewrite ?N.bits_0; reflexivity|]). lia.
Qed.
Ltac split15 H l1 :=
  let rec go :=
    (destruct l1 as [|? l1]; [injection H as <- <-|cbn in H; let H' := fresh in injection H as _ H'; rename H' into H; go]) in go.
Lemma begin_pos_find : forall s, begin_pos s = find (tstp s) all_entities.
Proof.
  intros s. unfold begin_pos. cbn [first_dim]. rewrite !begin_pos_dim_eq by lia.
  cbn [lookup_sz nth scan all_entities flat_map seq ent_count map app find]. unfold tstp. cbn [fst snd].
  repeat (destruct (tst s _ _); [reflexivity|]). reflexivity.
Qed.
Lemma next_pos_find : forall s l1 x l2, all_entities = l1 ++ x :: l2 -> next_pos s x = find (tstp s) l2.
Proof.
  intros s l1 x l2 H.
  assert (Hs : skipn (S (length l1)) all_entities = l2 /\ nth_error all_entities (length l1) = Some x /\ length l1 < 15).
  { assert (L : length all_entities = length l1 + S (length l2)) by (rewrite H, app_length; reflexivity).
    split; [|split].
    - rewrite H. rewrite skipn_app, skipn_all2 by lia. replace (S (length l1) - length l1) with 1 by lia. reflexivity.
    - rewrite H, nth_error_app2 by lia. now rewrite Nat.sub_diag.
    - change (length all_entities) with 15 in L. lia. }
  clear H. destruct Hs as (H1 & H2 & H3). subst l2. revert H2. generalize (length l1) H3. clear. intros n Hn E.
  unfold next_pos.
  do 15 (destruct n as [|n]; [cbn in E; injection E as <-;
    cbn [lookup_sz nth scan all_entities flat_map seq ent_count map app find skipn first_dim Nat.sub];
    rewrite ?begin_pos_dim_eq by lia; cbn [lookup_sz nth scan]; unfold tstp; cbn [fst snd];
    repeat (destruct (tst s _ _); [reflexivity|]); reflexivity|]). lia.
Qed.
Lemma walk_suffix : forall s l2 l1 fuel, all_entities = l1 ++ l2 -> length l2 <= fuel ->
  walk s fuel (find (tstp s) l2) = Some (filter (tstp s) l2).
Proof.
  intros s. induction l2 as [|x l2 IH]; intros l1 fuel E Hf.
  - cbn. now destruct fuel.
  - cbn [find filter]. destruct (tstp s x) eqn:Ex.
    + cbn in Hf. destruct fuel as [|fuel]; [lia|]. cbn [walk]. rewrite (next_pos_find s l1 x l2 E).
      rewrite (IH (l1 ++ [x])); [reflexivity|now rewrite <- app_assoc|lia].
    + apply (IH (l1 ++ [x])); [now rewrite <- app_assoc|cbn in Hf; lia].
Qed.
Lemma walk_all : forall s, walk s 15 (begin_pos s) = Some (filter (tstp s) all_entities).
Proof. intros s. rewrite begin_pos_find. now apply (walk_suffix s all_entities []). Qed.
Lemma next_on_dim : forall s d k, entity d k ->
  next_pos_on_dim s (d, k) = option_map (pair d) (find (tst s d) (seq (S k) (ent_count d - S k))).
Proof.
  intros s d k He. unfold next_pos_on_dim. f_equal. change (lookup_sz d) with (ent_count d).
  generalize (ent_count d - S k). generalize (S k). clear. intros m n. revert m. induction n as [|n IH]; intros m; cbn; [reflexivity|].
  destruct (tst s d m); [reflexivity|apply IH].
Qed.
Lemma selb_iff : forall s d k, selb s d k = true <-> sel s d k.
Proof.
  intros. unfold selb, sel. rewrite existsb_exists. split.
  - intros (x & H & E). apply Nat.eqb_eq in E. now subst.
  - intros H. exists k. split; [assumption|apply Nat.eqb_refl].
Qed.
Lemma selb_tst : forall s d k, entity d k -> selb s d k = tst s d k.
Proof.
  intros s d k He. destruct (tst s d k) eqn:E.
  - now apply selb_iff, sel_tst.
  - apply not_true_iff_false. rewrite selb_iff, sel_tst by assumption. congruence.
Qed.
