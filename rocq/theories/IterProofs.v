From Coq Require Import NArith FinFun.
From Verif Require Import Prelude DofModel DofSpec DofProofs DofProofs2 SparsityModel SparsitySpec SparsityProofs.

Lemma some_inj : forall {A} (x y : A), Some x = Some y -> x = y.
Proof. congruence. Qed.
(** *** Linked lists of visits *)
Definition follows {A} (beg : option (option A)) (inc : A -> option (option A)) (L : list A) : Prop :=
  beg = Some (hd_error L) /\ forall l1 x l2, L = l1 ++ x :: l2 -> inc x = Some (hd_error l2).

Lemma app_split : forall {A} (B R l1 l2 : list A) x, B ++ R = l1 ++ x :: l2 ->
  (exists b2, B = l1 ++ x :: b2 /\ l2 = b2 ++ R) \/ (exists r1, l1 = B ++ r1 /\ R = r1 ++ x :: l2).
Proof.
  induction B as [|b B IH]; intros R l1 l2 x E; cbn in E.
  - right. exists l1. auto.
  - destruct l1 as [|y l1]; cbn in E; injection E as -> E.
    + left. exists B. auto.
    + destruct (IH _ _ _ _ E) as [(b2 & -> & ->)|(r1 & -> & ->)].
      * left. exists b2. auto.
      * right. exists r1. auto.
Qed.
Lemma follow_concat : forall {A} (inc : A -> option (option A)) (Ls : list (list A)),
  (forall B l1 x y l2, In B Ls -> B = l1 ++ x :: y :: l2 -> inc x = Some (Some y)) ->
  (forall A' B C l1 x, Ls = A' ++ B :: C -> B = l1 ++ [x] -> inc x = Some (hd_error (concat C))) ->
  forall l1 x l2, concat Ls = l1 ++ x :: l2 -> inc x = Some (hd_error l2).
Proof.
  intros A inc. induction Ls as [|B Ls IH]; intros H1 H2 l1 x l2 E; cbn in E; [now destruct l1|].
  destruct (app_split _ _ _ _ _ E) as [(b2 & EB & ->)|(r1 & -> & ER)].
  - destruct b2 as [|y b2]; cbn [app].
    + apply (H2 [] B Ls l1 x); auto.
    + cbn. now apply (H1 B l1 x y b2); [left|].
  - apply (IH) with (l1 := r1); [..|assumption].
    + intros B' m1 y z m2 Hin. apply H1. now right.
    + intros A' B' C m1 y EL EB'. apply (H2 (B :: A') B' C m1 y); [|assumption]. now rewrite EL.
Qed.
Lemma collect_follows : forall pref d s L beg, follows beg (sp_incr pref d s) L ->
  forall l1 l2 fuel, L = l1 ++ l2 -> length l2 <= fuel -> sp_collect pref d s fuel (hd_error l2) = Some l2.
Proof.
  intros pref d s L beg [_ H] l1 l2. revert l1. induction l2 as [|x l2 IH]; intros l1 fuel E Hf.
  - now destruct fuel.
  - cbn in Hf. destruct fuel as [|fuel]; [lia|]. cbn [hd_error sp_collect]. rewrite (H l1 x l2 E). cbn [obind].
    rewrite (IH (l1 ++ [x])); [reflexivity|now rewrite <- app_assoc|lia].
Qed.
Lemma iterate_follows : forall pref d s L, follows (sp_begin pref d s) (sp_incr pref d s) L -> length L <= num_dof_tet d ->
  sp_iterate pref d s = Some L.
Proof.
  intros pref d s L H Hl. unfold sp_iterate. destruct H as [H1 H2] eqn:?. rewrite H1. cbn [obind].
  apply (collect_follows pref d s L (sp_begin pref d s)) with (l1 := []); auto.
Qed.

(** *** Leaf maps *)
(** Blocks of dofs with the same type and entity, in visiting order. *)
Definition dim_blocks (i : nat) : list (nat * nat) :=
  match i with
  | 0 => [(0,0);(0,1);(0,2);(0,3)]
  | 1 => [(1,0);(2,0);(1,1);(2,1);(1,2);(2,2);(1,3);(2,3);(1,4);(2,4);(1,5);(2,5)]
  | 2 => [(3,0);(4,0);(3,1);(4,1);(3,2);(4,2);(3,3);(4,3)]
  | _ => [(5,0)]
  end.
Fixpoint blocks_n (i n : nat) : list (nat * nat) :=
  match n with O => [] | S n' => dim_blocks i ++ blocks_n (S i) n' end.
Definition all_blocks : list (nat * nat) := blocks_n 0 4.
Lemma find_app : forall {A} (f : A -> bool) a b, find f (a ++ b) = match find f a with Some x => Some x | None => find f b end.
Proof. induction a as [|x a IH]; intros b; cbn; [reflexivity|]. destruct (f x); auto. Qed.
Ltac inl := cbn; repeat (first [left; reflexivity | right]).
Section leaf.
Context (nd : list nat) (sy : option (list nat)).
Let d := Unite nd sy.
Context (Hwf : wf d) (s : sparsity) (Hr : in_range s).
Definition blk (p : nat * nat) : bool := tst s (geom_dim (fst p)) (snd p) && (0 <? nth (fst p) nd 0).
Definition mk (t e p : nat) : LocalOrder :=
  LO (nth t (shiftTetDof nd) 0 + e * nth t nd 0 + p) t e p (loc_sym sy t p).
Definition block_list (p : nat * nat) : list LocalOrder := map (mk (fst p) (snd p)) (seq 0 (nth (fst p) nd 0)).
Definition leaf_list : list LocalOrder := concat (map block_list (filter blk all_blocks)).

Lemma nd6 : length nd = 6.
Proof. clear -Hwf. unfold d in Hwf. cbn in Hwf. destruct sy; intuition. Qed.
Lemma num_leaf : forall t, t < 6 -> num_dof d t = nth t nd 0.
Proof. intros t Ht. now rewrite num_dof_cnt. Qed.
Lemma shift_diff : forall t, t < 6 -> nth (t + 1) (shiftDof nd) 0 - nth t (shiftDof nd) 0 = nth t nd 0.
Proof. intros t Ht. unfold shiftDof. apply nth_prefix_diff. rewrite nd6. lia. Qed.
Lemma at_leaf : forall t e p, t < 6 -> e < tet_elems t -> p < nth t nd 0 ->
  tet_dof_id true d t e p = Some (nth t (shiftTetDof nd) 0 + e * nth t nd 0 + p, loc_sym sy t p).
Proof.
  intros t e p Ht He Hp. unfold d. cbn [tet_dof_id]. rewrite chk_locus_ok by (assumption || (cbn [cnt]; auto)).
  rewrite shift_diff by assumption. reflexivity.
Qed.
Lemma local_mk : forall t e p, t < 6 -> e < tet_elems t -> p < nth t nd 0 -> local_order d (lo_gid (mk t e p)) = Some (mk t e p).
Proof.
  intros t e p Ht He Hp. destruct (tet_dof_id_layout true d Hwf I t e p) as (i & sy' & E & El).
  { unfold d; cbn [cnt]; auto. }
  rewrite at_leaf in E by assumption.
  assert (Ei : i = lo_gid (mk t e p)) by (unfold mk; cbn [lo_gid]; congruence).
  assert (Es : sy' = loc_sym sy t p) by congruence. clear E. subst i sy'.
  rewrite local_order_layout by assumption. rewrite El. reflexivity.
Qed.
Lemma valid_mk : forall t e p, t < 6 -> e < tet_elems t -> p < nth t nd 0 -> valid_lo d (mk t e p) = true.
Proof.
  intros t e p Ht He Hp. unfold valid_lo. apply andb_true_iff. split.
  - pose proof (local_mk t e p Ht He Hp) as E. rewrite local_order_layout in E by assumption.
    destruct (nth_error (layout d) (lo_gid (mk t e p))) eqn:En; [|discriminate].
    apply Nat.ltb_lt. rewrite length_layout_num by assumption. apply nth_error_Some. congruence.
  - apply valid_locus_iff; [assumption|]. unfold d. cbn [cnt mk lo_type lo_elem lo_leid]. auto.
Qed.
Definition first_of (o : option (nat * nat)) : option LocalOrder := option_map (fun p => mk (fst p) (snd p) 0) o.

Lemma block_valid : forall t e, In (t, e) all_blocks -> t < 6 /\ e < tet_elems t.
Proof.
  intros t e H. cbn in H. repeat (destruct H as [H|H]; [injection H as <- <-; cbn; lia|]). destruct H.
Qed.
Lemma all_blocks_complete : forall t e, t < 6 -> e < tet_elems t -> In (t, e) all_blocks.
Proof.
  intros t e Ht He. do 6 (destruct t as [|t]; [cbn in He;
    do 6 (destruct e as [|e]; [first [lia|inl]|]); lia|]). lia.
Qed.
Lemma at_locus_leaf : forall t e, In (t, e) all_blocks -> 0 < nth t nd 0 -> at_locus d t e 0 = Some (Some (mk t e 0)).
Proof.
  intros t e Hb Hn. apply block_valid in Hb. unfold at_locus. rewrite at_leaf by (apply Hb || assumption). reflexivity.
Qed.
Lemma empty_tst : forall i k, empty_dim s i = true -> tst s i k = false.
Proof. intros i k E. unfold empty_dim in E. apply N.eqb_eq in E. unfold tst. rewrite E. apply N.bits_0. Qed.
Lemma scan_false : forall f n m, scan f m n = None -> forall k, m <= k < m + n -> f k = false.
Proof.
  induction n as [|n IH]; intros m H k Hk; [lia|]. cbn in H. destruct (f m) eqn:E; [discriminate|].
  destruct (Nat.eq_dec k m) as [->|Hne]; [assumption|]. apply (IH (S m)); [assumption|lia].
Qed.
Lemma begin_dim_some : forall i, i < 4 -> empty_dim s i = false -> exists k, begin_pos_dim s i = Some (i, k) /\ scan (tst s i) 0 (lookup_sz i) = Some k.
Proof.
  intros i Hi E. unfold begin_pos_dim. rewrite E. destruct (scan (tst s i) 0 (lookup_sz i)) as [k|] eqn:Es; [exists k; auto|].
  exfalso. apply not_true_iff_false in E. apply E. apply byte_zero; try assumption.
  intros k Hk. apply (scan_false _ _ _ Es). change (lookup_sz i) with (ent_count i). lia.
Qed.
Ltac chain E2 := repeat match type of E2 with context [tst s ?a ?b] => destruct (tst s a b) eqn:?; [injection E2 as <-; reflexivity|] end; try discriminate.
Lemma find_dim : forall i, i < 4 ->
  find blk (dim_blocks i) =
  if negb (ndofs_compact d i =? 0) && negb (empty_dim s i) then
    Some (begin_type d i, match begin_pos_dim s i with Some (_, k) => k | None => 6 end)
  else None.
Proof.
  intros i Hlt. destruct (empty_dim s i) eqn:Ee.
  - rewrite andb_false_r. pose proof (fun k => empty_tst i k Ee) as T.
    destruct i as [|[|[|[|i]]]]; [..|lia]; cbn [dim_blocks find]; unfold blk; cbn [fst snd];
    change (geom_dim 0) with 0; change (geom_dim 1) with 1; change (geom_dim 2) with 1;
    change (geom_dim 3) with 2; change (geom_dim 4) with 2; change (geom_dim 5) with 3; rewrite !T; reflexivity.
  - rewrite andb_true_r. destruct (begin_dim_some i Hlt Ee) as (k & E1 & E2). rewrite E1.
    destruct i as [|[|[|[|i]]]]; [..|lia]; unfold begin_type, ndofs_compact; rewrite !num_leaf by lia;
    cbn [dim_blocks find]; unfold blk; cbn [fst snd];
    change (geom_dim 0) with 0; change (geom_dim 1) with 1; change (geom_dim 2) with 1;
    change (geom_dim 3) with 2; change (geom_dim 4) with 2; change (geom_dim 5) with 3;
    generalize (nth 0 nd 0); generalize (nth 1 nd 0); generalize (nth 2 nd 0); generalize (nth 3 nd 0);
    generalize (nth 4 nd 0); generalize (nth 5 nd 0); intros n5 n4 n3 n2 n1 n0.
    + destruct n0; cbn [Nat.ltb Nat.leb Nat.eqb negb]; rewrite ?andb_false_r, ?andb_true_r; [reflexivity|].
      cbn [lookup_sz nth scan] in E2. chain E2.
    + cbn [lookup_sz nth scan] in E2.
      destruct n1, n2; cbn [Nat.ltb Nat.leb Nat.eqb negb Nat.add]; rewrite ?andb_false_r, ?andb_true_r; [reflexivity|..]; chain E2.
    + cbn [lookup_sz nth scan] in E2.
      destruct n3, n4; cbn [Nat.ltb Nat.leb Nat.eqb negb Nat.add]; rewrite ?andb_false_r, ?andb_true_r; [reflexivity|..]; chain E2.
    + destruct n5; cbn [Nat.ltb Nat.leb Nat.eqb negb]; rewrite ?andb_false_r, ?andb_true_r; [reflexivity|].
      cbn [lookup_sz nth scan] in E2. chain E2.
Qed.
Lemma in_blocks_n : forall n i p, i + n <= 4 -> In p (blocks_n i n) -> In p all_blocks.
Proof.
  intros n i p Hi. assert (E : all_blocks = blocks_n 0 i ++ blocks_n i n ++ blocks_n (i + n) (4 - (i + n))).
  { do 5 (destruct i as [|i]; [do 5 (destruct n as [|n]; [first [reflexivity|lia]|]); lia|]). lia. }
  rewrite E, !in_app_iff. tauto.
Qed.
Lemma base_begin_from_ok : forall n i, i + n = 4 -> base_begin_from d s i n = Some (first_of (find blk (blocks_n i n))).
Proof.
  induction n as [|n IH]; intros i Hi; [reflexivity|].
  cbn [base_begin_from blocks_n]. rewrite find_app, find_dim by lia.
  destruct (negb (ndofs_compact d i =? 0) && negb (empty_dim s i)) eqn:E; [|apply IH; lia].
  pose proof (find_dim i ltac:(lia)) as F. rewrite E in F. apply find_some in F. destruct F as [F1 F2].
  unfold blk in F2. apply andb_true_iff in F2. destruct F2 as [_ F2]. apply Nat.ltb_lt in F2. cbn [fst] in F2.
  cbn [first_of option_map fst snd]. apply at_locus_leaf; [|assumption].
  apply (in_blocks_n (S n) i); [lia|]. cbn [blocks_n]. apply in_app_iff. now left.
Qed.
Lemma elems_unset_below : forall c i, i < 4 -> c <= 4 -> elems (unset_below c s) i = if i <? c then 0%N else elems s i.
Proof.
  induction c as [|c IH]; intros i Hi Hc; [reflexivity|]. cbn [unset_below]. unfold unset_dim.
  assert (E : elems (upd (unset_below c s) c 0%N) i = if i =? c then 0%N else elems (unset_below c s) i).
  { destruct c as [|[|[|[|c]]]]; [..|lia]; destruct i as [|[|[|[|i]]]]; try lia; reflexivity. }
  rewrite E, IH by lia. destruct (i =? c) eqn:E1, (i <? c) eqn:E2, (i <? S c) eqn:E3; try reflexivity; exfalso;
  rewrite ?Nat.eqb_eq, ?Nat.eqb_neq, ?Nat.ltb_lt, ?Nat.ltb_ge in *; lia.
Qed.
Lemma base_begin_below : forall c, c <= 4 -> base_begin d (unset_below c s) = Some (first_of (find blk (blocks_n c (4 - c)))).
Proof.
  intros c Hc. rewrite <- base_begin_from_ok by lia. unfold base_begin.
  assert (H1 : forall n i, i + n = c -> base_begin_from d (unset_below c s) i (n + (4 - c)) = base_begin_from d (unset_below c s) c (4 - c)).
  { induction n as [|n IH]; intros i Hi; [cbn [Nat.add] in *; now replace i with c by lia|].
    cbn [Nat.add base_begin_from]. unfold empty_dim at 1. rewrite elems_unset_below by lia.
    replace (i <? c) with true by (symmetry; apply Nat.ltb_lt; lia). cbn [N.eqb negb]. rewrite andb_false_r. apply IH. lia. }
  pose proof (H1 c 0 ltac:(lia)) as E. replace (c + (4 - c)) with 4 in E by lia. rewrite E.
  assert (H2 : forall n i, c <= i -> i + n = 4 -> base_begin_from d (unset_below c s) i n = base_begin_from d s i n).
  { induction n as [|n IH]; intros i Hi Hn; [reflexivity|]. cbn [base_begin_from].
    unfold begin_pos_dim, empty_dim, tst. rewrite elems_unset_below by lia.
    replace (i <? c) with false by (symmetry; apply Nat.ltb_ge; lia). rewrite IH by lia. reflexivity. }
  apply H2; lia.
Qed.
Lemma first_dim_begin : forall n i, i + n = 4 ->
  match first_dim s i n with None => Some None | Some (c, _) => base_begin d (unset_below c s) end
  = Some (first_of (find blk (blocks_n i n))) /\ (forall c k, first_dim s i n = Some (c, k) -> i <= c).
Proof.
  induction n as [|n IH]; intros i Hi; [split; [reflexivity|discriminate]|].
  cbn [first_dim]. destruct (empty_dim s i) eqn:Ee.
  - unfold begin_pos_dim. rewrite Ee. destruct (IH (S i) ltac:(lia)) as [I1 I2]. split.
    + rewrite I1. cbn [blocks_n]. rewrite find_app, find_dim by lia. rewrite Ee, andb_false_r. reflexivity.
    + intros c k H. specialize (I2 c k H). lia.
  - destruct (begin_dim_some i ltac:(lia) Ee) as (k & E & _). rewrite E. split.
    + rewrite base_begin_below by lia. replace (4 - i) with (S n) by lia. reflexivity.
    + intros c k' H. injection H as <- _. lia.
Qed.

Lemma incr_inside : forall t e p, t < 6 -> e < tet_elems t -> S p < nth t nd 0 ->
  incr_unite nd sy s (mk t e p) = Some (Some (mk t e (S p))).
Proof.
  intros t e p Ht He Hp. unfold incr_unite. fold d. rewrite guard_true by (apply valid_mk; lia).
  unfold mk at 1 2 3 4 5 6. cbn [lo_leid lo_type lo_elem lo_gid]. rewrite num_leaf by assumption.
  replace (p <? nth t nd 0 - 1) with true by (symmetry; apply Nat.ltb_lt; lia).
  unfold mk. rewrite Nat.add_succ_r. reflexivity.
Qed.
(** The last dof of a block: on to the next block. *)
Definition after_block (t e : nat) : option (option LocalOrder) :=
  if (t =? 1) && (0 <? nth 2 nd 0) then Some (Some (mk 2 e 0))
  else if (t =? 3) && (0 <? nth 4 nd 0) then Some (Some (mk 4 e 0))
  else
    match next_pos s (geom_dim t, e) with
    | None => Some None
    | Some (dim, k) =>
        if geom_dim t =? dim then
          let t' := if dim =? 1 then (if 0 <? nth 1 nd 0 then 1 else t)
                    else if dim =? 2 then (if 0 <? nth 3 nd 0 then 3 else t) else t in
          Some (Some (mk t' k 0))
        else base_begin d (unset_below dim s)
    end.
Lemma incr_last : forall t e p, t < 6 -> e < tet_elems t -> S p = nth t nd 0 ->
  incr_unite nd sy s (mk t e p) = after_block t e.
Proof.
  intros t e p Ht He Hp. unfold incr_unite. fold d. rewrite guard_true by (apply valid_mk; lia).
  change (lo_type (mk t e p)) with t. change (lo_elem (mk t e p)) with e. change (lo_leid (mk t e p)) with p.
  rewrite !num_leaf by lia.
  replace (p <? nth t nd 0 - 1) with false by (symmetry; apply Nat.ltb_ge; lia).
  assert (M : forall t' e', t' < 6 -> LO (nth t' (shiftTetDof nd) 0 + (nth (t' + 1) (shiftDof nd) 0 - nth t' (shiftDof nd) 0) * e') t' e' 0 (loc_sym sy t' 0) = mk t' e' 0).
  { intros t' e' Ht'. unfold mk. rewrite shift_diff by assumption. f_equal. lia. }
  unfold after_block. cbv zeta. rewrite !M by lia.
  destruct ((t =? 1) && (0 <? nth 2 nd 0)); [reflexivity|]. destruct ((t =? 3) && (0 <? nth 4 nd 0)); [reflexivity|].
  destruct (next_pos s (geom_dim t, e)) as [[dim k]|]; [|reflexivity]. destruct (geom_dim t =? dim); [|reflexivity].
  rewrite M; [reflexivity|]. repeat match goal with |- context [if ?b then _ else _] => destruct b end; lia.
Qed.
Lemma after_block_ok : forall l1 t e l2, all_blocks = l1 ++ (t, e) :: l2 -> blk (t, e) = true ->
  after_block t e = Some (first_of (find blk l2)).
Proof.
  intros l1 t e l2 H Hb.
  assert (Hs : skipn (S (length l1)) all_blocks = l2 /\ nth_error all_blocks (length l1) = Some (t, e) /\ length l1 < 25).
  { assert (L : length all_blocks = length l1 + S (length l2)) by (rewrite H, app_length; reflexivity).
    split; [|split].
    - rewrite H. rewrite skipn_app, skipn_all2 by lia. replace (S (length l1) - length l1) with 1 by lia. reflexivity.
    - rewrite H, nth_error_app2 by lia. now rewrite Nat.sub_diag.
    - change (length all_blocks) with 25 in L. lia. }
  clear H. destruct Hs as (H1 & H2 & H3). subst l2. revert H2. generalize (length l1) H3. clear l1 H3. intros n Hn E.
  unfold blk in Hb. apply andb_true_iff in Hb. destruct Hb as [Ht Hb]. cbn [fst snd] in Hb, Ht.
  unfold after_block, next_pos.
  do 4 (destruct n as [|n]; [
    cbn in E; injection E as <- <-; change (geom_dim 0) with 0;
    match goal with |- context [skipn ?m all_blocks] => change (skipn m all_blocks) with (skipn m (dim_blocks 0) ++ blocks_n 1 3) end;
    rewrite find_app; destruct (first_dim_begin 3 1 eq_refl) as [G K]; revert G; generalize (find blk (blocks_n 1 3)); intros R G; change (lookup_sz 0) with 4; change (lookup_sz 1) with 6; change (lookup_sz 2) with 4; change (lookup_sz 3) with 1; cbn [dim_blocks skipn find Nat.sub scan Nat.eqb andb];
    unfold blk; cbn [fst snd]; change (geom_dim 0) with 0; rewrite ?Hb, ?andb_true_r;
    clear Ht; repeat (destruct (tst s 0 _); [reflexivity|]);
    rewrite <- G;
    destruct (first_dim s 1 3) as [[[|c] k]|]; first [reflexivity | exfalso; specialize (K _ _ eq_refl); clear -K; lia]|]).
  do 12 (destruct n as [|n]; [
    cbn in E; injection E as <- <-; change (geom_dim 1) with 1 in *; change (geom_dim 2) with 1 in *;
    match goal with |- context [skipn (S (S (S (S ?m)))) all_blocks] => change (skipn (S (S (S (S m)))) all_blocks) with (skipn m (dim_blocks 1) ++ blocks_n 2 2) end;
    rewrite find_app; destruct (first_dim_begin 2 2 eq_refl) as [G K]; revert G; generalize (find blk (blocks_n 2 2)); intros R G; change (lookup_sz 0) with 4; change (lookup_sz 1) with 6; change (lookup_sz 2) with 4; change (lookup_sz 3) with 1; cbn [dim_blocks skipn find Nat.sub scan Nat.eqb andb];
    unfold blk; cbn [fst snd]; change (geom_dim 1) with 1; change (geom_dim 2) with 1;
    destruct (0 <? nth 1 nd 0) eqn:P1, (0 <? nth 2 nd 0) eqn:P2; try congruence; rewrite ?Ht, ?andb_true_r, ?andb_false_r; try (clear G; reflexivity);
    clear Ht; repeat (destruct (tst s 1 _); [reflexivity|]);
    rewrite <- G;
    destruct (first_dim s 2 2) as [[[|[|c]] k]|]; first [reflexivity | exfalso; specialize (K _ _ eq_refl); clear -K; lia]|]).
  do 8 (destruct n as [|n]; [
    cbn in E; injection E as <- <-; change (geom_dim 3) with 2 in *; change (geom_dim 4) with 2 in *;
    match goal with |- context [skipn (S (S (S (S (S (S (S (S (S (S (S (S (S (S (S (S ?m)))))))))))))))) all_blocks] => change (skipn (S (S (S (S (S (S (S (S (S (S (S (S (S (S (S (S m)))))))))))))))) all_blocks) with (skipn m (dim_blocks 2) ++ blocks_n 3 1) end;
    rewrite find_app; destruct (first_dim_begin 1 3 eq_refl) as [G K]; revert G; generalize (find blk (blocks_n 3 1)); intros R G; change (lookup_sz 0) with 4; change (lookup_sz 1) with 6; change (lookup_sz 2) with 4; change (lookup_sz 3) with 1; cbn [dim_blocks skipn find Nat.sub scan Nat.eqb andb];
    unfold blk; cbn [fst snd]; change (geom_dim 3) with 2; change (geom_dim 4) with 2;
    destruct (0 <? nth 3 nd 0) eqn:P1, (0 <? nth 4 nd 0) eqn:P2; try congruence; rewrite ?Ht, ?andb_true_r, ?andb_false_r; try (clear G; reflexivity);
    clear Ht; repeat (destruct (tst s 2 _); [reflexivity|]);
    rewrite <- G;
    destruct (first_dim s 3 1) as [[[|[|[|c]]] k]|]; first [reflexivity | exfalso; specialize (K _ _ eq_refl); clear -K; lia]|]).
  destruct n as [|n]; [|lia]. cbn in E; injection E as <- <-. reflexivity.
Qed.

Lemma hd_blocks : forall l, (forall p, In p l -> blk p = true) -> hd_error (concat (map block_list l)) = first_of (hd_error l).
Proof.
  intros [|[t e] l] H; [reflexivity|]. cbn [map concat hd_error]. specialize (H (t, e) (or_introl eq_refl)).
  unfold blk in H. apply andb_true_iff in H. destruct H as [_ H]. apply Nat.ltb_lt in H. cbn [fst] in H.
  unfold block_list. cbn [fst snd]. destruct (nth t nd 0); [lia|]. reflexivity.
Qed.
Lemma hd_filter : forall {A} (f : A -> bool) l, hd_error (filter f l) = find f l.
Proof. induction l as [|x l IH]; cbn; [reflexivity|]. now destruct (f x). Qed.
Lemma filter_split : forall {A} (f : A -> bool) l a x b, filter f l = a ++ x :: b ->
  exists l1 l2, l = l1 ++ x :: l2 /\ b = filter f l2 /\ f x = true.
Proof.
  induction l as [|y l IH]; intros a x b E; cbn in E; [now destruct a|].
  destruct (f y) eqn:Ey.
  - destruct a as [|z a]; cbn in E; injection E as -> E.
    + exists [], l. auto.
    + destruct (IH a x b E) as (l1 & l2 & -> & H). exists (z :: l1), l2. auto.
  - destruct (IH a x b E) as (l1 & l2 & -> & H). exists (y :: l1), l2. auto.
Qed.
Lemma map_seq_split : forall {A} (f : nat -> A) n m l1 x l2, map f (seq m n) = l1 ++ x :: l2 ->
  exists p, m <= p < m + n /\ x = f p /\ l2 = map f (seq (S p) (m + n - S p)).
Proof.
  induction n as [|n IH]; intros m l1 x l2 E; cbn in E; [now destruct l1|].
  destruct l1 as [|y l1]; cbn in E; injection E as E1 E.
  - exists m. subst. split; [lia|]. split; [reflexivity|]. now replace (m + S n - S m) with n by lia.
  - destruct (IH (S m) l1 x l2 E) as (p & H1 & H2 & H3). exists p. split; [lia|]. split; [assumption|].
    now replace (m + S n - S p) with (S m + n - S p) by lia.
Qed.
Lemma leaf_follows : forall pref, follows (sp_begin pref d s) (sp_incr pref d s) leaf_list.
Proof.
  intros pref. split.
  - unfold leaf_list. cbn [sp_begin d]. rewrite hd_blocks by (intros p Hp; apply filter_In in Hp; exact (proj2 Hp)). rewrite hd_filter.
    unfold base_begin. now rewrite base_begin_from_ok.
  - unfold leaf_list. apply follow_concat.
    + intros B l1 x y l2 HB EB. apply in_map_iff in HB. destruct HB as ([t e] & <- & Hp). apply filter_In in Hp. destruct Hp as [Hp _].
      apply block_valid in Hp. unfold block_list in EB. cbn [fst snd] in EB.
      apply map_seq_split in EB. destruct EB as (p & Hp1 & -> & E).
      destruct (0 + nth t nd 0 - S p) eqn:En; [discriminate|]. cbn in E. injection E as -> _.
      cbn [sp_incr d]. apply incr_inside; [apply Hp|apply Hp|lia].
    + intros A' B C l1 x ELs EB.
      apply map_eq_app in ELs. destruct ELs as (P1 & P2 & EP & _ & E2).
      destruct P2 as [|[t e] P2]; [discriminate|]. cbn [map] in E2. injection E2 as <- <-.
      rewrite hd_blocks.
      2:{ intros p Hp. assert (Hin : In p (filter blk all_blocks)) by (rewrite EP, in_app_iff; cbn; auto). apply filter_In in Hin. exact (proj2 Hin). }
      apply filter_split in EP. destruct EP as (L1 & L2 & EA & -> & Hb). rewrite hd_filter.
      assert (Hv : In (t, e) all_blocks) by (rewrite EA, in_app_iff; cbn; auto). apply block_valid in Hv.
      unfold block_list in EB. cbn [fst snd] in EB. apply map_seq_split in EB. destruct EB as (p & Hp1 & -> & E).
      destruct (0 + nth t nd 0 - S p) eqn:En; [|discriminate].
      cbn [sp_incr d]. rewrite incr_last; [|apply Hv|apply Hv|lia]. now apply (after_block_ok L1).
Qed.
Lemma in_leaf_list : forall lo, In lo leaf_list <-> exists t e p, lo = mk t e p /\ t < 6 /\ e < tet_elems t /\ p < nth t nd 0 /\ tst s (geom_dim t) e = true.
Proof.
  intros lo. unfold leaf_list. rewrite in_concat. split.
  - intros (B & HB & Hin). apply in_map_iff in HB. destruct HB as ([t e] & <- & Hp). apply filter_In in Hp. destruct Hp as [Hp Hb].
    apply block_valid in Hp. apply in_map_iff in Hin. destruct Hin as (p & <- & Hp2). apply in_seq in Hp2. cbn [fst snd] in *.
    unfold blk in Hb. apply andb_true_iff in Hb. exists t, e, p. split; [reflexivity|]. repeat split; [apply Hp|apply Hp|lia|apply Hb].
  - intros (t & e & p & -> & Ht & He & Hp & Hs). exists (block_list (t, e)). split.
    + apply in_map, filter_In. split; [now apply all_blocks_complete|]. unfold blk. cbn [fst snd]. rewrite Hs. apply Nat.ltb_lt. lia.
    + unfold block_list. cbn [fst snd]. apply in_map, in_seq. lia.
Qed.
Lemma geom_entity : forall t e, t < 6 -> e < tet_elems t -> entity (geom_dim t) e.
Proof.
  intros t e Ht He. split; do 6 (destruct t as [|t]; [cbn in *; lia|]); lia.
Qed.
Lemma NoDup_all_blocks : NoDup all_blocks.
Proof.
  cbn. repeat (constructor; [cbn; intros H; repeat (destruct H as [H|H]; [discriminate|]); destruct H|]). constructor.
Qed.
Lemma leaf_exact : exact_visit d s leaf_list.
Proof.
  split.
  - unfold leaf_list. rewrite <- flat_map_concat_map. apply NoDup_flat_map.
    + apply NoDup_filter, NoDup_all_blocks.
    + intros [t e] _. apply FinFun.Injective_map_NoDup; [|apply seq_NoDup]. intros a b E. unfold mk in E. cbn [fst snd] in E.
      apply (f_equal lo_leid) in E. exact E.
    + intros [t e] [t' e'] lo _ _ H1 H2. apply in_map_iff in H1, H2. destruct H1 as (p & <- & _), H2 as (p' & E & _). cbn [fst snd] in E.
      pose proof (f_equal lo_type E) as E1. pose proof (f_equal lo_elem E) as E2. cbn in E1, E2. congruence.
  - intros lo. rewrite in_leaf_list. unfold sel_dof, on_sel. split.
    + intros (t & e & p & -> & Ht & He & Hp & Hs). split; [now apply local_mk|].
      apply sel_tst; [now apply geom_entity|assumption].
    + intros [E Hs]. pose proof E as E0. rewrite local_order_layout in E by assumption.
      destruct (nth_error (layout d) (lo_gid lo)) as [x|] eqn:Ex; [|discriminate].
      pose proof (nth_error_In _ _ Ex) as Hin. apply (in_map locus), in_loci in Hin. destruct Hin as (H1 & H2 & H3).
      cbn [cnt d] in H3. injection E as E. exists (d_type x), (d_elem x), (d_pos x).
      assert (Hm : lo = mk (d_type x) (d_elem x) (d_pos x)).
      { pose proof (local_mk _ _ _ H1 H2 H3) as Em. rewrite local_order_layout in Em by assumption.
        destruct (nth_error (layout d) (lo_gid (mk (d_type x) (d_elem x) (d_pos x)))) as [y|] eqn:Ey; [|discriminate].
        apply some_inj in Em. assert (Ei : lo_gid lo = lo_gid (mk (d_type x) (d_elem x) (d_pos x))).
        { apply (proj1 (NoDup_nth_error (loci d)) (NoDup_loci d)).
          - unfold loci. rewrite map_length. apply nth_error_Some. congruence.
          - unfold loci. rewrite !nth_error_map, Ex, Ey. cbn [option_map]. f_equal.
            pose proof (f_equal lo_type Em) as A1. pose proof (f_equal lo_elem Em) as A2. pose proof (f_equal lo_leid Em) as A3.
            cbn in A1, A2, A3. unfold locus. congruence. }
        rewrite <- Ei in Ey. rewrite Ex in Ey. injection Ey as ->. rewrite <- E, <- Em. now rewrite Ei. }
      split; [exact Hm|]. repeat split; try assumption.
      rewrite Hm in Hs. apply sel_tst in Hs; [exact Hs|now apply geom_entity].
Qed.
End leaf.
