(** Lemmas for C15 and C16. *)
From Verif Require Import Prelude MemModel MemSpec MemProofs.

Local Open Scope Z_scope.
Definition cut (niters n i : Z) : Z := niters / n * i + Z.min i (niters mod n).

Lemma cut_0 : forall niters n, 0 <= niters -> 1 <= n -> cut niters n 0 = 0.
Proof. intros. unfold cut. pose proof (Z.mod_pos_bound niters n ltac:(lia)). lia. Qed.
Lemma cut_n : forall niters n, 0 <= niters -> 1 <= n -> cut niters n n = niters.
Proof. intros. unfold cut. pose proof (Z.mod_pos_bound niters n ltac:(lia)). pose proof (Z.div_mod niters n ltac:(lia)). nia. Qed.
Lemma cut_step : forall niters n i, 0 <= niters -> 1 <= n ->
  cut niters n (i + 1) - cut niters n i = niters / n + (if i <? niters mod n then 1 else 0).
Proof. intros. unfold cut. destruct (Z.ltb_spec i (niters mod n)); nia. Qed.
Lemma cut_mono : forall niters n i j, 0 <= niters -> 1 <= n -> i <= j -> cut niters n i <= cut niters n j.
Proof.
  intros niters n i j H1 H2 H3. unfold cut. pose proof (Z.div_pos niters n H1 ltac:(lia)). nia.
Qed.

Lemma u32_small : forall x, 0 <= x < 2 ^ 32 -> u32 x = x.
Proof. intros. apply Z.mod_small. assumption. Qed.

Lemma thread_range_cut : forall niters n t, 0 <= niters < 2 ^ 32 -> 1 <= n -> 0 <= t < n ->
  thread_range niters n t = if t =? 0 then (cut niters n (n - 1), niters) else (cut niters n (t - 1), cut niters n t).
Proof.
  intros niters n t Hi Hn Ht. unfold thread_range, main_range, worker_range.
  pose proof (Z.mod_pos_bound niters n ltac:(lia)) as Hm. pose proof (Z.div_mod niters n ltac:(lia)) as Hdm.
  pose proof (Z.div_pos niters n ltac:(lia) ltac:(lia)) as Hd.
  assert (Hq : niters / n <= niters) by (apply Z.div_le_upper_bound; nia).
  rewrite (u32_small (niters / n)) by lia. rewrite (u32_small (niters mod n)) by nia.
  destruct (Z.eqb_spec n 1) as [->|Hn1].
  - assert (t = 0) by lia. subst. cbn [Z.eqb]. change (1 - 1) with 0. rewrite cut_0 by lia. reflexivity.
  - destruct (Z.eqb_spec t 0) as [->|Ht0].
    + rewrite u32_small by nia. unfold cut. f_equal. lia.
    + rewrite !u32_small by nia. unfold cut. f_equal; [destruct (Z.ltb_spec (t - 1) (niters mod n)); nia|].
      replace (t - 1 + 1) with t by lia. destruct (Z.ltb_spec t (niters mod n)); nia.
Qed.

Lemma cut_find : forall niters n k (m : nat), 0 <= niters -> 1 <= n -> 0 <= k < cut niters n (Z.of_nat m) ->
  exists i, 0 <= i < Z.of_nat m /\ cut niters n i <= k < cut niters n (i + 1).
Proof.
  intros niters n k m H1 H2. induction m as [|m IH]; intros Hk.
  - cbn in Hk. rewrite cut_0 in Hk by lia. lia.
  - destruct (Z.lt_ge_cases k (cut niters n (Z.of_nat m))) as [Hlt|Hge].
    + destruct IH as (i & Hi & Hk'); [lia|]. exists i. lia.
    + exists (Z.of_nat m). replace (Z.of_nat m + 1) with (Z.of_nat (S m)) by lia. lia.
Qed.

Lemma partition_once : forall niters n k, 0 <= niters < 2 ^ 32 -> 1 <= n -> 0 <= k < niters ->
  exists! t, 0 <= t < n /\ runs niters n t k.
Proof.
  intros niters n k Hi Hn Hk.
  destruct (cut_find niters n k (Z.to_nat n)) as (i & Hi' & Hc); [lia|lia|rewrite Z2Nat.id, cut_n by lia; lia|].
  rewrite Z2Nat.id in Hi' by lia.
  exists (if i =? n - 1 then 0 else i + 1). split.
  - split; [destruct (Z.eqb_spec i (n - 1)); lia|]. unfold runs.
    rewrite thread_range_cut by (try lia; destruct (Z.eqb_spec i (n - 1)); lia).
    destruct (Z.eqb_spec i (n - 1)) as [->|Hne].
    + cbn [Z.eqb]. replace (n - 1 + 1) with n in Hc by lia. rewrite cut_n in Hc by lia. lia.
    + destruct (Z.eqb_spec (i + 1) 0); [lia|]. replace (i + 1 - 1) with i by lia. lia.
  - intros t [Ht Hr]. unfold runs in Hr. rewrite thread_range_cut in Hr by lia.
    destruct (Z.eqb_spec t 0) as [->|Ht0].
    + destruct (Z.eqb_spec i (n - 1)); [lia|]. exfalso.
      pose proof (cut_mono niters n (i + 1) (n - 1) ltac:(lia) Hn ltac:(lia)). lia.
    + assert (t - 1 = i).
      { destruct (Z.lt_trichotomy (t - 1) i) as [H|[H|H]]; [|assumption|]; exfalso.
        - pose proof (cut_mono niters n t i ltac:(lia) Hn ltac:(lia)). lia.
        - pose proof (cut_mono niters n (i + 1) (t - 1) ltac:(lia) Hn ltac:(lia)). lia. }
      destruct (Z.eqb_spec i (n - 1)); lia.
Qed.

Lemma range_shape : forall niters n t lo hi, 0 <= niters < 2 ^ 32 -> 1 <= n -> 0 <= t < n -> thread_range niters n t = (lo, hi) ->
  0 <= lo <= hi /\ hi <= niters /\ niters / n <= hi - lo <= niters / n + 1.
Proof.
  intros niters n t lo hi Hi Hn Ht E. rewrite thread_range_cut in E by lia.
  pose proof (cut_0 niters n ltac:(lia) Hn) as C0. pose proof (cut_n niters n ltac:(lia) Hn) as Cn.
  destruct (Z.eqb_spec t 0) as [->|Ht0]; injection E as <- <-.
  - pose proof (cut_step niters n (n - 1) ltac:(lia) Hn) as Hs. replace (n - 1 + 1) with n in Hs by lia.
    pose proof (cut_mono niters n 0 (n - 1) ltac:(lia) Hn ltac:(lia)).
    pose proof (cut_mono niters n (n - 1) n ltac:(lia) Hn ltac:(lia)).
    destruct (n - 1 <? niters mod n); lia.
  - pose proof (cut_step niters n (t - 1) ltac:(lia) Hn) as Hs. replace (t - 1 + 1) with t in Hs by lia.
    pose proof (cut_mono niters n 0 (t - 1) ltac:(lia) Hn ltac:(lia)).
    pose proof (cut_mono niters n (t - 1) t ltac:(lia) Hn ltac:(lia)).
    pose proof (cut_mono niters n t n ltac:(lia) Hn ltac:(lia)).
    destruct (t - 1 <? niters mod n); lia.
Qed.
Local Close Scope Z_scope.

(** Layout: hide the sizes, then compare cursors. *)
Ltac hide_products := repeat match goal with
  | |- context [?a * ?b] => lazymatch a with 2 => fail | _ => idtac end; let x := fresh "sz" in set (x := a * b) in *; clearbody x
  end.
Ltac pairs := repeat first [apply FOP_nil | apply FOP_cons; [repeat (apply Forall_cons; [|]); try apply Forall_nil|]].
Ltac all_apart := pairs; let x0 := fresh "x" in intros x0 [X Y]; cbn [fst snd] in X, Y; lia.
Ltac all_inside := let v := fresh "v" in let Hv := fresh "Hv" in
  intros v Hv; cbn [In] in Hv; repeat (destruct Hv as [<-|Hv]); try contradiction Hv; cbn [fst snd]; intros; split; cbn [fst snd]; lia.

Lemma guard_some : forall b (x : unit), guard b = Some x -> b = true.
Proof. intros [] x E; [reflexivity|discriminate E]. Qed.

Lemma Some_inj : forall {A} (x y : A), Some x = Some y -> x = y.
Proof. intros A x y E. congruence. Qed.

Ltac layout E Em Ed Ei :=
  cbv beta iota zeta in E, Em, Ed, Ei;
  apply Some_inj in E; rewrite <- E; clear E;
  unfold layout_ok, real_views, int_views, views_ok, null in *;
  cbn [v_XYG v_XYP v_PSI v_DET v_MES v_NRM v_XYL v_WG v_DU v_DIFF v_U v_V v_extraR v_Dfn v_extraI v_ROW v_COL v_MTX];
  cbn [mr_m mr_d mr_i rq_U rq_R rq_I rq_parts] in *;
  revert Em Ed Ei; hide_products; intros Em Ed Ei;
  split; [split; [all_inside|all_apart]|split; [split; [all_inside|all_apart]|split; [all_inside|all_apart]]].

Lemma enough_split : forall a b c d e f (x : unit),
  guard (negb ((a <? b) || (c <? d) || (e <? f))) = Some x -> b <= a /\ d <= c /\ f <= e.
Proof.
  intros a b c d e f x E. apply guard_some in E.
  apply Bool.negb_true_iff, Bool.orb_false_iff in E. destruct E as [E E3]. apply Bool.orb_false_iff in E. destruct E as [E1 E2].
  apply Nat.ltb_ge in E1, E2, E3. auto.
Qed.

Lemma init_tet_ok : forall same rU rV U V dfn q f normal copyquad mem a,
  init_tet same rU rV U V dfn q f normal copyquad mem = Some a -> layout_ok a mem.
Proof.
  intros same rU rV U V dfn q f normal copyquad mem a E. unfold init_tet in E.
  destruct (guard _) as [x|] eqn:Eg; [|discriminate E]. cbn [obind] in E. apply enough_split in Eg. destruct Eg as (Em & Ed & Ei).
  unfold req_tet, joinreq in *.
  destruct same, normal, copyquad; layout E Em Ed Ei.
Qed.

Lemma init_applyD_ok : forall rU U d1 dfn q f normal mem a,
  init_applyD rU U d1 dfn q f normal mem = Some a -> layout_ok a mem.
Proof.
  intros rU U d1 dfn q f normal mem a E. unfold init_applyD in E.
  destruct (guard _) as [x|] eqn:Eg; [|discriminate E]. cbn [obind] in E. apply enough_split in Eg. destruct Eg as (Em & Ed & Ei).
  unfold req_applyD in *. destruct ((1 <? rq_parts rU) && (1 <? q)), normal; layout E Em Ed Ei.
Qed.

Lemma init_applyND_ok : forall rU U q f copyquad mem a,
  init_applyND rU U q f copyquad mem = Some a -> layout_ok a mem.
Proof.
  intros rU U q f copyquad mem a E. unfold init_applyND in E.
  destruct (guard _) as [x|] eqn:Eg; [|discriminate E]. cbn [obind] in E. apply enough_split in Eg. destruct Eg as (Em & Ed & Ei).
  unfold req_applyND in *. destruct (Nat.ltb_spec (rq_R rU) (sh_nfa U * 1 * f)), ((1 <? rq_parts rU) && (1 <? q)), copyquad;
    revert H; layout E Em Ed Ei.
Qed.

Lemma init_tet_ct_ok : forall same rA rB A B q f normal copyquad mem,
  mr_d (req_tet_ct same rA rB A B q f normal copyquad) <= mr_d mem ->
  mr_i (req_tet_ct same rA rB A B q f normal copyquad) <= mr_i mem ->
  layout_ok (init_tet_ct same rA rB A B q f normal copyquad (mr_i mem)) mem.
Proof.
  intros same rA rB A B q f normal copyquad mem Ed Ei.
  assert (Em : 0 <= mr_m mem) by lia.
  destruct (Some (init_tet_ct same rA rB A B q f normal copyquad (mr_i mem))) as [a|] eqn:E; [|discriminate E].
  assert (E' := E). apply Some_inj in E'. rewrite E'. clear E'.
  unfold init_tet_ct, req_tet_ct in *.
  rewrite (Nat.mul_comm (if normal then 3 else 1) (sh_dim B)), (Nat.mul_comm (if normal then 3 else 1) (sh_dim A)) in E.
  destruct same, normal, copyquad; cbv beta iota zeta in E, Ed, Ei; cbn [mr_d mr_i] in Ed, Ei.
  all: repeat match type of E with context [0 <? ?x] => destruct (Nat.ltb_spec 0 x) end.
  all: layout E Em Ed Ei.
Qed.
