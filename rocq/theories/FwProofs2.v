From Verif Require Import Prelude FwModel FwSpec FwProofs.
From Coq Require Import ZArith Lia.
Open Scope nat_scope.

Section Densify.
Variable V : Type.
Variable v : view.
Variable fill : V.
Variable src : list V -> nat -> option V.
Variable to0 : list V.
Hypothesis Ht : v_tp v = SPARSE_CSC.
Hypothesis Hv : valid v.
Hypothesis Hl : v_sz1 v * v_sz2 v <= length to0.
Hypothesis Hsrc : forall to j, length to = length to0 -> (forall p, p <= j -> rd to p = rd to0 p) -> j < v_nnz v -> src to j = src to0 j.
Hypothesis Hdat : forall j, j < v_nnz v -> exists x, src to0 j = Some x.
Definition ci c := nth c (v_colind v) 0.
Definition ro j := nth j (v_row v) 0.
Local Notation n1 := (v_sz1 v).
Local Notation n2 := (v_sz2 v).

(** Column c is finished. *)
Definition done_col (c : nat) (to : list V) : Prop := forall r, r < n1 ->
  (forall j, ci c <= j < ci (S c) -> ro j = r -> rd to (c * n1 + r) = src to0 j) /\
  ((forall j, ci c <= j < ci (S c) -> ro j <> r) -> rd to (c * n1 + r) = Some fill).

(** Rows above k of column i are finished, its elements from number a + t on are used. *)
Definition part (i : nat) (start : list V) (t : nat) (s : list V * Z) : Prop :=
  let (to, k) := s in
  length to = length to0 /\ (-1 <= k < Z.of_nat n1)%Z /\
  (forall j, ci i <= j < ci i + t -> (Z.of_nat (ro j) <= k)%Z) /\
  (forall j, ci i + t <= j < ci (S i) -> (k < Z.of_nat (ro j))%Z) /\
  (forall p, (Z.of_nat p <= Z.of_nat (i * n1) + k)%Z -> rd to p = rd to0 p) /\
  (forall p, (i + 1) * n1 <= p -> rd to p = rd start p) /\
  (forall r, (k < Z.of_nat r)%Z -> r < n1 ->
     (forall j, ci i <= j < ci (S i) -> ro j = r -> rd to (i * n1 + r) = src to0 j) /\
     ((forall j, ci i <= j < ci (S i) -> ro j <> r) -> rd to (i * n1 + r) = Some fill)).

Lemma col_bound : forall i, i < n2 -> (i + 1) * n1 <= length to0.
Proof using Hl. intros i Hi. apply Nat.le_trans with (n2 * n1); [|lia]. apply Nat.mul_le_mono_r. lia. Qed.

Lemma entry_ok : forall i start t s, i < n2 -> ci i + t < ci (S i) -> part i start (S t) s ->
  exists s', densify_entry v src fill i (ci i + t) s = Some s' /\ part i start t s'.
Proof using Ht Hv Hl Hsrc Hdat.
  intros i start t (to, k) Hi Hj (L & Hk & Hlow & Hhigh & Hun & Hout & Hdone).
  remember (ci i + t) as j eqn:Dj. assert (Jn : j < v_nnz v) by (pose proof (ci_nnz v Ht Hv (S i) Hi) as X; cbv beta in X; unfold ci in *; lia).
  assert (R1 : ro j < n1) by (apply (ro_lt v Ht Hv i); assumption).
  assert (R2 : (Z.of_nat (ro j) <= k)%Z) by (apply Hlow; lia).
  assert (Jp : j <= i * n1 + ro j).
  { pose proof (ci_le v Ht Hv i ltac:(lia)) as A. pose proof (ro_ge v Ht Hv i t Hi) as B. cbv beta in A, B. fold (ci i) in A, B. fold (ci (S i)) in B. rewrite <- Dj in B. fold (ro j) in B. lia. }
  pose proof (col_bound i Hi) as CB.
  unfold densify_entry. rewrite (ro_rd v Ht Hv j Jn). cbn [obind]. fold (ro j).
  destruct (fill_run_ok fill (Z.of_nat (i * n1)) (Z.to_nat (k - Z.of_nat (ro j))) k to) as (t1 & E1 & L1 & F1); [lia|lia|lia|].
  rewrite E1. cbn [obind].
  assert (U1 : forall p, (Z.of_nat p <= Z.of_nat (i * n1) + Z.of_nat (ro j))%Z -> rd t1 p = rd to0 p).
  { intros p Hp. rewrite F1. rewrite (proj2 (Z.ltb_ge _ _)) by lia. cbn [andb]. apply Hun. lia. }
  rewrite (Hsrc t1 j) by (first [exact Jn|congruence|intros p Hp; apply U1; lia]).
  destruct (Hdat j Jn) as (x & Ex). rewrite Ex. cbn [obind].
  destruct (wrz_some t1 (Z.of_nat (i * n1) + Z.of_nat (ro j))%Z x) as (t2 & E2 & L2 & F2); [lia|]. rewrite E2. cbn [obind].
  eexists. split; [reflexivity|]. rewrite Z.min_r by lia. unfold part. split; [congruence|]. split; [lia|]. split; [|split; [|split; [|split]]].
  - intros j' Hj'. pose proof (ro_incr v Ht Hv i j' j Hi) as I. unfold ci, ro in *. cbv beta in I. lia.
  - intros j' Hj'. destruct (Nat.eq_dec j' j) as [->|N]; [lia|].
    pose proof (ro_incr v Ht Hv i j j' Hi) as I. unfold ci, ro in *. cbv beta in I. lia.
  - intros p Hp. rewrite F2. destruct (Z.eqb_spec (Z.of_nat p) (Z.of_nat (i * n1) + Z.of_nat (ro j))); [lia|]. apply U1. lia.
  - intros p Hp. rewrite F2. destruct (Z.eqb_spec (Z.of_nat p) (Z.of_nat (i * n1) + Z.of_nat (ro j))); [lia|].
    rewrite F1. rewrite (proj2 (Z.leb_gt _ _)) by lia. rewrite andb_false_r. now apply Hout.
  - intros r Hr1 Hr2. assert (P : rd t2 (i * n1 + r) = if r =? ro j then Some x else if (Z.of_nat r <=? k)%Z then Some fill else rd to (i * n1 + r)).
    { rewrite F2, F1. destruct (Nat.eqb_spec r (ro j)) as [->|N].
      - now rewrite (proj2 (Z.eqb_eq _ _)) by lia.
      - rewrite (proj2 (Z.eqb_neq _ _)) by lia. rewrite (proj2 (Z.ltb_lt _ _)) by lia. cbn [andb].
        destruct (Z.leb_spec (Z.of_nat r) k); [rewrite (proj2 (Z.leb_le _ _)) by lia|rewrite (proj2 (Z.leb_gt _ _)) by lia]; reflexivity. }
    rewrite P. split.
    + intros j' Hj' E'. destruct (Nat.eqb_spec r (ro j)) as [E|N].
      * assert (j' = j) as ->; [|now symmetry].
        destruct (Nat.lt_trichotomy j' j) as [C|[C|C]]; [|exact C|]; exfalso.
        -- pose proof (ro_incr v Ht Hv i j' j Hi) as I. unfold ci, ro in *. cbv beta in I. lia.
        -- pose proof (ro_incr v Ht Hv i j j' Hi) as I. unfold ci, ro in *. cbv beta in I. lia.
      * destruct (Z.leb_spec (Z.of_nat r) k) as [C|C].
        -- exfalso. destruct (Nat.lt_trichotomy j' j) as [D|[D|D]]; [|congruence|].
           ++ pose proof (ro_incr v Ht Hv i j' j Hi) as I. unfold ci, ro in *. cbv beta in I. lia.
           ++ specialize (Hhigh j' ltac:(lia)). lia.
        -- now apply (Hdone r C Hr2).
    + intros Hno. destruct (Nat.eqb_spec r (ro j)) as [E|N]; [exfalso; apply (Hno j); [lia|now symmetry]|].
      destruct (Z.leb_spec (Z.of_nat r) k) as [C|C]; [reflexivity|]. now apply (Hdone r C Hr2).
Qed.

Lemma column_ok : forall i to, i < n2 -> length to = length to0 -> (forall p, p < (i + 1) * n1 -> rd to p = rd to0 p) ->
  exists to', densify_column v src fill i to = Some to' /\ length to' = length to0 /\
    (forall p, p < i * n1 -> rd to' p = rd to0 p) /\ (forall p, (i + 1) * n1 <= p -> rd to' p = rd to p) /\ done_col i to'.
Proof using Ht Hv Hl Hsrc Hdat.
  intros i to Hi L H0. unfold densify_column. rewrite (ci_rd v Ht Hv i), (ci_rd v Ht Hv (S i)) by lia. cbn [obind]. fold (ci i) (ci (S i)).
  pose proof (ci_mono v Ht Hv i (S i) ltac:(lia) Hi) as M. cbv beta in M. fold (ci i) (ci (S i)) in M.
  destruct (for_down_inv (part i to) (ci (S i) - ci i) (fun t => densify_entry v src fill i (ci i + t)) (to, (Z.of_nat n1 - 1)%Z)) as ((t1, k) & E & P).
  - split; [exact L|]. split; [lia|]. split; [|split; [|split; [|split; [reflexivity|]]]].
    + intros j Hj. pose proof (ro_lt v Ht Hv i j Hi) as B. cbv beta in B. fold (ci (S i)) (ro j) in B. lia.
    + intros j Hj. lia.
    + intros p Hp. apply H0. lia.
    + intros r Hr Hr'. lia.
  - intros t s Hlt Hp. apply entry_ok; [exact Hi|lia|exact Hp].
  - rewrite E. cbn [obind]. destruct P as (L1 & Hk & _ & Hhigh & Hun & Hout & Hdone). rewrite Nat.add_0_r in Hhigh.
    pose proof (col_bound i Hi) as CB.
    destruct (fill_run_ok fill (Z.of_nat (i * n1)) (Z.to_nat (k + 1)) k t1) as (t2 & E2 & L2 & F2); [lia|lia|lia|].
    exists t2. split; [exact E2|]. split; [congruence|]. split; [|split].
    + intros p Hp. rewrite F2. rewrite (proj2 (Z.ltb_ge _ _)) by lia. cbn [andb]. apply Hun. lia.
    + intros p Hp. rewrite F2. rewrite (proj2 (Z.leb_gt _ _)) by lia. rewrite andb_false_r. now apply Hout.
    + intros r Hr. rewrite F2. destruct (Z.le_gt_cases (Z.of_nat r) k) as [C|C].
      * rewrite (proj2 (Z.ltb_lt _ _)), (proj2 (Z.leb_le _ _)) by lia. cbn [andb]. split; [|reflexivity].
        intros j Hj Ej. exfalso. specialize (Hhigh j Hj). lia.
      * rewrite (proj2 (Z.leb_gt (Z.of_nat (i * n1 + r)) _)) by lia. rewrite andb_false_r. now apply Hdone.
Qed.

Lemma loop_ok : exists to', for_down n2 (densify_column v src fill) to0 = Some to' /\ length to' = length to0 /\
  (forall p, n1 * n2 <= p -> rd to' p = rd to0 p) /\ forall c, c < n2 -> done_col c to'.
Proof using Ht Hv Hl Hsrc Hdat.
  destruct (for_down_inv (fun c to => c <= n2 /\ length to = length to0 /\ (forall p, p < c * n1 -> rd to p = rd to0 p) /\
    (forall p, n1 * n2 <= p -> rd to p = rd to0 p) /\ forall c', c <= c' < n2 -> done_col c' to) n2 (densify_column v src fill) to0)
    as (t & E & _ & L & _ & U & D).
  - split; [lia|]. split; [reflexivity|]. split; [reflexivity|]. split; [reflexivity|]. intros; lia.
  - intros i s Hi (_ & L & B & U & D). destruct (column_ok i s Hi L) as (t & E & L' & B' & U' & D').
    { intros p Hp. apply B. lia. }
    exists t. split; [exact E|]. split; [lia|]. split; [exact L'|]. split; [exact B'|]. split.
    + intros p Hp. rewrite U'; [now apply U|]. apply Nat.le_trans with (n1 * n2); [|exact Hp]. rewrite (Nat.mul_comm n1). apply Nat.mul_le_mono_r. lia.
    + intros c' Hc'. destruct (Nat.eq_dec c' i) as [->|N]; [exact D'|]. specialize (D c' ltac:(lia)). intros r Hr.
      assert (G : rd t (c' * n1 + r) = rd s (c' * n1 + r)).
      { apply U'. apply Nat.le_trans with (c' * n1); [|lia]. apply Nat.mul_le_mono_r. lia. }
      rewrite G. exact (D r Hr).
  - exists t. split; [exact E|]. split; [exact L|]. split; [exact U|]. intros c Hc. apply D. lia.
Qed.
End Densify.

Lemma done_dense : forall V (v : view) (fill : V) src to0 dat out, v_tp v = SPARSE_CSC -> valid v ->
  (forall j, j < v_nnz v -> src to0 j = rd dat j) -> (forall c, c < v_sz2 v -> done_col V v fill src to0 c out) -> dense_of v fill dat out.
Proof.
  intros V v fill src to0 dat out Ht Hv Hs D r c Hr Hc. destruct (D c Hc r Hr) as (A & B). unfold stored. rewrite Ht. split.
  - intros j (_ & Hj & Ej). rewrite (A j Hj Ej). apply Hs. pose proof (ci_nnz v Ht Hv (S c) Hc) as X. cbv beta in X. lia.
  - intros N. apply B. intros j Hj Ej. apply (N j). auto.
Qed.

Lemma is_full_spec : forall v, valid v -> is_full v = true -> v_nnz v = v_sz1 v * v_sz2 v /\
  forall r c j, r < v_sz1 v -> c < v_sz2 v -> stored v r c j <-> j = c * v_sz1 v + r.
Proof.
  intros v Hv H. destruct (v_tp v) eqn:T.
  - split; [unfold valid in Hv; now rewrite T in Hv|]. intros r c j Hr Hc. unfold stored. rewrite T. intuition.
  - unfold is_full in H. rewrite T in H. apply Nat.eqb_eq in H. split; [exact H|]. now apply full_stored.
Qed.
Lemma not_full : forall v, is_full v = false -> v_tp v = SPARSE_CSC.
Proof. intros v. unfold is_full. destruct (v_tp v); [discriminate|reflexivity]. Qed.
Lemma pos_lt : forall n1 n2 r c, r < n1 -> c < n2 -> c * n1 + r < n1 * n2.
Proof. intros n1 n2 r c Hr Hc. apply Nat.lt_le_trans with ((c + 1) * n1); [lia|]. rewrite (Nat.mul_comm n1). apply Nat.mul_le_mono_r. lia. Qed.

Lemma densify_in_ok : forall {V} (v : view) (buf : list V) fill, valid v -> v_nnz v <= length buf -> v_sz1 v * v_sz2 v <= length buf ->
  exists out, densify_in v buf fill = Some out /\ dense_of v fill buf out /\ kept_from (v_sz1 v * v_sz2 v) buf out.
Proof.
  intros V v buf fill Hv Hn Hl. unfold densify_in. destruct (is_full v) eqn:F.
  - destruct (is_full_spec v Hv F) as (E & S). exists buf. split; [reflexivity|]. split; [|split; reflexivity].
    intros r c Hr Hc. split; [intros j Hj; apply S in Hj; [now subst|exact Hr|exact Hc]|].
    intros N. exfalso. apply (N (c * v_sz1 v + r)). now apply S.
  - pose proof (not_full v F) as Ht.
    destruct (loop_ok V v fill rd buf Ht Hv Hl) as (t & E & L & U & D).
    + intros to j _ H _. apply H. lia.
    + intros j Hj. apply rd_some. lia.
    + exists t. split; [exact E|]. split; [|split; assumption]. eapply done_dense; [exact Ht|exact Hv| |exact D]. reflexivity.
Qed.
Lemma densify_ok : forall {V} (v : view) (from to : list V) fill, valid v -> v_nnz v <= length from -> v_sz1 v * v_sz2 v <= length to ->
  exists out, densify v from to fill = Some out /\ dense_of v fill from out /\ kept_from (v_sz1 v * v_sz2 v) to out.
Proof.
  intros V v from to fill Hv Hn Hl. unfold densify. destruct (is_full v) eqn:F.
  - destruct (is_full_spec v Hv F) as (E & S). destruct (copy_n_ok (v_nnz v) from to) as (t & Et & L & P); [exact Hn|lia|].
    exists t. split; [exact Et|]. split; [|split; [exact L|]].
    + intros r c Hr Hc. rewrite P. rewrite (proj2 (Nat.ltb_lt _ _)) by (rewrite E; now apply pos_lt). split.
      * intros j Hj. apply S in Hj; [now subst|exact Hr|exact Hc].
      * intros N. exfalso. apply (N (c * v_sz1 v + r)). now apply S.
    + intros p Hp. rewrite P. rewrite (proj2 (Nat.ltb_ge _ _)) by lia. reflexivity.
  - pose proof (not_full v F) as Ht.
    destruct (loop_ok V v fill (fun _ j => rd from j) to Ht Hv Hl) as (t & E & L & U & D).
    + reflexivity.
    + intros j Hj. apply rd_some. lia.
    + exists t. split; [exact E|]. split; [|split; assumption]. eapply done_dense; [exact Ht|exact Hv| |exact D]. reflexivity.
Qed.
