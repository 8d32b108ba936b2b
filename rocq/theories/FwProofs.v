From Verif Require Import Prelude FwModel FwSpec.
From Coq Require Import ZArith Lia.
Open Scope nat_scope.

Lemma for_down_inv : forall {S} (I : nat -> S -> Prop) n body (s : S),
  I n s -> (forall i s, i < n -> I (Datatypes.S i) s -> exists s', body i s = Some s' /\ I i s') ->
  exists s', for_down n body s = Some s' /\ I 0 s'.
Proof.
  intros S I n. induction n as [|n IH]; intros body s H0 Hs; [now exists s|]. cbn [for_down].
  destruct (Hs n s (Nat.lt_succ_diag_r n) H0) as (s1 & E & H1). rewrite E. cbn [obind].
  apply IH; [exact H1|]. intros i s' Hi. apply Hs. lia.
Qed.
Lemma wrz_some : forall {V} (m : list V) i x, (0 <= i < Z.of_nat (length m))%Z -> exists m', wrz m i x = Some m' /\ length m' = length m /\
  forall p, rd m' p = if (Z.of_nat p =? i)%Z then Some x else rd m p.
Proof.
  intros V m i x H. unfold wrz. rewrite (proj2 (Z.ltb_ge i 0)) by lia.
  destruct (wr_some m (Z.to_nat i) x) as (m' & E & L & R); [lia|]. exists m'. split; [exact E|]. split; [exact L|].
  intros p. rewrite R. destruct (Nat.eqb_spec p (Z.to_nat i)), (Z.eqb_spec (Z.of_nat p) i); try reflexivity; lia.
Qed.
Lemma fill_run_ok : forall {V} (fill : V) base n k (to : list V),
  (0 <= base)%Z -> (Z.of_nat n <= k + 1)%Z -> (base + k < Z.of_nat (length to))%Z ->
  exists to', fill_run n base k fill to = Some to' /\ length to' = length to /\
    forall p, rd to' p = if ((base + k - Z.of_nat n <? Z.of_nat p) && (Z.of_nat p <=? base + k))%Z then Some fill else rd to p.
Proof.
  intros V fill base n. induction n as [|n IH]; intros k to Hb Hn Hl.
  - exists to. split; [reflexivity|]. split; [reflexivity|]. intros p.
    replace ((base + k - Z.of_nat 0 <? Z.of_nat p) && (Z.of_nat p <=? base + k))%Z with false; [reflexivity|].
    symmetry. apply andb_false_iff. destruct (Z.ltb_spec (base + k - Z.of_nat 0) (Z.of_nat p)), (Z.leb_spec (Z.of_nat p) (base + k)); auto; lia.
  - cbn [fill_run]. destruct (wrz_some to (base + k)%Z fill) as (t1 & E & L & R); [lia|]. rewrite E. cbn [obind].
    destruct (IH (k - 1)%Z t1) as (t2 & E2 & L2 & R2); [lia|lia|lia|]. exists t2. split; [exact E2|]. split; [lia|].
    intros p. rewrite R2, R.
    destruct (Z.ltb_spec (base + (k - 1) - Z.of_nat n) (Z.of_nat p)), (Z.leb_spec (Z.of_nat p) (base + (k - 1))),
      (Z.ltb_spec (base + k - Z.of_nat (S n)) (Z.of_nat p)), (Z.leb_spec (Z.of_nat p) (base + k)), (Z.eqb_spec (Z.of_nat p) (base + k));
      cbn [andb]; try reflexivity; lia.
Qed.
Lemma copy_n_ok : forall {V} n (from to : list V), n <= length from -> n <= length to ->
  exists to', copy_n n from to = Some to' /\ length to' = length to /\ forall p, rd to' p = if p <? n then rd from p else rd to p.
Proof.
  intros V n from to Hf Ht.
  destruct (for_inv (fun i t => length t = length to /\ forall p, rd t p = if p <? i then rd from p else rd to p) n
    (fun i t => do x <- rd from i ; wr t i x) to) as (t & E & L & R); [split; reflexivity| |exists t; auto].
  intros i s Hi (L & R). destruct (rd_some from i) as (x & Ex); [lia|]. rewrite Ex. cbn [obind].
  destruct (wr_some s i x) as (s' & E & L' & R'); [lia|]. exists s'. split; [exact E|]. split; [lia|].
  intros p. rewrite R', R. destruct (Nat.eqb_spec p i), (Nat.ltb_spec p i), (Nat.ltb_spec p (S i)); subst; try reflexivity; try lia. now symmetry.
Qed.
Lemma fill_n_ok : forall {V} n (x : V) to, n <= length to ->
  exists to', fill_n n x to = Some to' /\ length to' = length to /\ forall p, rd to' p = if p <? n then Some x else rd to p.
Proof.
  intros V n x to Ht.
  destruct (for_inv (fun i t => length t = length to /\ forall p, rd t p = if p <? i then Some x else rd to p) n
    (fun i t => wr t i x) to) as (t & E & L & R); [split; reflexivity| |exists t; auto].
  intros i s Hi (L & R).
  destruct (wr_some s i x) as (s' & E & L' & R'); [lia|]. exists s'. split; [exact E|]. split; [lia|].
  intros p. rewrite R', R. destruct (Nat.eqb_spec p i), (Nat.ltb_spec p i), (Nat.ltb_spec p (S i)); subst; try reflexivity; lia.
Qed.

(** *** Facts about compressed columns *)
Section Csc.
Variable v : view.
Hypothesis Ht : v_tp v = SPARSE_CSC.
Hypothesis Hv : valid v.
Local Notation ci := (fun c => nth c (v_colind v) 0).
Local Notation ro := (fun j => nth j (v_row v) 0).
Local Notation n1 := (v_sz1 v).
Local Notation n2 := (v_sz2 v).

Lemma csc : length (v_colind v) = S n2 /\ length (v_row v) = v_nnz v /\ ci 0 = 0 /\ ci n2 = v_nnz v /\
  (forall c, c < n2 -> ci c <= ci (S c)) /\
  (forall c j, c < n2 -> ci c <= j -> S j < ci (S c) -> ro j < ro (S j)) /\ (forall j, j < v_nnz v -> ro j < n1).
Proof using Ht Hv. unfold valid in Hv. rewrite Ht in Hv. exact Hv. Qed.
Lemma ci_rd : forall c, c <= n2 -> rd (v_colind v) c = Some (ci c).
Proof using Ht Hv. intros c H. apply nth_error_nth'. destruct csc as (L & _). lia. Qed.
Lemma ro_rd : forall j, j < v_nnz v -> rd (v_row v) j = Some (ro j).
Proof using Ht Hv. intros c H. apply nth_error_nth'. destruct csc as (_ & L & _). lia. Qed.
Lemma ci_mono : forall c d, c <= d -> d <= n2 -> ci c <= ci d.
Proof using Ht Hv.
  intros c d H. induction H as [|d H IH]; intros Hd; [lia|]. destruct csc as (_ & _ & _ & _ & M & _). specialize (M d). cbn in M. lia.
Qed.
Lemma ci_nnz : forall c, c <= n2 -> ci c <= v_nnz v.
Proof using Ht Hv. intros c H. destruct csc as (_ & _ & _ & E & _). cbn in E. rewrite <- E. now apply ci_mono. Qed.
Lemma ro_incr : forall c j k, c < n2 -> ci c <= j -> j < k -> k < ci (S c) -> ro j < ro k.
Proof using Ht Hv.
  intros c j k Hc Hj H. induction H as [|k H IH]; intros Hk; destruct csc as (_ & _ & _ & _ & _ & I & _); specialize (I c).
  - apply I; [exact Hc|exact Hj|exact Hk].
  - specialize (I k Hc). cbn in *. lia.
Qed.
Lemma ro_ge : forall c t, c < n2 -> ci c + t < ci (S c) -> t <= ro (ci c + t).
Proof using Ht Hv.
  intros c t Hc. induction t as [|t IH]; intros H; [lia|].
  pose proof (ro_incr c (ci c + t) (ci c + S t) Hc) as I. cbn in *. lia.
Qed.
Lemma ro_lt : forall c j, c < n2 -> j < ci (S c) -> ro j < n1.
Proof using Ht Hv. intros c j Hc Hj. destruct csc as (_ & _ & _ & _ & _ & _ & B). apply B. pose proof (ci_nnz (S c)). cbn in *. lia. Qed.
Lemma col_le : forall c, c < n2 -> ci (S c) <= ci c + n1.
Proof using Ht Hv.
  intros c Hc. destruct (Nat.le_gt_cases (ci (S c)) (ci c + n1)) as [|G]; [assumption|exfalso]. cbn in *.
  pose proof (ro_ge c n1 Hc) as A. pose proof (ro_lt c (nth c (v_colind v) 0 + n1) Hc) as B. cbn in *. lia.
Qed.
Lemma ci_le : forall c, c <= n2 -> ci c <= c * n1.
Proof using Ht Hv.
  intros c. induction c as [|c IH]; intros H; [destruct csc as (_ & _ & E & _); cbn in *; lia|].
  pose proof (col_le c H). cbn in *. lia.
Qed.
(** Compressed columns with the number of elements of a dense matrix are a dense matrix. *)
Lemma full_ci : v_nnz v = n1 * n2 -> forall c, c <= n2 -> ci c = c * n1.
Proof using Ht Hv.
  intros F c Hc. assert (G : forall d, d <= n2 -> v_nnz v <= ci (n2 - d) + d * n1).
  { induction d as [|d IH]; intros Hd; [destruct csc as (_ & _ & _ & E & _); cbn in *; rewrite Nat.sub_0_r; lia|].
    pose proof (col_le (n2 - S d)) as L. replace (S (n2 - S d)) with (n2 - d) in L by lia. specialize (IH ltac:(lia)).
    specialize (L ltac:(lia)). cbn in *. lia. }
  specialize (G (n2 - c) ltac:(lia)). replace (n2 - (n2 - c)) with c in G by lia. pose proof (ci_le c Hc) as L. cbn in *.
  assert (c * n1 + (n2 - c) * n1 = n1 * n2) by (rewrite <- Nat.mul_add_distr_r; rewrite Nat.mul_comm; f_equal; lia). lia.
Qed.
Lemma full_ro : v_nnz v = n1 * n2 -> forall c t, c < n2 -> t < n1 -> ro (c * n1 + t) = t.
Proof using Ht Hv.
  intros F c t Hc Hr. pose proof (full_ci F c ltac:(lia)) as E. pose proof (full_ci F (S c) Hc) as E'. cbn in E, E'.
  assert (U : forall d, d < n1 -> ro (c * n1 + (n1 - 1 - d)) + d < n1).
  { induction d as [|d IH]; intros Hd.
    - pose proof (ro_lt c (c * n1 + (n1 - 1 - 0)) Hc). cbn in *. lia.
    - pose proof (ro_incr c (c * n1 + (n1 - 1 - S d)) (c * n1 + (n1 - 1 - d)) Hc) as I. cbn in *. specialize (IH ltac:(lia)). lia. }
  specialize (U (n1 - 1 - t) ltac:(lia)). replace (n1 - 1 - (n1 - 1 - t)) with t in U by lia.
  pose proof (ro_ge c t Hc) as G. cbn in *. rewrite E in G. lia.
Qed.
Lemma full_stored : v_nnz v = n1 * n2 -> forall r c j, r < n1 -> c < n2 -> stored v r c j <-> j = c * n1 + r.
Proof using Ht Hv.
  intros F r c j Hr Hc. unfold stored. rewrite Ht. pose proof (full_ci F c ltac:(lia)) as E. pose proof (full_ci F (S c) Hc) as E'. cbn in E, E'. rewrite E, E'.
  split.
  - intros (_ & H & <-). pose proof (full_ro F c (j - c * n1) Hc) as G. replace (c * n1 + (j - c * n1)) with j in G by lia. rewrite G by lia. lia.
  - intros ->. pose proof (full_ro F c r Hc Hr) as G. split; [exact Hc|]. split; [lia|exact G].
Qed.
End Csc.
