From Verif Require Import Prelude FwModel FwSpec FwProofs FwProofs2.
From Coq Require Import ZArith Lia.
Open Scope nat_scope.

(** Two pairs of row and column with one position are equal. *)
Lemma pos_inj : forall n r c r' c', r < n -> r' < n -> c * n + r = c' * n + r' -> c = c' /\ r = r'.
Proof.
  intros n r c r' c' Hr Hr' E. assert (c = c'); [|subst; lia].
  apply (Nat.div_unique (c' * n + r') n c r) in Hr as Q; [|rewrite Nat.mul_comm; lia].
  rewrite Q. symmetry. apply Nat.div_unique with r'; [assumption|]. rewrite Nat.mul_comm. lia.
Qed.

(** Every number of compressed columns lies in one column. *)
Section Csc.
Variable v : view.
Hypothesis Ht : v_tp v = SPARSE_CSC.
Hypothesis Hv : valid v.
Lemma col_of : forall j, j < v_nnz v -> exists c, c < v_sz2 v /\ ci v c <= j < ci v (S c).
Proof using Ht Hv.
  assert (G : forall n, n <= v_sz2 v -> forall j, j < ci v n -> exists c, c < n /\ ci v c <= j < ci v (S c)).
  { induction n as [|n IH]; intros Hn j Hj.
    - destruct (csc v Ht Hv) as (_ & _ & E & _). cbv beta in E. unfold ci in Hj. lia.
    - destruct (Nat.lt_ge_cases j (ci v n)) as [L|L]; [|exists n; lia]. destruct (IH ltac:(lia) j L) as (c & Hc & H). exists c. split; [lia|exact H]. }
  intros j Hj. apply (G (v_sz2 v)); [lia|]. destruct (csc v Ht Hv) as (_ & _ & _ & E & _). cbv beta in E. unfold ci. lia.
Qed.
Lemma stored_csc : forall r c j, stored v r c j <-> c < v_sz2 v /\ ci v c <= j < ci v (S c) /\ ro v j = r.
Proof using Ht. intros. unfold stored. rewrite Ht. reflexivity. Qed.
Lemma ci_S : forall c, c < v_sz2 v -> ci v c <= ci v (S c).
Proof using Ht Hv. intros c Hc. exact (ci_mono v Ht Hv c (S c) ltac:(lia) Hc). Qed.
Lemma ci_top : forall c, c <= v_sz2 v -> ci v c <= v_nnz v.
Proof using Ht Hv. intros c Hc. exact (ci_nnz v Ht Hv c Hc). Qed.
Lemma ro_top : forall j, j < v_nnz v -> ro v j < v_sz1 v.
Proof using Ht Hv. intros j Hj. destruct (csc v Ht Hv) as (_ & _ & _ & _ & _ & _ & B). exact (B j Hj). Qed.

(** A loop over all the numbers, column by column. *)
Lemma csc_loop : forall {S} (I : nat -> S -> Prop) (body : nat -> nat -> S -> option S) (s : S),
  I 0 s ->
  (forall c j s, c < v_sz2 v -> ci v c <= j < ci v (Datatypes.S c) -> I j s -> exists s', body c j s = Some s' /\ I (Datatypes.S j) s') ->
  exists s', for_ (v_sz2 v) (fun i s => do a <- rd (v_colind v) i ; do b <- rd (v_colind v) (Datatypes.S i) ; for_range a (b - a) (body i) s) s = Some s' /\ I (v_nnz v) s'.
Proof using Ht Hv.
  intros S I body s H0 Hs.
  destruct (for_inv (fun c s => I (ci v c) s) (v_sz2 v)
    (fun i s => do a <- rd (v_colind v) i ; do b <- rd (v_colind v) (Datatypes.S i) ; for_range a (b - a) (body i) s) s) as (s' & E & H).
  - destruct (csc v Ht Hv) as (_ & _ & E & _). cbv beta in E. unfold ci. now rewrite E.
  - intros c t Hc Hi. rewrite (ci_rd v Ht Hv c), (ci_rd v Ht Hv (Datatypes.S c)) by lia. cbn [obind]. fold (ci v c) (ci v (Datatypes.S c)).
    pose proof (ci_S c Hc).
    destruct (for_range_inv I (ci v (Datatypes.S c) - ci v c) (ci v c) (body c) t Hi) as (t' & E & Hi').
    + intros j u Hj. apply Hs; [exact Hc|lia].
    + exists t'. split; [exact E|]. now replace (ci v c + (ci v (Datatypes.S c) - ci v c)) with (ci v (Datatypes.S c)) in Hi' by lia.
  - exists s'. split; [exact E|]. destruct (csc v Ht Hv) as (_ & _ & _ & En & _). cbv beta in En. unfold ci in H. now rewrite En in H.
Qed.
End Csc.

(** *** sparsify *)
Lemma sparsify_ok : forall {V} (v : view) (from to : list V), valid v -> v_sz1 v * v_sz2 v <= length from -> v_nnz v <= length to ->
  exists out, sparsify v from to = Some out /\ kept_from (v_nnz v) to out /\
    forall r c j, r < v_sz1 v -> c < v_sz2 v -> stored v r c j -> rd out j = rd from (c * v_sz1 v + r).
Proof.
  intros V v from to Hv Hf Hto. unfold sparsify. destruct (is_full v) eqn:F.
  - destruct (is_full_spec v Hv F) as (E & St). destruct (copy_n_ok (v_nnz v) from to) as (t & Et & L & P); [lia|lia|].
    exists t. split; [exact Et|]. split; [split; [exact L|]|].
    + intros p Hp. rewrite P. rewrite (proj2 (Nat.ltb_ge _ _)) by lia. reflexivity.
    + intros r c j Hr Hc Hj. apply St in Hj; [|exact Hr|exact Hc]. subst. rewrite P. rewrite (proj2 (Nat.ltb_lt _ _)) by (rewrite E; now apply pos_lt). reflexivity.
  - pose proof (not_full v F) as Ht. unfold sparsify_loop.
    destruct (csc_loop v Ht Hv (fun n t => length t = length to /\ (forall p, n <= p -> rd t p = rd to p) /\
       forall r c j, j < n -> stored v r c j -> rd t j = rd from (c * v_sz1 v + r))
      (fun i j t => do r <- rd (v_row v) j ; do x <- rd from (i * v_sz1 v + r) ; wr t j x) to) as (t & E & L & U & D).
    + split; [reflexivity|]. split; [reflexivity|]. intros; lia.
    + intros c j t Hc Hj (L & U & D). pose proof (ci_top v Ht Hv (S c) Hc) as T.
      rewrite (ro_rd v Ht Hv j) by lia. cbn [obind]. fold (ro v j).
      pose proof (ro_top v Ht Hv j ltac:(lia)) as R. pose proof (pos_lt (v_sz1 v) (v_sz2 v) (ro v j) c R Hc) as B.
      destruct (rd_some from (c * v_sz1 v + ro v j)) as (x & Ex); [lia|]. rewrite Ex. cbn [obind].
      destruct (wr_some t j x) as (t' & E' & L' & R'); [lia|]. exists t'. split; [exact E'|]. split; [lia|]. split.
      * intros p Hp. rewrite R'. destruct (Nat.eqb_spec p j); [lia|]. apply U. lia.
      * intros r' c' j' Hj' St. rewrite R'. destruct (Nat.eqb_spec j' j) as [->|N]; [|apply D; [lia|exact St]].
        apply (stored_csc v Ht) in St as (Hc' & Hj'' & <-). assert (c' = c) as ->; [|now symmetry].
        destruct (Nat.lt_trichotomy c' c) as [C|[C|C]]; [|exact C|]; exfalso.
        -- pose proof (ci_mono v Ht Hv (S c') c ltac:(lia) ltac:(lia)) as M. cbv beta in M. unfold ci in *. lia.
        -- pose proof (ci_mono v Ht Hv (S c) c' ltac:(lia) ltac:(lia)) as M. cbv beta in M. unfold ci in *. lia.
    + exists t. split; [exact E|]. split; [split; [exact L|exact U]|]. intros r c j Hr Hc St. apply D; [|exact St].
      apply (stored_csc v Ht) in St as (Hc' & Hj & _). pose proof (ci_top v Ht Hv (S c) Hc). lia.
Qed.
Lemma stored_in : forall v j, valid v -> j < v_nnz v -> exists r c, r < v_sz1 v /\ c < v_sz2 v /\ stored v r c j.
Proof.
  intros v j Hv Hj. destruct (v_tp v) eqn:T.
  - unfold valid in Hv. rewrite T in Hv. rewrite Hv in Hj. assert (v_sz1 v <> 0) by (intros Z; rewrite Z in Hj; lia).
    exists (j mod v_sz1 v), (j / v_sz1 v). pose proof (Nat.mod_upper_bound j (v_sz1 v) H). split; [assumption|].
    assert (j / v_sz1 v < v_sz2 v) by (apply Nat.div_lt_upper_bound; lia). split; [assumption|]. unfold stored. rewrite T. split; [assumption|]. split; [assumption|].
    rewrite (Nat.div_mod j (v_sz1 v) H) at 1. lia.
  - destruct (col_of v T Hv j Hj) as (c & Hc & H). exists (ro v j), c. split; [now apply ro_top|]. split; [exact Hc|]. apply stored_csc; auto.
Qed.
Lemma stored_unique : forall v r c j j', valid v -> stored v r c j -> stored v r c j' -> j = j'.
Proof.
  intros v r c j j' Hv. destruct (v_tp v) eqn:T.
  - unfold stored. rewrite T. intros (_ & _ & ->) (_ & _ & ->). reflexivity.
  - rewrite !(stored_csc v T). intros (Hc & Hj & Er) (_ & Hj' & Er').
    destruct (Nat.lt_trichotomy j j') as [C|[C|C]]; [|exact C|]; exfalso.
    + pose proof (ro_incr v T Hv c j j' Hc) as I. cbv beta in I. unfold ci, ro in *. lia.
    + pose proof (ro_incr v T Hv c j' j Hc) as I. cbv beta in I. unfold ci, ro in *. lia.
Qed.
Lemma stored_dec : forall v r c, valid v -> (exists j, stored v r c j) \/ (forall j, ~ stored v r c j).
Proof.
  intros v r c Hv. destruct (v_tp v) eqn:T.
  - destruct (Nat.lt_ge_cases r (v_sz1 v)) as [A|A]; [destruct (Nat.lt_ge_cases c (v_sz2 v)) as [B|B]|];
      [left; exists (c * v_sz1 v + r); unfold stored; rewrite T; auto|right|right]; intros j; unfold stored; rewrite T; lia.
  - destruct (Nat.lt_ge_cases c (v_sz2 v)) as [B|B]; [|right; intros j; rewrite (stored_csc v T); lia].
    assert (G : forall n, (exists j, ci v c <= j < ci v c + n /\ ro v j = r) \/ (forall j, ci v c <= j < ci v c + n -> ro v j <> r)).
    { induction n as [|n [(j & H & E)|IH]]; [right; intros; lia|left; exists j; split; [lia|exact E]|].
      destruct (Nat.eq_dec (ro v (ci v c + n)) r) as [E|N]; [left; exists (ci v c + n); split; [lia|exact E]|].
      right. intros j Hj. destruct (Nat.eq_dec j (ci v c + n)) as [->|]; [exact N|]. apply IH. lia. }
    pose proof (ci_S v T Hv c B). destruct (G (ci v (S c) - ci v c)) as [(j & H' & E)|H'].
    + left. exists j. apply stored_csc; [exact T|]. split; [exact B|]. split; [lia|exact E].
    + right. intros j. rewrite (stored_csc v T). intros (_ & Hj & E). apply (H' j); [lia|exact E].
Qed.

(** *** fillTemplate *)
Lemma fill_template_ok : forall v beg, valid v -> v_sz1 v * v_sz2 v <= length beg ->
  exists out, fill_template v beg = Some out /\ mask_of v out /\ kept_from (v_sz1 v * v_sz2 v) beg out.
Proof.
  intros v beg Hv Hl. unfold fill_template. destruct (v_tp v) eqn:T.
  - destruct (fill_n_ok (v_sz1 v * v_sz2 v) true beg Hl) as (t & E & L & P). exists t. split; [exact E|]. split; [|split; [exact L|]].
    + intros r c Hr Hc. rewrite P. rewrite (proj2 (Nat.ltb_lt _ _)) by now apply pos_lt.
      assert (St : stored v r c (c * v_sz1 v + r)) by (unfold stored; rewrite T; auto).
      split; split; intros H; try reflexivity; try discriminate; [eauto|]. exfalso. eapply H. exact St.
    + intros p Hp. rewrite P. rewrite (proj2 (Nat.ltb_ge _ _)) by lia. reflexivity.
  - destruct (fill_n_ok (v_sz1 v * v_sz2 v) false beg Hl) as (t0 & E0 & L0 & P0). rewrite E0. cbn [obind].
    destruct (csc_loop v T Hv (fun n t => length t = length beg /\ (forall p, v_sz1 v * v_sz2 v <= p -> rd t p = rd beg p) /\
        forall r c, r < v_sz1 v -> c < v_sz2 v ->
          (rd t (c * v_sz1 v + r) = Some true \/ rd t (c * v_sz1 v + r) = Some false) /\
          (rd t (c * v_sz1 v + r) = Some true <-> exists j, j < n /\ stored v r c j))
      (fun i j b => do r <- rd (v_row v) j ; wr b (i * v_sz1 v + r) true) t0) as (t & E & L & U & D).
    + split; [exact L0|]. split; [intros p Hp; rewrite P0, (proj2 (Nat.ltb_ge _ _)) by lia; reflexivity|].
      intros r c Hr Hc. rewrite P0, (proj2 (Nat.ltb_lt _ _)) by now apply pos_lt. split; [now right|]. split; [discriminate|]. intros (j & ? & _). lia.
    + intros c j t Hc Hj (L & U & D). pose proof (ci_top v T Hv (S c) Hc) as Tp.
      rewrite (ro_rd v T Hv j) by lia. cbn [obind]. fold (ro v j).
      pose proof (ro_top v T Hv j ltac:(lia)) as R. pose proof (pos_lt (v_sz1 v) (v_sz2 v) (ro v j) c R Hc) as B.
      destruct (wr_some t (c * v_sz1 v + ro v j) true) as (t' & E' & L' & R'); [lia|]. exists t'. split; [exact E'|]. split; [lia|]. split.
      * intros p Hp. rewrite R'. destruct (Nat.eqb_spec p (c * v_sz1 v + ro v j)); [lia|]. now apply U.
      * intros r' c' Hr' Hc'. rewrite R'. destruct (D r' c' Hr' Hc') as (D1 & D2).
        destruct (Nat.eqb_spec (c' * v_sz1 v + r') (c * v_sz1 v + ro v j)) as [Ep|Np].
        -- apply pos_inj in Ep as (-> & ->); [|exact Hr'|exact R]. split; [now left|]. split; [|reflexivity]. intros _.
           exists j. split; [lia|]. apply stored_csc; auto.
        -- split; [exact D1|]. rewrite D2. split; intros (j' & Hj' & St); exists j'; (split; [|exact St]); [lia|].
           destruct (Nat.eq_dec j' j) as [->|]; [|lia]. exfalso. apply Np.
           apply (stored_csc v T) in St as (_ & Hj'' & <-). do 2 f_equal.
           destruct (Nat.lt_trichotomy c' c) as [C|[C|C]]; [|exact C|]; exfalso.
           ++ pose proof (ci_mono v T Hv (S c') c ltac:(lia) ltac:(lia)) as M. cbv beta in M. unfold ci in *. lia.
           ++ pose proof (ci_mono v T Hv (S c) c' ltac:(lia) ltac:(lia)) as M. cbv beta in M. unfold ci in *. lia.
    + exists t. split; [exact E|]. split; [|split; assumption]. intros r c Hr Hc. destruct (D r c Hr Hc) as (D1 & D2).
      assert (Q : rd t (c * v_sz1 v + r) = Some true <-> exists j, stored v r c j).
      { rewrite D2. split; intros (j & H); [exists j; apply H|]. exists j. split; [|exact H].
        apply (stored_csc v T) in H as (_ & Hj & _). pose proof (ci_top v T Hv (S c) Hc). lia. }
      split; [exact Q|]. split.
      * intros Hf j Hj. assert (Hs : rd t (c * v_sz1 v + r) = Some true) by (apply Q; now exists j). congruence.
      * intros Hn. destruct D1 as [D1|D1]; [|exact D1]. apply Q in D1 as (j & Hj). destruct (Hn j Hj).
Qed.
