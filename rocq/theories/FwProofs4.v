From Verif Require Import Prelude MemModel MemSpec MemProps FwModel FwSpec FwProofs FwProofs2 FwProofs3.
From Coq Require Import ZArith Lia.
Open Scope nat_scope.

Lemma stored_lt : forall v r c j, valid v -> stored v r c j -> r < v_sz1 v /\ c < v_sz2 v /\ j < v_nnz v.
Proof.
  intros v r c j Hv St. destruct (v_tp v) eqn:T.
  - unfold stored in St. unfold valid in Hv. rewrite T in *. destruct St as (Hr & Hc & ->). repeat split; auto. rewrite Hv. now apply pos_lt.
  - apply (stored_csc v T) in St as (Hc & Hj & Er). pose proof (ci_top v T Hv (S c) Hc). assert (j < v_nnz v) by lia.
    pose proof (ro_top v T Hv j H0). repeat split; auto. lia.
Qed.

(** *** One element *)
Lemma ext_list : forall {V} (a b : list V), (forall i, nth_error a i = nth_error b i) -> a = b.
Proof.
  induction a as [|x a IH]; intros [|y b] H; [reflexivity|discriminate (H 0)|discriminate (H 0)|].
  pose proof (H 0) as H0. injection H0 as ->. f_equal. apply IH. intros i. exact (H (S i)).
Qed.
Lemma nth_firstn : forall {V} (l : list V) n k, k < n -> nth_error (firstn n l) k = nth_error l k.
Proof. induction l as [|x l IH]; intros [|n] [|k] H; try lia; try reflexivity. cbn. apply IH. lia. Qed.
Lemma nth_skipn : forall {V} (l : list V) n k, nth_error (skipn n l) k = nth_error l (n + k).
Proof. induction l as [|x l IH]; intros [|n] k; try reflexivity; [now destruct k|]. cbn. apply IH. Qed.
Lemma fill_first : forall {V} n (x : V) l, n <= length l ->
  exists out, fill_n n x l = Some out /\ length out = length l /\ firstn n out = repeat x n /\ skipn n out = skipn n l.
Proof.
  intros V n x l Hn. destruct (fill_n_ok n x l Hn) as (t & Et & L & P). exists t. split; [exact Et|].
  split; [exact L|]. split; apply ext_list; intros i.
  - destruct (Nat.lt_ge_cases i n) as [H|H].
    + rewrite nth_firstn, nth_error_repeat by lia. specialize (P i). unfold rd in P. rewrite P. destruct (Nat.ltb_spec i n); [reflexivity|lia].
    + transitivity (@None V); [|symmetry]; apply nth_error_None; [rewrite firstn_length; lia|rewrite repeat_length; lia].
  - rewrite !nth_skipn. specialize (P (n + i)). unfold rd in P. rewrite P. destruct (Nat.ltb_spec (n + i) n); [lia|reflexivity].
Qed.

Lemma compute_rhs_ok : forall {V} (zero : V) v f F, valid v ->
  length (f (repeat zero (v_nnz v))) = v_nnz v -> v_sz1 v * v_sz2 v <= length F -> v_nnz v <= length F ->
  exists out, compute_rhs zero v f F = Some out /\ dense_of v zero (f (repeat zero (v_nnz v))) out /\ length out = length F /\
    forall p, v_sz1 v * v_sz2 v <= p -> v_nnz v <= p -> rd out p = rd F p.
Proof.
  intros V zero v f F Hv Hf Hl Hn. unfold compute_rhs.
  destruct (fill_first (v_nnz v) zero F Hn) as (a & Ea & La & F1 & F2). rewrite Ea. cbn [obind].
  unfold run_func. rewrite F1, F2, Hf, Nat.eqb_refl, La, (proj2 (Nat.leb_le _ _) Hn). cbn [guard obind].
  remember (f (repeat zero (v_nnz v)) ++ skipn (v_nnz v) F) as b eqn:Eb.
  assert (Lb : length b = length F) by (rewrite Eb, app_length, skipn_length, Hf; lia).
  destruct (densify_in_ok v b zero Hv) as (out & Eo & D & K1 & K2); [lia|lia|].
  exists out. split; [exact Eo|]. split; [|split; [lia|]].
  - intros r c Hr Hc. destruct (D r c Hr Hc) as (D1 & D2). split; [|exact D2]. intros j St. rewrite (D1 j St), Eb.
    unfold rd. apply nth_error_app1. rewrite Hf. now apply (stored_lt v r c j Hv).
  - intros p Hp Hp'. rewrite K2 by exact Hp. rewrite Eb. unfold rd. rewrite nth_error_app2 by lia. rewrite nth_skipn. f_equal. lia.
Qed.
Lemma compute_mat_ok : forall {V} (zero : V) v f A Ab, valid v ->
  length (f (repeat zero (v_nnz v))) = v_nnz v -> v_sz1 v * v_sz2 v <= length A -> v_nnz v <= length A -> v_sz1 v * v_sz2 v <= length Ab ->
  exists out mask, compute_mat zero v f A Ab = Some (out, mask) /\ dense_of v zero (f (repeat zero (v_nnz v))) out /\ mask_of v mask.
Proof.
  intros V zero v f A Ab Hv Hf Hl Hn Hb. destruct (compute_rhs_ok zero v f A Hv Hf Hl Hn) as (out & E & D & _).
  destruct (fill_template_ok v Ab Hv Hb) as (m & Em & M & _). exists out, m. split; [|split; assumption].
  unfold compute_mat. unfold compute_rhs in E. destruct (fill_n (v_nnz v) zero A) as [a|]; [|discriminate]. cbn [obind] in *.
  destruct (run_func v f a) as [b|]; [|discriminate]. cbn [obind] in *. rewrite E, Em. reflexivity.
Qed.
(** The compressed numbers are not more than the elements. *)
Lemma nnz_le : forall v, valid v -> v_nnz v <= v_sz1 v * v_sz2 v.
Proof.
  intros v Hv. destruct (v_tp v) eqn:T; [unfold valid in Hv; rewrite T in Hv; lia|].
  pose proof (ci_le v T Hv (v_sz2 v) (le_n _)) as G. cbv beta in G. destruct (csc v T Hv) as (_ & _ & _ & E & _). cbv beta in E. lia.
Qed.

(** *** copyCSC *)
Lemma copy_all : forall {V} n (from to : list V), length from = n -> length to = n -> copy_n n from to = Some from.
Proof.
  intros V n from to Hf Ht. destruct (copy_n_ok n from to) as (t & E & L & P); [lia|lia|]. rewrite E. f_equal.
  apply ext_list. intros i. specialize (P i). unfold rd in P. rewrite P. destruct (Nat.ltb_spec i n); [reflexivity|].
  rewrite (proj2 (nth_error_None from i)) by lia. apply nth_error_None. lia.
Qed.
Lemma nth_rd : forall (l : list nat) i x, rd l i = Some x -> nth i l 0 = x.
Proof. intros l i x H. now apply nth_error_nth. Qed.
Lemma copy_dense_rows : forall n1 n2 row, length row = n1 * n2 ->
  exists r2, (do r1 <- (if 0 <? n2 then for_ n1 (fun i r => wr r i i) row else Some row) ;
              for_range 1 (n2 - 1) (fun i r => for_ n1 (fun k r => do x <- rd r k ; wr r (n1 * i + k) x) r) r1) = Some r2 /\
    length r2 = n1 * n2 /\ forall c r, c < n2 -> r < n1 -> rd r2 (c * n1 + r) = Some r.
Proof.
  intros n1 n2 row L. destruct n2 as [|n2].
  - cbn. exists row. split; [reflexivity|]. split; [exact L|]. intros; lia.
  - cbn [Nat.ltb Nat.leb].
    destruct (for_inv (fun i r => length r = length row /\ forall k, k < i -> rd r k = Some k) n1 (fun i r => wr r i i) row) as (r1 & E1 & L1 & P1).
    + split; [reflexivity|]. intros; lia.
    + intros i t Hi (Lt & Pt). destruct (wr_some t i i) as (t' & E & L' & R'); [nia|]. exists t'. split; [exact E|]. split; [lia|].
      intros k Hk. rewrite R'. destruct (Nat.eqb_spec k i) as [->|]; [reflexivity|]. apply Pt. lia.
    + rewrite E1. cbn [obind]. replace (S n2 - 1) with n2 by lia.
      destruct (for_range_inv (fun i r => length r = length row /\ forall c k, c < i -> k < n1 -> rd r (c * n1 + k) = Some k) n2 1
        (fun i r => for_ n1 (fun k r => do x <- rd r k ; wr r (n1 * i + k) x) r) r1) as (r2 & E2 & L2 & P2).
      * split; [exact L1|]. intros c k Hc Hk. replace c with 0 by lia. now apply P1.
      * intros i t Hi (Lt & Pt).
        destruct (for_inv (fun m r => length r = length row /\ (forall c k, c < i -> k < n1 -> rd r (c * n1 + k) = Some k) /\ forall k, k < m -> rd r (i * n1 + k) = Some k)
          n1 (fun k r => do x <- rd r k ; wr r (n1 * i + k) x) t) as (t2 & E & Lq & Pq & Pn).
        -- split; [exact Lt|]. split; [exact Pt|]. intros; lia.
        -- intros m u Hm (Lu & Pu & Pm). specialize (Pu 0 m ltac:(lia) Hm) as E0. cbn [Nat.mul Nat.add] in E0. rewrite E0. cbn [obind].
           destruct (wr_some u (n1 * i + m) m) as (u' & E & L' & R'); [nia|]. exists u'. split; [exact E|]. split; [lia|]. split.
           ++ intros c k Hc Hk. rewrite R'. destruct (Nat.eqb_spec (c * n1 + k) (n1 * i + m)); [nia|]. now apply Pu.
           ++ intros k Hk. rewrite R'. destruct (Nat.eqb_spec (i * n1 + k) (n1 * i + m)); [f_equal; lia|]. apply Pm. lia.
        -- exists t2. split; [exact E|]. split; [exact Lq|]. intros c k Hc Hk. destruct (Nat.eq_dec c i) as [->|]; [now apply Pn|]. apply Pq; lia.
      * exists r2. split; [exact E2|]. split; [lia|]. intros c r Hc Hr. apply P2; lia.
Qed.
Lemma copy_csc_ok : forall v colind row, valid v -> length colind = S (v_sz2 v) -> length row = v_nnz v ->
  exists ci ro, copy_csc v colind row = Some (ci, ro) /\
    let w := mkView SPARSE_CSC (v_nnz v) (v_sz1 v) (v_sz2 v) ci ro in valid w /\ forall r c j, stored w r c j <-> stored v r c j.
Proof.
  intros v colind row Hv Lc Lr. unfold copy_csc. destruct (v_tp v) eqn:T.
  - assert (En : v_nnz v = v_sz1 v * v_sz2 v) by (unfold valid in Hv; now rewrite T in Hv).
    destruct (for_inv (fun i c => length c = length colind /\ forall k, k < i -> rd c k = Some (k * v_sz1 v)) (v_sz2 v + 1) (fun i c => wr c i (i * v_sz1 v)) colind) as (c1 & E1 & L1 & P1).
    { split; [reflexivity|]. intros; lia. }
    { intros i t Hi (Lt & Pt). destruct (wr_some t i (i * v_sz1 v)) as (t' & E & L' & R'); [lia|]. exists t'. split; [exact E|]. split; [lia|].
      intros k Hk. rewrite R'. destruct (Nat.eqb_spec k i) as [->|]; [reflexivity|]. apply Pt. lia. }
    rewrite E1. cbn [obind].
    destruct (copy_dense_rows (v_sz1 v) (v_sz2 v) row) as (r2 & E2 & L2 & P2); [lia|].
    destruct (if 0 <? v_sz2 v then for_ (v_sz1 v) (fun i r => wr r i i) row else Some row) as [r1|]; [|discriminate]. cbn [obind] in *. rewrite E2. cbn [obind].
    exists c1, r2. split; [reflexivity|]. cbv zeta.
    assert (Nc : forall k, k <= v_sz2 v -> nth k c1 0 = k * v_sz1 v) by (intros k Hk; apply nth_rd, P1; lia).
    assert (Nr : forall c r, c < v_sz2 v -> r < v_sz1 v -> nth (c * v_sz1 v + r) r2 0 = r) by (intros c r Hc Hr; apply nth_rd; now apply P2).
    assert (Q : forall j, j < v_nnz v -> exists c r, c < v_sz2 v /\ r < v_sz1 v /\ j = c * v_sz1 v + r).
    { intros j Hj. destruct (stored_in v j Hv Hj) as (r & c & Hr & Hc & St). unfold stored in St. rewrite T in St. exists c, r. tauto. }
    split.
    + unfold valid. cbn [v_tp v_nnz v_sz1 v_sz2 v_colind v_row]. split; [lia|]. split; [lia|].
      split; [rewrite Nc by lia; reflexivity|]. split; [rewrite Nc by lia; lia|]. split; [|split].
      * intros c Hc. rewrite !Nc by lia. lia.
      * intros c j Hc H1 H2. rewrite Nc in H1 by lia. rewrite Nc in H2 by lia.
        replace j with (c * v_sz1 v + (j - c * v_sz1 v)) by lia. replace (S (c * v_sz1 v + (j - c * v_sz1 v))) with (c * v_sz1 v + S (j - c * v_sz1 v)) by lia.
        rewrite !Nr by (try exact Hc; cbn in H2; lia). lia.
      * intros j Hj. destruct (Q j Hj) as (c & r & Hc & Hr & ->). now rewrite Nr.
    + intros r c j. unfold stored. rewrite T. cbn [v_tp v_nnz v_sz1 v_sz2 v_colind v_row]. split.
      * intros (Hc & Hj & Er). rewrite !Nc in Hj by lia. cbn in Hj.
        replace j with (c * v_sz1 v + (j - c * v_sz1 v)) in Er by lia. rewrite Nr in Er by lia. split; [lia|]. split; [exact Hc|]. lia.
      * intros (Hr & Hc & ->). split; [exact Hc|]. rewrite !Nc by lia. split; [cbn; lia|]. now apply Nr.
  - destruct (csc v T Hv) as (Lcv & Lrv & _). cbv beta in Lcv, Lrv.
    rewrite (copy_all (v_sz2 v + 1) (v_colind v) colind) by lia. cbn [obind]. rewrite (copy_all (v_nnz v) (v_row v) row) by lia. cbn [obind].
    exists (v_colind v), (v_row v). split; [reflexivity|]. cbv zeta.
    replace (mkView SPARSE_CSC (v_nnz v) (v_sz1 v) (v_sz2 v) (v_colind v) (v_row v)) with v by (destruct v; cbn in *; congruence).
    split; [exact Hv|]. reflexivity.
Qed.

(** *** The views of the assembler *)
Lemma used_sparse : forall v, valid v -> is_sparse v = true -> exists ca, out_csc v = Some ca /\
  valid (used_view v (fst ca) (snd ca)) /\ same_view v (used_view v (fst ca) (snd ca)).
Proof.
  intros v Hv Hs. destruct (copy_csc_ok v (repeat 0 (v_sz2 v + 1)) (repeat 0 (v_nnz v)) Hv) as (ci & ro & E & W & St); [rewrite repeat_length; lia|apply repeat_length|].
  exists (ci, ro). split; [exact E|]. unfold used_view. rewrite Hs. cbn [fst snd]. split; [exact W|]. split; [reflexivity|]. split; [reflexivity|]. split; [reflexivity|]. exact St.
Qed.
Lemma used_full : forall v ci ro, valid v -> is_sparse v = false -> valid (used_view v ci ro) /\ same_view v (used_view v ci ro).
Proof.
  intros v ci ro Hv Hs. unfold used_view. rewrite Hs. assert (En : v_nnz v = v_sz1 v * v_sz2 v) by (unfold is_sparse in Hs; destruct (Nat.eqb_spec (v_nnz v) (v_sz1 v * v_sz2 v)); [assumption|discriminate]).
  split; [exact En|]. split; [reflexivity|]. split; [reflexivity|]. split; [reflexivity|]. intros r c j.
  assert (F : is_full v = true) by (unfold is_full; destruct (v_tp v); [reflexivity|]; now apply Nat.eqb_eq).
  destruct (is_full_spec v Hv F) as (_ & S). unfold stored at 1. cbn [v_tp v_sz1 v_sz2]. split.
  - intros (Hr & Hc & ->). now apply S.
  - intros St. destruct (stored_lt v r c j Hv St) as (Hr & Hc & _). split; [exact Hr|]. split; [exact Hc|]. now apply S in St.
Qed.

Lemma prepared_one : forall v, valid v -> exists ca, (if is_sparse v then out_csc v else Some ([], [])) = Some ca /\
  valid (used_view v (fst ca) (snd ca)) /\ same_view v (used_view v (fst ca) (snd ca)).
Proof.
  intros v Hv. destruct (is_sparse v) eqn:E; [now apply used_sparse|]. exists ([], []). split; [reflexivity|]. now apply used_full.
Qed.

(** *** Calls *)
Lemma copy_over : forall {V} (A a : list V), length A <= length a -> copy_n (length A) A a = Some (A ++ skipn (length A) a).
Proof.
  intros V A a H. destruct (copy_n_ok (length A) A a) as (t & E & L & P); [lia|lia|]. rewrite E. f_equal.
  apply ext_list. intros i. specialize (P i). unfold rd in P. rewrite P. destruct (Nat.ltb_spec i (length A)).
  - now rewrite nth_error_app1.
  - rewrite nth_error_app2 by lia. rewrite nth_skipn. f_equal. lia.
Qed.

(** *** Work memory *)
Lemma all_unused : forall s, reach (s, []) -> length (pr_unused s) = length (pr_mem s).
Proof.
  intros s H. destruct (C14_exclusive s [] H) as (_ & B & _ & N & _).
  assert (P : forall id, In id (pr_unused s) <-> In id (seq 0 (length (pr_mem s)))).
  { intros id. rewrite in_seq. rewrite <- (Nat.add_0_l (length (pr_mem s))) at 1. specialize (B id). split.
    - intros Hi. split; [lia|]. apply B. now right.
    - intros (_ & Hi). apply B in Hi as [(t & [])|Hi]; exact Hi. }
  apply Nat.le_antisymm.
  - rewrite <- (seq_length (length (pr_mem s)) 0). apply NoDup_incl_length; [exact N|]. intros x Hx. now apply P.
  - rewrite <- (seq_length (length (pr_mem s)) 0) at 1. apply NoDup_incl_length; [apply seq_NoDup|]. intros x Hx. now apply P.
Qed.
Lemma range_ok : forall n s, reach (s, []) -> exists s', par_alloc_range n s = Some ((0, n), s') /\
  (forall t, t < n -> exists o, par_get t s' = Some o) /\
  (forall t t' o, t < n -> t' < n -> par_get t s' = Some o -> par_get t' s' = Some o -> t = t') /\
  reach (par_release_range 0 n s', []).
Proof.
  intros n s H. destruct (C14_step (s, []) (PRange 0 n) H I) as ((s' & own) & E & _ & _).
  assert (R : reach (s', own)) by (exact (reach_step (s, []) (PRange 0 n) (s', own) H I E)).
  cbn [pstep] in E. destruct (par_alloc_range n s) as [((lo, hi), s1)|] eqn:Ea; [|discriminate]. cbn [obind] in E.
  assert (Lo : lo = 0 /\ hi = n).
  { unfold par_alloc_range in Ea. rewrite (all_unused s H), Nat.eqb_refl in Ea. destruct (par_fill 0 n (resize_ptrs (pr_mem s) (0 + n)) (pr_next s)); [|discriminate].
    cbn [obind] in Ea. injection Ea as <- <- _. auto. }
  destruct Lo as (-> & ->). injection E as <- <-. rewrite Nat.sub_0_r, app_nil_r in R.
  assert (In' : forall t, t < n -> In (0, t) (map (fun id => (0, id)) (seq 0 n))) by (intros t Ht; apply in_map_iff; exists t; split; [reflexivity|]; apply in_seq; lia).
  destruct (C14_exclusive _ _ R) as (_ & _ & _ & _ & G & U).
  exists s1. split; [reflexivity|]. split; [|split].
  - intros t Ht. exact (G 0 t (In' t Ht)).
  - intros t t' o Ht Ht' E1 E2. exact (proj1 (U 0 0 t t' o (In' t Ht) (In' t' Ht') E1 E2)).
  - assert (A : pallowed (map (fun id => (0, id)) (seq 0 n)) (PReleaseRange 0 0 n)) by (split; [lia|]; intros id Hid; apply In'; lia).
    assert (R2 := reach_step _ (PReleaseRange 0 0 n) _ R A eq_refl). 
    replace (filter _ _) with (@nil (nat * nat)) in R2; [exact R2|]. symmetry.
    clear. assert (K : forall l, (forall x, In x l -> x < n) -> filter (fun o : nat * nat => negb ((fst o =? 0) && (0 <=? snd o) && (snd o <? n))) (map (fun id => (0, id)) l) = []).
    { induction l as [|x l IH]; intros Hl; [reflexivity|]. cbn [map filter fst snd]. destruct (Nat.ltb_spec x n) as [_|B]; [|specialize (Hl x (or_introl eq_refl)); lia].
      cbn. apply IH. intros y Hy. apply Hl. now right. }
    apply K. intros x Hx. apply in_seq in Hx. lia.
Qed.
Open Scope Z_scope.
Lemma ids_ok : forall a b, 0 <= a < 65536 -> 0 <= b -> decode_id (encode_id a b) = (a, b).
Proof.
  intros a b Ha Hb. unfold decode_id, encode_id. rewrite Z.shiftl_mul_pow2 by lia. rewrite Z.shiftr_div_pow2 by lia.
  change 65535 with (Z.ones 16). rewrite Z.land_ones by lia. change (2 ^ 16) with 65536. f_equal.
  - rewrite Z.mod_add by lia. now apply Z.mod_small.
  - rewrite Z.div_add by lia. rewrite Z.div_small by lia. lia.
Qed.
Close Scope Z_scope.
Lemma system_memory_ok : forall n fm fr, m_required fm = true -> m_required fr = true -> reach (m_mem fm, []) -> reach (m_mem fr, []) -> (Z.of_nat n < 65536)%Z ->
  exists lo hi fm' fr', system_setup_range n fm fr = Some ((lo, hi), (fm', fr')) /\
    (forall t, t < n -> exists a b, system_pools t fm' fr' = Some (Some a, Some b)) /\
    (forall t t' a a' b b', t < n -> t' < n -> system_pools t fm' fr' = Some (Some a, Some b) -> system_pools t' fm' fr' = Some (Some a', Some b') ->
       (a = a' \/ b = b') -> t = t') /\
    (exists fm2 fr2, system_release_range lo hi fm' fr' = Some (fm2, fr2) /\ reach (m_mem fm2, []) /\ reach (m_mem fr2, [])).
Proof.
  intros n fm fr Qm Qr Rm Rr Hn.
  destruct (range_ok n (m_mem fm) Rm) as (sm & Em & Gm & Um & Lm). destruct (range_ok n (m_mem fr) Rr) as (sr & Er & Gr & Ur & Lr).
  exists (encode_id 0 0), (encode_id (Z.of_nat n) (Z.of_nat n)), (mkFmem true sm), (mkFmem true sr).
  split; [|split; [|split]].
  - unfold system_setup_range, setup_range. rewrite Qm, Qr, Em, Er. cbn [obind fst snd]. change (Z.of_nat 0) with 0%Z.
    rewrite (proj2 (Z.leb_le 0 (Z.of_nat n))) by lia. rewrite (proj2 (Z.ltb_ge (Z.of_nat n) 0)) by lia. reflexivity.
  - intros t Ht. destruct (Gm t Ht) as (a & Ea). destruct (Gr t Ht) as (b & Eb). exists a, b. unfold system_pools, pool_of. cbn [m_required m_mem]. rewrite Ea, Eb. reflexivity.
  - intros t t' a a' b b' Ht Ht'. unfold system_pools, pool_of. cbn [m_required m_mem].
    destruct (par_get t sm) eqn:E1; [|discriminate]. destruct (par_get t sr) eqn:E2; [|discriminate]. cbn [obind].
    destruct (par_get t' sm) eqn:E3; [|discriminate]. destruct (par_get t' sr) eqn:E4; [|discriminate]. cbn [obind].
    intros [= -> ->] [= -> ->] [-> | ->]; [eapply Um; eassumption|eapply Ur; eassumption].
  - unfold system_release_range. rewrite !ids_ok by lia. cbn [fst snd]. unfold release_range. cbn [m_required m_mem].
    rewrite (proj2 (Z.leb_le 0 (Z.of_nat n))) by lia. cbn [andb Z.leb Z.compare guard obind]. rewrite Nat2Z.id. change (Z.to_nat 0) with 0.
    eexists _, _. split; [reflexivity|]. cbn [m_mem]. split; assumption.
Qed.
