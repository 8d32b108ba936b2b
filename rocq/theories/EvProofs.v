(** The evaluation of operators: fused elements, the tensor, and the values as those of the discrete function *)
From Verif Require Import Prelude RSum GeoModel GeoSpec GeoProofs GeoProofs2 GeoProps SpModel BasModel BasSpec BasProofs BasProofs2 BasProps BasProps2 CoreModel CoreSpec CoreProofs CoreProofs2 CoreProofs3 CoreProofs4 CoreProofs6 CoreProofs7 FiModel FiSpec FiProofs2 FiProofs3 FiProofs4 EvModel EvSpec.
Local Open Scope R_scope.

(** *** several elements, one part *)
Lemma apply_fused : forall q f dim nf U u dofs EX opU, (0 < q)%nat -> (0 < f)%nat -> (0 < dim)%nat -> nparts U = 1%nat -> band_of U dim nf q f u -> (nf * f <= length dofs)%nat -> (dim * q * f <= length opU)%nat ->
  exists op', fem3Dapply q f dim nf U dofs EX opU = Some op' /\ length op' = length opU /\
    (forall r n k, (r < f)%nat -> (n < q)%nat -> (k < dim)%nat -> rd op' (k + dim * (n + q * r)) =
      Some ((if (r =? 0)%nat then 0 else nth (k + dim * (n + q * r)) opU 0) + Rsum nf (fun i => u r n k i * nth (i + nf * r) dofs 0))) /\
    (forall c, (dim * q * f <= c)%nat -> rd op' c = rd opU c).
Proof.
  intros q f dim nf U u dofs EX opU Hq Hf Hd H1 HU LD LO. unfold fem3Dapply. rewrite H1, Nat.eqb_refl. pose proof HU as (_ & _ & _ & R0 & RP & C0 & CP & _ & Hp & _). rewrite H1 in *. destruct (Hp 0%nat ltac:(lia)) as (data & Ep & Hdat). unfold rd at 1. rewrite Ep. cbn [obind fst].
  rewrite R0, RP, C0, CP in *. rewrite !Nat.sub_0_r in *.
  destruct (a_mul_b_ok f nf data 0 (dim * q) dofs 0 1 opU 0 (fun r i j => u r (i / dim) (i mod dim) j)%nat (fun r j i => nth (j + nf * r) dofs 0) (fun r i j => nth (i + dim * q * r) opU 0)) as (op' & E & L & HA & HK).
  - intros r i j Hr Hi Hj. pose proof (Nat.div_mod i dim ltac:(lia)). pose proof (Nat.mod_upper_bound i dim ltac:(lia)). assert (i / dim < q)%nat by (apply Nat.div_lt_upper_bound; lia).
    rewrite <- Hdat by lia. unfold rd. f_equal. rewrite !Nat.sub_0_r. cbn [Nat.add]. rewrite (Nat.mul_comm dim q). lia.
  - intros r i j Hr Hi Hj. replace (0 + (j + nf * (i + 1 * r)))%nat with (j + nf * r)%nat by (replace i with 0%nat by lia; lia). apply rd_nth0. assert (j + nf * r < nf * f)%nat by (now apply RSum.cell_lt). lia.
  - rewrite Nat.max_r by lia. lia.
  - intros r i j Hr Hi Hj. replace (0 + (i + dim * q * (j + 1 * r)))%nat with (i + dim * q * r)%nat by (replace j with 0%nat by lia; lia). apply rd_nth0. assert (i + dim * q * r < dim * q * f)%nat by (now apply RSum.cell_lt). lia.
  - exists op'. split; [exact E|]. split; [exact L|]. split; [|intros c Hc; apply HK; rewrite Nat.max_r by lia; lia]. intros r n k Hr Hn Hk. assert (Hi : (k + dim * n < dim * q)%nat) by (now apply RSum.cell_lt).
    specialize (HA r (k + dim * n)%nat 0%nat Hr Hi ltac:(lia)). replace (0 + (k + dim * n + dim * q * (0 + 1 * r)))%nat with (k + dim * (n + q * r))%nat in HA by lia. rewrite HA. replace (k + dim * n + dim * q * r)%nat with (k + dim * (n + q * r))%nat by lia. do 2 f_equal.
    apply Rsum_ext. intros i _. destruct (cell_split dim k n Hk) as [-> ->]. reflexivity.
Qed.

(** *** the tensor: V holds the values g r n k *)
Lemma tensor_ok_of : forall F constant sp q f dim d V g w mes XYG DIFF DU opU, (0 < q)%nat -> (0 < f)%nat -> (0 < dim)%nat -> (0 < d)%nat ->
  (forall r n k, (r < f)%nat -> (n < q)%nat -> (k < dim)%nat -> rd V (k + dim * (n + q * r)) = Some (g r n k)) ->
  (forall n, (n < q)%nat -> rd w n = Some 1) -> (forall r, (r < f)%nat -> rd mes r = Some 1) -> (3 * (q * f) <= length XYG)%nat ->
  (forall r n, (r < f)%nat -> (n < q)%nat -> tensor_ok d dim 1 (F (xyz q XYG r n) r)) -> promise F constant sp q f (xyz q XYG) -> (constant = false -> sel_index F q f XYG sp) ->
  (d * dim * q * f <= length DIFF)%nat -> (d * q * f <= length DU)%nat -> (d * q * f <= length opU)%nat ->
  exists op', (do DU <- apply_DU F constant sp q f d dim 1 (one_part dim q 1 V) w mes XYG DIFF DU; copy (d * q * f) DU opU) = Some op' /\ length op' = length opU /\
    (forall r n k, (r < f)%nat -> (n < q)%nat -> (k < d)%nat -> rd op' (k + d * (n + q * r)) = Some (Rsum dim (fun j => tmat (F (xyz q XYG r n) r) d dim k j * g r n j))) /\
    (forall c, (d * q * f <= c)%nat -> rd op' c = rd opU c).
Proof.
  intros F constant sp q f dim d V g w mes XYG DIFF DU opU Hq Hf Hdim Hd HV Hw Hm LX HT HP Hsel LD LU LO.
  assert (HB : band_of (one_part dim q 1 V) dim 1 q f (fun r n k i => g r n k)).
  { apply one_band; [exact Hdim|]. intros r i n k Hr Hi Hn Hk. rewrite <- HV by assumption. f_equal. unfold cell. replace i with 0%nat by lia. lia. }
  destruct (apply_DU_ok F q f d dim 1 (one_part dim q 1 V) _ w mes XYG (fun _ => 1) (fun _ => 1) HB Hw Hm Hq Hf Hdim Hd HT LX constant sp DIFF DU HP Hsel) as (DU' & E & S2); [lia|lia|now left|].
  rewrite E. cbn [obind]. pose proof (result_of_step _ _ _ _ _ _ _ S2) as Res. destruct S2 as (LL & _).
  unfold copy. destruct (for_step_len (fun i c => c = i) (fun c x => rd DU' c = Some x) (d * q * f) (fun i l => do v <- rd DU' i; wr l i v) opU) as (op' & E' & L' & A' & K').
  { intros i l Hi Ll. destruct (rd_some DU' i ltac:(lia)) as (v & Ev). rewrite Ev. cbn [obind]. apply step_wr; [lia|exact Ev]. }
  rewrite E'. exists op'. split; [reflexivity|]. split; [exact L'|]. split.
  - intros r n k Hr Hn Hk. assert (Hc : (k + d * (n + q * r) < d * q * f)%nat) by (rewrite <- Nat.mul_assoc; apply RSum.cell_lt; [exact Hk|now apply RSum.cell_lt]).
    destruct (A' (k + d * (n + q * r))%nat) as (x & Ex & Hx); [exists (k + d * (n + q * r))%nat; auto|]. rewrite Ex. f_equal.
    specialize (Res k n 0%nat r Hk Hn ltac:(lia) Hr). unfold idx4 in Res. replace (k + d * (n + q * (0 + 1 * r)))%nat with (k + d * (n + q * r))%nat in Res by lia. rewrite Res in Hx. injection Hx as <-. unfold vv, Dm, TT. ring.
  - intros c Hc. destruct (K' c) as [|(i & Hi & ->)]; [assumption|lia].
Qed.
Lemma apply_tensor_fused : forall F constant sp q f dim nf d U u dofs EX V w mes XYG DIFF DU opU, (0 < q)%nat -> (0 < f)%nat -> (0 < dim)%nat -> (0 < d)%nat -> nparts U = 1%nat -> band_of U dim nf q f u ->
  (nf * f <= length dofs)%nat -> (dim * q * f <= length V)%nat ->
  (forall n, (n < q)%nat -> rd w n = Some 1) -> (forall r, (r < f)%nat -> rd mes r = Some 1) -> (3 * (q * f) <= length XYG)%nat ->
  (forall r n, (r < f)%nat -> (n < q)%nat -> tensor_ok d dim 1 (F (xyz q XYG r n) r)) -> promise F constant sp q f (xyz q XYG) -> (constant = false -> sel_index F q f XYG sp) ->
  (d * dim * q * f <= length DIFF)%nat -> (d * q * f <= length DU)%nat -> (d * q * f <= length opU)%nat ->
  exists op', apply_tensor F constant sp q f dim nf d U dofs EX V w mes XYG DIFF DU opU = Some op' /\ length op' = length opU /\
    (forall r n k, (r < f)%nat -> (n < q)%nat -> (k < d)%nat -> rd op' (k + d * (n + q * r)) = Some (Rsum dim (fun j => tmat (F (xyz q XYG r n) r) d dim k j *
       ((if (r =? 0)%nat then 0 else nth (j + dim * (n + q * r)) V 0) + Rsum nf (fun i => u r n j i * nth (i + nf * r) dofs 0))))) /\
    (forall c, (d * q * f <= c)%nat -> rd op' c = rd opU c).
Proof.
  intros F constant sp q f dim nf d U u dofs EX V w mes XYG DIFF DU opU Hq Hf Hdim Hd H1 HU LDo LV. intros. unfold apply_tensor.
  destruct (apply_fused q f dim nf U u dofs EX V Hq Hf Hdim H1 HU LDo LV) as (V' & E & L & HV & _). rewrite E. cbn [obind].
  apply (tensor_ok_of F constant sp q f dim d V' (fun r n j => (if (r =? 0)%nat then 0 else nth (j + dim * (n + q * r)) V 0) + Rsum nf (fun i => u r n j i * nth (i + nf * r) dofs 0)) w mes XYG DIFF DU opU); auto.
Qed.
(** one element, any number of parts *)
Lemma apply_tensor_band : forall F constant sp q dim nf d U u dofs EX V w mes XYG DIFF DU opU, (0 < q)%nat -> (0 < dim)%nat -> (0 < d)%nat -> band_of U dim nf q 1 u ->
  (nf <= length dofs)%nat -> (dim * q <= length V)%nat -> (nparts U = 1%nat \/ q = 1%nat \/ (dim * q <= length EX)%nat) ->
  (forall n, (n < q)%nat -> rd w n = Some 1) -> rd mes 0 = Some 1 -> (3 * q <= length XYG)%nat ->
  (forall n, (n < q)%nat -> tensor_ok d dim 1 (F (xyz q XYG 0 n) 0%nat)) -> promise F constant sp q 1 (xyz q XYG) ->
  (d * dim * q <= length DIFF)%nat -> (d * q <= length DU)%nat -> (d * q <= length opU)%nat ->
  exists op', apply_tensor F constant sp q 1 dim nf d U dofs EX V w mes XYG DIFF DU opU = Some op' /\ length op' = length opU /\
    (forall n k, (n < q)%nat -> (k < d)%nat -> rd op' (k + d * n) = Some (Rsum dim (fun j => tmat (F (xyz q XYG 0 n) 0%nat) d dim k j * Rsum nf (fun i => u 0%nat n j i * nth i dofs 0)))) /\
    (forall c, (d * q <= c)%nat -> rd op' c = rd opU c).
Proof.
  intros F constant sp q dim nf d U u dofs EX V w mes XYG DIFF DU opU Hq Hdim Hd HU LDo LV HE Hw Hm LX HT HP LD LU LO. unfold apply_tensor.
  destruct (fem3Dapply_ok q dim nf U u dofs HU LDo EX V Hq LV HE) as (V' & E & L & HV & _). rewrite E. cbn [obind].
  destruct (tensor_ok_of F constant sp q 1 dim d V' (fun r n j => opv nf u dofs n j) w mes XYG DIFF DU opU) as (op' & E' & L' & H' & K'); auto; try lia.
  - intros r n k Hr Hn Hk. replace r with 0%nat by lia. rewrite Nat.mul_0_r, Nat.add_0_r. now apply HV.
  - intros r Hr. replace r with 0%nat by lia. exact Hm.
  - intros r n Hr Hn. replace r with 0%nat by lia. now apply HT.
  - intros _ _ _ r n Hr Hn. now replace r with 0%nat by lia.
  - exists op'. split; [exact E'|]. split; [exact L'|]. split; [|intros c Hc; apply K'; lia]. intros n k Hn Hk. specialize (H' 0%nat n k ltac:(lia) Hn Hk). rewrite Nat.mul_0_r, Nat.add_0_r in H'. exact H'.
Qed.

(** *** the discrete function *)
Lemma partial_scal : forall F k y c d, partial F k y d -> partial (fun y => c * F y) k y (c * d).
Proof. intros F k y c d H. unfold partial in *. apply (derivable_pt_lim_scal (fun t => F (shift y k t)) c 0 d H). Qed.
Definition ddiscrete (s : fem) (x : tetra) (dof : nat -> R) (c a : nat) (y : nat -> R) : R := Rsum (nfa s) (fun i => dof i * dshape s x i c a y).
Lemma discrete_partial : forall s x dof c a y, nondegenerate x -> (a < 3)%nat -> partial (discrete s x dof c) a y (ddiscrete s x dof c a y).
Proof.
  intros s x dof c a y Hx Ha. unfold discrete, ddiscrete. apply (partial_sum (nfa s) (fun i y => dof i * BasSpec.shape s x i c y) a y (fun i => dof i * dshape s x i c a y)).
  intros i Hi. apply partial_scal. now apply shape_partial.
Qed.
Lemma value_sum : forall o nf (u : nat -> nat -> R) (D : nat -> nat -> nat -> R) (dof : nat -> R) k,
  Rsum nf (fun i => op_of o (fun _ _ k i => u k i) (fun _ _ c a i => D c a i) 0 0 k i * dof i) = value_of o (fun c => Rsum nf (fun i => dof i * u c i)) (fun c a => Rsum nf (fun i => dof i * D c a i)) k.
Proof.
  intros o nf u D dof k. destruct o as [| | | |a]; cbn [op_of value_of]; try (apply Rsum_ext; intros; ring).
  - rewrite <- !Rsum_plus. apply Rsum_ext. intros. ring.
  - destruct k as [|[|k]]; rewrite <- Rsum_minus; apply Rsum_ext; intros; ring.
Qed.
Lemma op_value_ok : forall s o x dof k y, nondegenerate x ->
  op_value (fdim s) o (discrete s x dof) k y (Rsum (nfa s) (fun i => op_of o (fun _ _ k i => BasSpec.shape s x i k y) (fun _ _ c a i => dshape s x i c a y) 0 0 k i * dof i)).
Proof.
  intros s o x dof k y Hx. exists (fun c a => ddiscrete s x dof c a y). split; [intros c a Hc Ha; now apply discrete_partial|].
  rewrite (value_sum o (nfa s) (fun k i => BasSpec.shape s x i k y) (fun c a i => dshape s x i c a y) dof k). reflexivity.
Qed.
Lemma value_ext : forall s o u D D' k, has_op s o = true -> (k < odims s o)%nat -> (forall c a, (c < fdim s)%nat -> (a < 3)%nat -> D c a = D' c a) -> value_of o u D k = value_of o u D' k.
Proof.
  intros s o u D D' k Ho Hk H. unfold odims in Hk. destruct o as [| | | |a]; cbn [dim_op value_of has_op] in *; try reflexivity.
  - apply H; [apply Nat.div_lt_upper_bound; lia|apply Nat.mod_upper_bound; lia].
  - apply Nat.eqb_eq in Ho. rewrite !H by lia. reflexivity.
  - apply Nat.eqb_eq in Ho. destruct k as [|[|k]]; rewrite !H by lia; reflexivity.
  - apply Nat.ltb_lt in Ho. now apply H.
Qed.
(** the operator depends on the function near the point only, and the point has three coordinates *)
Lemma op_value_ext : forall s o x dof k y y' v, (forall i, (i < 3)%nat -> y i = y' i) -> has_op s o = true -> (k < odims s o)%nat -> op_value (fdim s) o (discrete s x dof) k y v -> op_value (fdim s) o (discrete s x dof) k y' v.
Proof.
  intros s o x dof k y y' v Hy Ho Hk (D & HD & ->). exists D.
  assert (Q : forall c z z', (c < fdim s)%nat -> (forall i, (i < 3)%nat -> z i = z' i) -> discrete s x dof c z = discrete s x dof c z').
  { intros c z z' Hc Hz. unfold discrete. apply Rsum_ext. intros i _. f_equal. now apply shape_ext. }
  split.
  - intros c a Hc Ha. unfold partial. specialize (HD c a Hc Ha). unfold partial in HD. intros e He. destruct (HD e He) as (dl & Hdl). exists dl. intros h Hh Hl. rewrite <- (Q c (shift y a (0 + h)) (shift y' a (0 + h))), <- (Q c (shift y a 0) (shift y' a 0)); auto; intros i Hi; unfold shift; now rewrite Hy.
  - destruct o; cbn [value_of]; try reflexivity. apply Q; auto.
Qed.
