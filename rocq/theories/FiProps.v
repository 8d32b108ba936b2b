(** C49: elemental matrices of integrals *)
From Coq Require Import ZArith.
From Coq Require Import FunctionalExtensionality.
From Verif Require Import Prelude RSum GeoModel GeoSpec GeoProofs GeoProofs2 GeoProps SpModel BasModel BasSpec BasProofs BasProofs2 BasProps CoreModel CoreSpec CoreProofs QuadModel QuadRules QuadSpec QuadPoly QuadProofs2 QuadProofs4 FiModel FiSpec FiProofs2 FiProofs3 FiProofs4 FiProofs5.
Local Open Scope R_scope.

Lemma sum_ok : forall F constant sp reg order f sA oA sB oB XY0 XY1 XY2 XY3 w A DA DB,
  let x := tet_of XY0 XY1 XY2 XY3 in let q := npoints reg order in let nD := (if with_normal reg then 3 else 1)%nat in
  valid reg -> order_ok reg order -> (1 <= f)%nat -> has_op sA oA = true -> has_op sB oB = true -> (forall r, (r < f)%nat -> nondegenerate (x r)) ->
  proper F constant sp (odims sB oB * nD) (odims sA oA) (nfa sA) f -> room_for (with_normal reg) q f sA oA sB oB w A -> room_points q w ->
  (forall r, (r < f)%nat -> derivatives sA (x r) (DA r)) -> (forall r, (r < f)%nat -> derivatives sB (x r) (DB r)) ->
  exists A' N Fm, integrate F constant sp reg order f sA oA sB oB XY0 XY1 XY2 XY3 w A = Some A' /\ length A' = length A /\ formula_for reg order Fm /\
    (forall r, (r < f)%nat -> match reg with FaceN k => outer_normal (x r) k (N r) | _ => True end) /\
    (forall r ia ib, (r < f)%nat -> (ia < nfa sA)%nat -> (ib < nfa sB)%nat -> rd A' (ib + nfa sB * (ia + nfa sA * r)) =
      Some (size_of reg (x r) * qsum Fm (fun p => integrand F r (N r) (with_normal reg) sA oA sB oB (x r) (DA r) (DB r) ia ib (at_bary (fun i => x r (corner reg i)) p)))) /\
    (forall c, (nfa sB * nfa sA * f <= c)%nat -> rd A' c = rd A c).
Proof.
  intros F constant sp reg order f sA oA sB oB XY0 XY1 XY2 XY3 w A DA DB x q nD Hv Ho Hf HA HB Hx HP HR (HR1 & HR2) HDA HDB.
  destruct (load_points_ok reg order (w_xyl w) (w_wg w) Hv Ho HR1 HR2) as (Fm & xyl & wg & El & Lf & H1 & L1 & L2 & HF & Hpt). fold q in El, Lf, H1.
  assert (PT : forall n, (n < q)%nat -> exists p v, nth_error Fm n = Some (p, v) /\ nth n Fm ([], 0) = (p, v)).
  { intros n Hn. destruct (nth_error Fm n) as [[p v]|] eqn:E; [|apply nth_error_None in E; lia]. exists p, v. split; [reflexivity|]. now apply nth_error_nth. }
  destruct (assemble_ok F constant sp (with_normal reg) (measure reg f) q f sA oA sB oB XY0 XY1 XY2 XY3 xyl wg w A
    (fun n k => spread reg (fst (nth n Fm ([], 0))) k) (fun n => snd (nth n Fm ([], 0))) (fun r => size_of reg (x r)) (fun r N => normals reg r x N) DA DB Hf H1 HA HB Hx) as (A' & N & E & LA & HN & HE & HK); trivial.
  - intros n Hn. destruct (PT n Hn) as (p & v & En & Ed). rewrite Ed. cbn [fst]. destruct (Hpt n p v En) as (B1 & B2 & B3 & B4). split; [|exact B4].
    apply spread_sum; trivial. rewrite fold_Rsum, B1. exact B2.
  - intros n Hn. destruct (PT n Hn) as (p & v & En & Ed). rewrite Ed. cbn [snd]. now destruct (Hpt n p v En) as (B1 & B2 & B3 & B4).
  - intros xyp mes He Lm Hm. apply measure_ok; trivial. intros Hw. now apply HR.
  - exists A', N, Fm. split.
    + unfold integrate. rewrite guard_true by (apply Nat.leb_le; apply HR). rewrite El. cbn [obind]. exact E.
    + split; [exact LA|]. split; [exact HF|]. split; [intros r Hr; exact (HN r Hr)|]. split; [|exact HK].
      intros r ia ib Hr Ha Hb. rewrite (HE r ia ib Hr Ha Hb). do 2 f_equal. rewrite qsum_Rsum, Lf. apply Rsum_ext. intros n Hn. f_equal.
      destruct (PT n Hn) as (p & v & En & Ed). destruct (Hpt n p v En) as (B1 & _). rewrite <- spread_point by (rewrite ?Ed; trivial). reflexivity.
Qed.
(** The matrix is the sum over the formula [Fm] of the given order (C43) times the size of the region *)
Theorem C49_sum : forall F constant sp reg order f sA oA sB oB XY0 XY1 XY2 XY3 w A DA DB,
  let x := tet_of XY0 XY1 XY2 XY3 in let q := npoints reg order in let nD := (if with_normal reg then 3 else 1)%nat in
  valid reg -> order_ok reg order -> (1 <= f)%nat -> has_op sA oA = true -> has_op sB oB = true -> (forall r, (r < f)%nat -> nondegenerate (x r)) ->
  proper F constant sp (odims sB oB * nD) (odims sA oA) (nfa sA) f -> room_for (with_normal reg) q f sA oA sB oB w A -> room_points q w ->
  (forall r, (r < f)%nat -> derivatives sA (x r) (DA r)) -> (forall r, (r < f)%nat -> derivatives sB (x r) (DB r)) ->
  exists A' N Fm, integrate F constant sp reg order f sA oA sB oB XY0 XY1 XY2 XY3 w A = Some A' /\ length A' = length A /\ 
    match shape_of reg with Some s => exists fq, quadrature s order = Some fq /\ all_points (dim s) fq = Some Fm | None => Fm = [([1], 1)] end /\
    (forall r, (r < f)%nat -> match reg with FaceN k => outer_normal (x r) k (N r) | _ => True end) /\
    (forall r ia ib, (r < f)%nat -> (ia < nfa sA)%nat -> (ib < nfa sB)%nat -> rd A' (ib + nfa sB * (ia + nfa sA * r)) =
      Some (size_of reg (x r) * qsum Fm (fun p => integrand F r (N r) (with_normal reg) sA oA sB oB (x r) (DA r) (DB r) ia ib (at_bary (fun i => x r (corner reg i)) p)))) /\
    (forall c, (nfa sB * nfa sA * f <= c)%nat -> rd A' c = rd A c).
Proof.
  intros F constant sp reg order f sA oA sB oB XY0 XY1 XY2 XY3 w A DA DB x q nD Hv Ho Hf HA HB Hx HP HR HR' HDA HDB.
  destruct (sum_ok F constant sp reg order f sA oA sB oB XY0 XY1 XY2 XY3 w A DA DB Hv Ho Hf HA HB Hx HP HR HR' HDA HDB) as (A' & N & Fm & E & L & HF & H).
  exists A', N, Fm. split; [exact E|]. split; [exact L|]. split; [|exact H]. unfold formula_for in HF. destruct (shape_of reg); [|exact HF]. destruct HF as (fq & Eq & S0). exists fq. split; [exact Eq|apply S0].
Qed.
Print Assumptions C49_sum.

(** If the integrand is a polynomial of degree at most the order, the matrix is the integral up to the error of the formulas *)
Theorem C49_integral : forall F constant sp reg order f sA oA sB oB XY0 XY1 XY2 XY3 w A DA DB,
  let x := tet_of XY0 XY1 XY2 XY3 in let q := npoints reg order in let nD := (if with_normal reg then 3 else 1)%nat in
  valid reg -> order_ok reg order -> (1 <= f)%nat -> has_op sA oA = true -> has_op sB oB = true -> (forall r, (r < f)%nat -> nondegenerate (x r)) ->
  proper F constant sp (odims sB oB * nD) (odims sA oA) (nfa sA) f -> room_for (with_normal reg) q f sA oA sB oB w A -> room_points q w ->
  (forall r, (r < f)%nat -> derivatives sA (x r) (DA r)) -> (forall r, (r < f)%nat -> derivatives sB (x r) (DB r)) ->
  exists A' N, integrate F constant sp reg order f sA oA sB oB XY0 XY1 XY2 XY3 w A = Some A' /\ length A' = length A /\
    (forall r, (r < f)%nat -> match reg with FaceN k => outer_normal (x r) k (N r) | _ => True end) /\
    (forall r ia ib, (r < f)%nat -> (ia < nfa sA)%nat -> (ib < nfa sB)%nat ->
      let g := integrand F r (N r) (with_normal reg) sA oA sB oB (x r) (DA r) (DB r) ia ib in
      exists a, rd A' (ib + nfa sB * (ia + nfa sA * r)) = Some a /\
        (forall P, is_poly reg (x r) (Z.to_nat order) g P -> near (/ 10 ^ 18 * (size_of reg (x r) * bnorm P)) a (integral reg (x r) g)) /\
        (shape_of reg = None -> a = integral reg (x r) g)) /\
    (forall c, (nfa sB * nfa sA * f <= c)%nat -> rd A' c = rd A c).
Proof.
  intros F constant sp reg order f sA oA sB oB XY0 XY1 XY2 XY3 w A DA DB x q nD Hv Ho Hf HA HB Hx HP HR HR' HDA HDB.
  destruct (sum_ok F constant sp reg order f sA oA sB oB XY0 XY1 XY2 XY3 w A DA DB Hv Ho Hf HA HB Hx HP HR HR' HDA HDB) as (A' & N & Fm & E & L & HF & HN & HE & HK). fold x in HN, HE.
  exists A', N. split; [exact E|]. split; [exact L|]. split; [exact HN|]. split; [|exact HK]. intros r ia ib Hr Ha Hb g. eexists. split; [exact (HE r ia ib Hr Ha Hb)|]. fold g.
  assert (SP : 0 <= size_of reg (x r)).
  { destruct reg; cbn [size_of]; [unfold volume; pose proof (Rabs_pos (det3 (edge_matrix (x r)))); lra| | |unfold edge_length; apply sqrt_pos|lra]; unfold face_area; pose proof (sqrt_pos (gram2 (vtx_of (x r) k) (vtx_of (x r) ((k + 1) mod 4)) (vtx_of (x r) ((k + 2) mod 4)))); lra. }
  assert (ND : shape_of reg = None -> size_of reg (x r) * qsum Fm (fun p => g (at_bary (fun i => x r (corner reg i)) p)) = integral reg (x r) g).
  { intros Hs. unfold integral, formula_for in *. rewrite Hs in *. subst Fm. destruct reg; try discriminate. unfold qsum. cbn [fold_right fst snd size_of corner].
    assert (Ep : at_bary (fun _ => x r k) [1] = x r k) by (extensionality c; rewrite at_bary_sum; cbn; ring). rewrite Ep. ring. }
  split; [|exact ND]. intros P (HD & HP'). destruct (shape_of reg) as [s|] eqn:Es.
  - unfold formula_for, corners, integral in *. rewrite Es in *. destruct HF as (fq & Eq & S0). cbn [Nat.sub] in HD. rewrite Nat.sub_0_r in HD.
    pose proof (sound_poly s (Z.to_nat order) fq Fm P S0 HD) as B. pose proof (proj1 (proj2 S0)) as OS.
    rewrite (QuadProofs2.qsum_ext Fm _ (beval P)). 2:{ intros p v Hi. destruct (OS p v Hi) as (B1 & B2). apply HP'; [exact B1|]. rewrite fold_Rsum, B1. exact B2. }
    rewrite (mean_ext s _ (beval P)) by (intros l Hl Hs; now apply HP').
    unfold near in *. rewrite <- Rmult_minus_distr_l, Rabs_mult, (Rabs_right (size_of reg (x r))) by lra. rewrite (Rmult_comm (size_of reg (x r))). apply Rle_trans with (/ 10 ^ 18 * bnorm P * size_of reg (x r)); [now apply Rmult_le_compat_r|]. right. ring.
  - rewrite (ND eq_refl). unfold near. rewrite Rminus_diag_eq, Rabs_R0 by reflexivity. apply Rmult_le_pos; [left; apply Rinv_0_lt_compat; apply pow_lt; lra|]. apply Rmult_le_pos; [exact SP|].
    clear. unfold bnorm. induction P as [|a P IH]; cbn [fold_right]; [lra|]. pose proof (Rabs_pos (fst a)). lra.
Qed.
Print Assumptions C49_integral.

(** The integrand of two expressions of library spaces with a tensor whose entries are polynomials of degree at most t on the
    region is a polynomial of degree at most t + degree of the first + degree of the second expression.  So the order
    t + op_degree sA oA + op_degree sB oB is enough *)
Theorem C49_degree : forall F r N (normal : bool) reg sA oA sB oB x DA DB ia ib t order, valid reg -> nondegenerate x -> has_op sA oA = true -> has_op sB oB = true ->
  derivatives sA x DA -> derivatives sB x DB -> (ia < nfa sA)%nat -> (ib < nfa sB)%nat ->
  (let nD := (if normal then 3 else 1)%nat in forall k j, (k < odims sB oB * nD)%nat -> (j < odims sA oA)%nat -> exists P, is_poly reg x t (fun y => tmat (F (vec_of y) r) (odims sB oB * nD) (odims sA oA) k j) P) ->
  (t + op_degree sA oA + op_degree sB oB <= order)%nat ->
  exists P, is_poly reg x order (integrand F r N normal sA oA sB oB x DA DB ia ib) P.
Proof.
  intros F r N normal reg sA oA sB oB x DA DB ia ib t order Hv Hx HA HB DA' DB' Ha Hb HT Ho. apply (pol_le reg x _ order _ (integrand_pol reg x Hv Hx F r N normal sA oA sB oB DA DB ia ib t HA HB DA' DB' Ha Hb HT) Ho).
Qed.
Print Assumptions C49_degree.
(** Constants and the coordinates are polynomials on every region; derivatives exist *)
Theorem C49_tensors : forall reg x, valid reg -> nondegenerate x -> (forall c, exists P, is_poly reg x 0 (fun _ => c) P) /\ (forall c, (c < 3)%nat -> exists P, is_poly reg x 1 (fun y => y c) P) /\
  (forall a b g h, (exists P, is_poly reg x a g P) -> (exists P, is_poly reg x b h P) -> (exists P, is_poly reg x (Nat.max a b) (fun y => g y + h y) P) /\ exists P, is_poly reg x (a + b) (fun y => g y * h y) P).
Proof.
  intros reg x Hv Hx. split; [intros; apply pol_const|]. split; [intros; now apply pol_co|]. intros a b g h Hg Hh. split; [now apply pol_add|now apply pol_mul].
Qed.
Print Assumptions C49_tensors.
Theorem C49_derivatives : forall s x, nondegenerate x -> exists D, derivatives s x D.
Proof. intros s x Hx. exists (dshape s x). intros i c a y Hi Hc Ha. now apply shape_partial. Qed.
Print Assumptions C49_derivatives.

Lemma window : forall (l : list R) a n k, (k < n)%nat -> nth k (firstn n (skipn a l)) 0 = nth (k + a) l 0.
Proof.
  intros l a. revert l. induction a as [|a IH]; intros l n k Hk.
  - rewrite Nat.add_0_r. cbn [skipn]. revert n k Hk. induction l as [|b l IHl]; intros [|n] [|k] Hk; try lia; try reflexivity. cbn. apply IHl. lia.
  - destruct l as [|b l]; [cbn [skipn]; rewrite firstn_nil; destruct k; reflexivity|]. cbn [skipn]. rewrite IH by exact Hk. replace (k + S a)%nat with (S (k + a)) by lia. reflexivity.
Qed.
(** Sums over points given by barycentric coordinates with weights *)
Theorem C49_points : forall F constant sp xyl wg f sA oA sB oB XY0 XY1 XY2 XY3 w A DA DB,
  let x := tet_of XY0 XY1 XY2 XY3 in let q := Nat.min (length xyl / 4) (length wg) in
  (1 <= q)%nat -> (1 <= f)%nat -> has_op sA oA = true -> has_op sB oB = true -> (forall r, (r < f)%nat -> nondegenerate (x r)) ->
  (forall n, (n < q)%nat -> Rsum 4 (fun k => nth (k + 4 * n) xyl 0) = 1) ->
  proper F constant sp (odims sB oB * 1) (odims sA oA) (nfa sA) f -> room_for false q f sA oA sB oB w A ->
  (forall r, (r < f)%nat -> derivatives sA (x r) (DA r)) -> (forall r, (r < f)%nat -> derivatives sB (x r) (DB r)) ->
  exists A', sum_points F constant sp xyl wg f sA oA sB oB XY0 XY1 XY2 XY3 w A = Some A' /\ length A' = length A /\
    (forall r ia ib, (r < f)%nat -> (ia < nfa sA)%nat -> (ib < nfa sB)%nat -> rd A' (ib + nfa sB * (ia + nfa sA * r)) =
      Some (Rsum q (fun n => nth n wg 0 * integrand F r (fun _ => 0) false sA oA sB oB (x r) (DA r) (DB r) ia ib (at_bary (x r) (firstn 4 (skipn (4 * n) xyl)))))) /\
    (forall c, (nfa sB * nfa sA * f <= c)%nat -> rd A' c = rd A c).
Proof.
  intros F constant sp xyl wg f sA oA sB oB XY0 XY1 XY2 XY3 w A DA DB x q Hq Hf HA HB Hx HL HP HR HDA HDB.
  assert (Q1 : (4 * q <= length xyl)%nat). { assert (q <= length xyl / 4)%nat by apply Nat.le_min_l. pose proof (Nat.mul_div_le (length xyl) 4 ltac:(lia)). lia. }
  assert (Q2 : (q <= length wg)%nat) by apply Nat.le_min_r.
  destruct (assemble_ok F constant sp false (unit_measure f) q f sA oA sB oB XY0 XY1 XY2 XY3 xyl wg w A (fun n k => nth (k + 4 * n) xyl 0) (fun n => nth n wg 0) (fun _ => 1) (fun _ _ => True) DA DB Hf Hq HA HB Hx) as (A' & N & E & LA & _ & HE & HK); trivial.
  - intros n Hn. split; [now apply HL|]. intros k Hk. unfold rd. apply nth_error_nth'. lia.
  - intros n Hn. unfold rd. apply nth_error_nth'. lia.
  - intros xyp mes He Lm _. destruct (store_ok f (fun _ => 1) (fun r mes => wr mes r 1) mes Lm) as (m & Em & L & H); [reflexivity|]. unfold unit_measure. rewrite Em. cbn [obind]. exists m, (w_nrm w). auto.
  - exists A'. split; [unfold sum_points; rewrite guard_true by (apply Nat.leb_le; apply HR); exact E|]. split; [exact LA|]. split; [|exact HK].
    intros r ia ib Hr Ha Hb. rewrite (HE r ia ib Hr Ha Hb). f_equal. rewrite Rmult_1_l. apply Rsum_ext. intros n Hn. f_equal.
    transitivity (integrand F r (fun _ => 0) false sA oA sB oB (x r) (DA r) (DB r) ia ib (BasSpec.point x (fun n k => nth (k + 4 * n) xyl 0) r n)); [reflexivity|].
    apply integrand_ext; auto. intros c Hc. unfold BasSpec.point. rewrite at_bary_sum, firstn_length, skipn_length. replace (Nat.min 4 (length xyl - 4 * n)) with 4%nat by lia. apply Rsum_ext. intros k Hk. f_equal.
    symmetry. now apply window.
Qed.
Print Assumptions C49_points.
(** Sums over points given by their coordinates, one element, not more points than weights *)
Theorem C49_at_partial : forall F constant sp X wg sA oA sB oB XY0 XY1 XY2 XY3 w A DA DB,
  let x := tet_of (fun i _ => nth i XY0 0) (fun i _ => nth i XY1 0) (fun i _ => nth i XY2 0) (fun i _ => nth i XY3 0) 0 in let q := (length X / 3)%nat in
  length XY0 = 3%nat -> (1 <= q <= length wg)%nat -> has_op sA oA = true -> has_op sB oB = true -> nondegenerate x ->
  proper F constant sp (odims sB oB * 1) (odims sA oA) (nfa sA) 1 -> room_for false q 1 sA oA sB oB w A -> (4 * q <= length (w_xyl w))%nat -> length (g_psi (w_geom w)) = 9%nat ->
  derivatives sA x DA -> derivatives sB x DB ->
  exists A', sum_at F constant sp X wg sA oA sB oB XY0 XY1 XY2 XY3 w A = Some A' /\ length A' = length A /\
    (forall ia ib, (ia < nfa sA)%nat -> (ib < nfa sB)%nat -> rd A' (ib + nfa sB * ia) =
      Some (Rsum q (fun n => nth n wg 0 * integrand F 0 (fun _ => 0) false sA oA sB oB x DA DB ia ib (fun c => nth (c + 3 * n) X 0)))) /\
    (forall c, (nfa sB * nfa sA <= c)%nat -> rd A' c = rd A c).
Proof.
  intros F constant sp X wg sA oA sB oB XY0 XY1 XY2 XY3 w A DA DB x q L0 Hq HA HB Hx HP HR Lx Lp HDA HDB. unfold sum_at. fold q. replace (Nat.min q (length wg)) with q by lia.
  rewrite guard_true by (apply Nat.leb_le; apply HR). set (a0 := fun i (_ : nat) => nth i XY0 0). set (a1 := fun i (_ : nat) => nth i XY1 0). set (a2 := fun i (_ : nat) => nth i XY2 0). set (a3 := fun i (_ : nat) => nth i XY3 0).
  pose proof HR as (R1 & R2 & R3 & R4 & _). destruct (C28_element 1 a0 a1 a2 a3 (w_geom w) R1 R2 R3 R4) as (g & Eg & G1 & G2 & G3 & G4 & Hg). rewrite Eg. cbn [obind].
  destruct (Hg 0%nat ltac:(lia)) as (_ & _ & _ & Hi). change (tet_of a0 a1 a2 a3 0) with x in Hi. specialize (Hi Hx). rewrite Nat.mul_0_r in Hi.
  rewrite guard_true by (apply Nat.leb_le; exact Lx).
  assert (Lf : length (firstn (4 * q) (w_xyl w)) = (4 * q)%nat) by (rewrite firstn_length; lia).
  destruct (C28_barycentric_psi x X (firstn (4 * q) (w_xyl w)) (g_psi g)) as (W & EW & LW & HW); [congruence|exact Hi|rewrite Lf, Nat.mul_comm, Nat.div_mul by lia; fold q; lia|].
  assert (E0 : map (x 0%nat) [0; 1; 2]%nat = XY0). { unfold x, tet_of. destruct XY0 as [|u [|v [|z [|? ?]]]]; try discriminate. reflexivity. }
  rewrite E0 in EW. rewrite EW. cbn [obind]. fold q in HW.
  destruct (assemble_ok F constant sp false (unit_measure 1) q 1 sA oA sB oB a0 a1 a2 a3 W wg w A (fun n k => nth (4 * n + k) W 0) (fun n => nth n wg 0) (fun _ => 1) (fun _ _ => True) (fun _ => DA) (fun _ => DB)) as (A' & N & E & LA & _ & HE & HK); trivial; try lia.
  - intros n Hn. split; [apply (HW n Hn)|]. intros k Hk. unfold rd. rewrite (Nat.add_comm k). apply nth_error_nth'. lia.
  - intros n Hn. unfold rd. apply nth_error_nth'. lia.
  - intros xyp mes He Lm _. destruct (store_ok 1 (fun _ => 1) (fun r mes => wr mes r 1) mes Lm) as (m & Em & L & H); [reflexivity|]. unfold unit_measure. rewrite Em. cbn [obind]. exists m, (w_nrm w). auto.
  - exists A'. split; [exact E|]. split; [exact LA|]. split; [|intros c Hc; apply HK; lia].
    intros ia ib Ha Hb. specialize (HE 0%nat ia ib ltac:(lia) Ha Hb). rewrite Nat.mul_0_r, Nat.add_0_r in HE. rewrite HE. f_equal. rewrite Rmult_1_l. apply Rsum_ext. intros n Hn. f_equal.
    transitivity (integrand F 0 (fun _ => 0) false sA oA sB oB x DA DB ia ib (BasSpec.point (tet_of a0 a1 a2 a3) (fun n k => nth (4 * n + k) W 0) 0 n)); [reflexivity|].
    apply integrand_ext; auto. intros c Hc. destruct (HW n Hn) as (_ & Q). exact (Q c Hc).
Qed.
Print Assumptions C49_at_partial.

(** *** Memory on the stack *)
Lemma stack_points : forall reg order, valid reg -> (0 <= order <= stack_order reg)%Z -> (npoints reg order <= 24)%nat.
Proof.
  intros reg order Hv Ho. assert (E : order = Z.of_nat (Z.to_nat order)) by lia. rewrite E. assert (Hn : (Z.to_nat order <= Z.to_nat (stack_order reg))%nat) by lia. revert Hn. generalize (Z.to_nat order). intros n. clear -n.
  assert (T : forallb (fun o => (npoints Tet (Z.of_nat o) <=? 24)%nat) (seq 0 7) = true) by (vm_compute; reflexivity).
  assert (F : forallb (fun o => (npoints (Face 0) (Z.of_nat o) <=? 24)%nat) (seq 0 10) = true) by (vm_compute; reflexivity).
  assert (D : forallb (fun o => (npoints (Edge 0) (Z.of_nat o) <=? 24)%nat) (seq 0 21) = true) by (vm_compute; reflexivity).
  assert (G : forall m g, forallb (fun o => (g o <=? 24)%nat) (seq 0 m) = true -> (n < m)%nat -> (g n <= 24)%nat) by (intros m g H Hn; rewrite forallb_forall in H; apply Nat.leb_le, H, in_seq; lia).
  destruct reg as [|k|k|e|k]; cbn [stack_order]; intros Hn.
  - apply (G 7%nat _ T). lia.
  - apply (G 10%nat _ F). lia.
  - apply (G 10%nat _ F). lia.
  - apply (G 21%nat _ D). lia.
  - cbn. lia.
Qed.
Lemma nfa_le : forall s, (nfa s <= 20)%nat.
Proof. destruct s; cbn; lia. Qed.
Lemma dims_le : forall s o, has_op s o = true -> (odims s o <= 9)%nat.
Proof. intros s o H. unfold odims. destruct o; destruct s; cbn in *; try discriminate; lia. Qed.
Lemma usize_le : forall s o f q, has_op s o = true -> (usize s o f q <= 9 * 20 * (q * f))%nat.
Proof.
  intros s o f q H. assert (E : forall d n, (d <= 9)%nat -> (n <= 20)%nat -> (d * q * (n * f) <= 9 * 20 * (q * f))%nat).
  { intros d n Hd Hn. pose proof (Nat.mul_le_mono _ _ _ _ Hd Hn) as Q. pose proof (Nat.mul_le_mono_r _ _ (q * f) Q). lia. }
  pose proof (nfa_le s). pose proof (dims_le s o H). unfold usize. destruct o as [| | | |a]; try now apply E.
  assert (3 * fdim s <= 9)%nat by (destruct s; cbn; lia). assert (fdim s <= 9)%nat by lia. destruct s; now apply E.
Qed.
Lemma esize_le : forall s o q, (esize s o q <= 3 * 20 * q)%nat.
Proof. intros s o q. unfold esize. destruct o; destruct s; lia. Qed.
(** The memory on the stack is enough for all operators of the library spaces without a normal, at every order the functions
    accept *)
Theorem C49_stack : forall reg order f fusion sA oA sB oB w A, with_normal reg = false -> valid reg -> (0 <= order <= stack_order reg)%Z -> has_op sA oA = true -> has_op sB oB = true ->
  (0 < f <= fusion)%nat -> on_stack fusion w -> (nfa sA * nfa sB * f <= length A)%nat ->
  room_for false (npoints reg order) f sA oA sB oB w A /\ room_points (npoints reg order) w.
Proof.
  intros reg order f fusion sA oA sB oB w A Hn Hv Ho HA HB Hf (S1 & S2 & S3 & S4 & S5 & S6 & S7 & S8 & S9 & S10 & S11 & S12 & S13) HL. pose proof (stack_points reg order Hv Ho) as Hq. set (q := npoints reg order) in *. clearbody q.
  pose proof (usize_le sA oA f q HA) as UA. pose proof (usize_le sB oB f q HB) as UB. pose proof (esize_le sA oA q). pose proof (esize_le sB oB q). pose proof (nfa_le sA) as NA. pose proof (nfa_le sB) as NB. pose proof (dims_le sA oA HA) as DA. pose proof (dims_le sB oB HB) as DB.
  assert (Hqf : (q * f <= 24 * fusion)%nat) by (apply Nat.mul_le_mono; lia).
  assert (M3 : forall d n, (d <= 9)%nat -> (n <= 20)%nat -> (d * n * (q * f) <= 9 * 20 * (24 * fusion))%nat) by (intros d n Hd Hm; apply Nat.mul_le_mono; [now apply Nat.mul_le_mono|lia]).
  assert (NN : (nfa sA * nfa sB * f <= 20 * 20 * fusion)%nat) by (apply Nat.mul_le_mono; [now apply Nat.mul_le_mono|lia]).
  unfold room_for, room_points. cbn zeta. rewrite !Nat.mul_1_r.
  pose proof (M3 (odims sB oB) (Nat.max (odims sA oA) (nfa sA)) DB ltac:(lia)) as Q1. pose proof (M3 (odims sB oB) (nfa sA) DB NA) as Q2. rewrite <- Nat.mul_assoc. replace (odims sB oB * q * nfa sA * f)%nat with (odims sB oB * nfa sA * (q * f))%nat by ring.
  repeat match goal with |- _ /\ _ => split end; intros; lia.
Qed.
Print Assumptions C49_stack.
(** With a normal there are three times as many rows: the memory on the stack is not enough for all operators and orders.
    The function writes after the end of it *)
Theorem C49_stack_refuted : exists F order sA oA sB oB, (0 <= order <= stack_order (FaceN 0))%Z /\ has_op sA oA = true /\ has_op sB oB = true /\
  proper F true (Fixed KFull) (odims sB oB * 3) (odims sA oA) (nfa sA) 1 /\
  forall XY0 XY1 XY2 XY3 w A, on_stack 1 w -> integrate F true (Fixed KFull) (FaceN 0) order 1 sA oA sB oB XY0 XY1 XY2 XY3 w A = None.
Proof.
  exists (fun _ _ => TGen (repeat 1 27)), 7%Z, P3, IDEN, RT0, GRAD. split; [cbn; lia|]. split; [reflexivity|]. split; [reflexivity|]. split.
  { split; [intros X r _; cbn; repeat split; try reflexivity; try lia|]. split; [reflexivity|reflexivity]. }
  intros XY0 XY1 XY2 XY3 w A (_ & _ & Hdu & _ & _ & _ & Hl & Hw & _).
  destruct (integrate _ _ _ _ _ _ _ _ _ _ _ _ _ _ w A) as [A'|] eqn:E; [exfalso|reflexivity].
  destruct (load_points_ok (FaceN 0) 7 (w_xyl w) (w_wg w)) as (Fm & xyl & wg & El & _).
  - cbn. lia.
  - cbn. lia.
  - rewrite Hl. vm_compute. lia.
  - rewrite Hw. vm_compute. lia.
  - pose proof (integrate_room _ _ _ _ _ _ _ _ _ _ _ _ _ _ _ _ _ _ E El) as Q. change (npoints (FaceN 0) 7) with 15%nat in Q. specialize (Q ltac:(lia) ltac:(cbn; lia)). rewrite Hdu in Q. cbn [odims with_normal nfa] in Q. revert Q. cbn. lia.
Qed.
Print Assumptions C49_stack_refuted.
(** With more points than weights fem3DpntX computes barycentric coordinates of all points in an array for q of them *)
Definition some_work : work := {| w_geom := {| g_xyp := repeat 0 12; g_psi := repeat 0 9; g_det := repeat 0 1; g_mes := repeat 0 1 |}; w_nrm := repeat 0 3; w_xyl := repeat 0 96; w_wg := repeat 0 24; w_xyg := repeat 0 72;
  w_u := repeat 0 540; w_v := repeat 0 540; w_du := repeat 0 540; w_diff := repeat 0 540; w_ex := repeat 0 540 |}.
Theorem C49_at_refuted : exists F X wg XY0 XY1 XY2 XY3 A, let x := tet_of (fun i _ => nth i XY0 0) (fun i _ => nth i XY1 0) (fun i _ => nth i XY2 0) (fun i _ => nth i XY3 0) 0 in
  length XY0 = 3%nat /\ length XY1 = 3%nat /\ length XY2 = 3%nat /\ length XY3 = 3%nat /\ nondegenerate x /\ length X = 6%nat /\ length wg = 1%nat /\ proper F true (Fixed KNull) 1 1 1 1 /\
  room_for false 2 1 P0 IDEN P0 IDEN some_work A /\ (8 <= length (w_xyl some_work))%nat /\ sum_at F true (Fixed KNull) X wg P0 IDEN P0 IDEN XY0 XY1 XY2 XY3 some_work A = None.
Proof.
  exists (fun _ _ => TNull), [0; 0; 0; 1; 0; 0], [1], [0; 0; 0], [1; 0; 0], [0; 1; 0], [0; 0; 1], [0]. cbn zeta. do 4 (split; [reflexivity|]). split.
  { unfold nondegenerate, tet_of, det3, edge_matrix. cbn. lra. }
  split; [reflexivity|]. split; [reflexivity|]. split.
  { split; [intros X r _; cbn; auto|]. split; reflexivity. }
  split.
  { unfold room_for. cbn. repeat split; intros; lia. }
  split; [cbn; lia|]. vm_compute. reflexivity.
Qed.
Print Assumptions C49_at_refuted.
(** The unit tetrahedron, the face opposite vertex 0 with the normal, D = (x, 1, 0): the hypotheses hold and the matrix of
    P2 and P1 is the integral of phi_ia (D . N) psi_ib *)
Definition on_unit (k i r : nat) : R := if (S i =? k)%nat then 1 else 0.
Example C49_ex : let x := tet_of (on_unit 0) (on_unit 1) (on_unit 2) (on_unit 3) in let F : functor := fun X _ => TGen [fst (fst X); 1; 0] in
  exists A' N, integrate F false (Fixed KFull) (FaceN 1) 4 1 P2 IDEN P1 IDEN (on_unit 0) (on_unit 1) (on_unit 2) (on_unit 3) some_work (repeat 7 40) = Some A' /\ outer_normal (x 0%nat) 1 N /\
    forall ia ib, (ia < 10)%nat -> (ib < 4)%nat -> exists a P, rd A' (ib + 4 * ia) = Some a /\
      near (/ 10 ^ 18 * (size_of (FaceN 1) (x 0%nat) * bnorm P)) a
        (integral (FaceN 1) (x 0%nat) (fun y => (y 0%nat * N 0%nat + N 1%nat) * BasSpec.shape P2 (x 0%nat) ia 0 y * BasSpec.shape P1 (x 0%nat) ib 0 y)).
Proof.
  intros x F. assert (Hx : nondegenerate (x 0%nat)). { unfold x, on_unit, nondegenerate, tet_of, det3, edge_matrix. cbn. lra. }
  destruct (C49_derivatives P2 (x 0%nat) Hx) as (D2 & H2). destruct (C49_derivatives P1 (x 0%nat) Hx) as (D1 & H1).
  destruct (C49_integral F false (Fixed KFull) (FaceN 1) 4 1 P2 IDEN P1 IDEN (on_unit 0) (on_unit 1) (on_unit 2) (on_unit 3) some_work (repeat 7 40) (fun _ => D2) (fun _ => D1)) as (A' & N & E & _ & HN & HA & _).
  - cbn. lia.
  - cbn. lia.
  - lia.
  - reflexivity.
  - reflexivity.
  - intros r Hr. now replace r with 0%nat by lia.
  - split; [intros X r _; reflexivity|]. split; [discriminate|]. intros X r _. reflexivity.
  - change (npoints (FaceN 1) 4) with 6%nat. unfold room_for. cbn. repeat split; intros; lia.
  - change (npoints (FaceN 1) 4) with 6%nat. unfold room_points. cbn. lia.
  - intros r Hr. now replace r with 0%nat by lia.
  - intros r Hr. now replace r with 0%nat by lia.
  - exists A', (N 0%nat). split; [exact E|]. split; [exact (HN 0%nat ltac:(lia))|]. intros ia ib Ha Hb. destruct (HA 0%nat ia ib ltac:(lia) Ha Hb) as (a & Ra & Hp & _).
    destruct (C49_tensors (FaceN 1) (x 0%nat) ltac:(cbn; lia) Hx) as (T0 & T1 & _).
    destruct (C49_degree F 0 (N 0%nat) true (FaceN 1) P2 IDEN P1 IDEN (x 0%nat) D2 D1 ia ib 1 4) as (P & HP); trivial.
    + cbn. lia.
    + cbn zeta. intros k j Hk Hj. change (k < 3)%nat in Hk. change (j < 1)%nat in Hj. replace j with 0%nat by lia. destruct k as [|[|[|k]]]; [| | |lia].
      * exact (T1 0%nat ltac:(lia)).
      * destruct (pol_le (FaceN 1) (x 0%nat) 0 1 (fun _ => 1) (T0 1) ltac:(lia)) as (P & HP). exists P. exact HP.
      * destruct (pol_le (FaceN 1) (x 0%nat) 0 1 (fun _ => 0) (T0 0) ltac:(lia)) as (P & HP). exists P. exact HP.
    + exists a, P. split; [cbn [nfa] in Ra; rewrite Nat.mul_0_r, Nat.add_0_r in Ra; exact Ra|]. specialize (Hp P HP). cbn zeta in Hp.
      match goal with |- near _ _ (integral _ _ ?g) => assert (Eg : integrand F 0 (N 0%nat) true P2 IDEN P1 IDEN (x 0%nat) D2 D1 ia ib = g) end.
      { apply functional_extensionality. intros y. unfold integrand, op_at, flux, tmat, F, vec_of. cbn. ring. }
      rewrite <- Eg. exact Hp.
Qed.
