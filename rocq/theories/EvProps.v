(** C61: values of operators of discrete functions at given points *)
From Verif Require Import Prelude RSum GeoModel GeoSpec GeoProofs GeoProofs2 GeoProps SpModel BasModel BasSpec BasProofs BasProofs2 BasProps BasProps2 CoreModel CoreSpec CoreProofs CoreProofs3 FiModel FiSpec FiProofs2 FiProofs3 FiProofs4 FiProps EvModel EvSpec EvProofs EvProofs2.
Local Open Scope R_scope.

(** The value is unique, and exists for every operator, set of degrees of freedom and point *)
Theorem C61_unique : forall s o u k y v v', has_op s o = true -> (k < odims s o)%nat -> op_value (fdim s) o u k y v -> op_value (fdim s) o u k y v' -> v = v'.
Proof.
  intros s o u k y v v' Ho Hk (D & HD & ->) (D' & HD' & ->). apply (value_ext s); auto. intros c a Hc Ha. exact (partial_unique _ _ _ _ _ (HD c a Hc Ha) (HD' c a Hc Ha)).
Qed.
Print Assumptions C61_unique.
Theorem C61_derivatives : forall s o x dof k y, nondegenerate x -> exists v, op_value (fdim s) o (discrete s x dof) k y v.
Proof. intros. eexists. now apply op_value_ok. Qed.
Print Assumptions C61_derivatives.

(** Points given by barycentric coordinates, f elements: what was in the array is added for all elements but the first *)
Theorem C61_barycentric_partial : forall v f s o XY0 XY1 XY2 XY3 xyl dofs w opU, let x := tet_of XY0 XY1 XY2 XY3 in let q := (length xyl / 4)%nat in
  (1 <= f)%nat -> (1 <= q)%nat -> has_op s o = true -> (forall r, (r < f)%nat -> nondegenerate (x r)) -> (forall n, (n < q)%nat -> Rsum 4 (fun k => nth (4 * n + k) xyl 0) = 1) ->
  room_eval q f s o w -> length dofs = (nfa s * f)%nat -> (odims s o * q * f <= length opU)%nat ->
  exists op', fem3DapplyL v f s o XY0 XY1 XY2 XY3 xyl dofs w opU = Some op' /\ length op' = length opU /\
    (forall r n k, (r < f)%nat -> (n < q)%nat -> (k < odims s o)%nat -> exists u, op_value (fdim s) o (discrete s (x r) (fun i => nth (i + nfa s * r) dofs 0)) k (bary_point (x r) xyl n) u /\
      rd op' (k + odims s o * (n + q * r)) = Some ((if (r =? 0)%nat then 0 else nth (k + odims s o * (n + q * r)) opU 0) + u)) /\
    (forall c, (odims s o * q * f <= c)%nat -> rd op' c = rd opU c).
Proof.
  intros v f s o XY0 XY1 XY2 XY3 xyl dofs w opU x q Hf Hq Ho Hx HL HR LD LO. unfold fem3DapplyL. cbv zeta. fold q.
  assert (LX : (4 * q <= length xyl)%nat) by (apply Nat.mul_div_le; lia).
  destruct (eval_op_ok q f s o XY0 XY1 XY2 XY3 xyl w Hf Hq Ho Hx LX HL HR dofs opU ltac:(lia) LO) as (op' & E & R). exists op'. split; [|exact R].
  destruct v.
  - rewrite guard_true; [exact E|]. unfold check_apply. rewrite LD, Nat.eqb_refl. cbn [andb]. apply andb_true_intro. split; [apply Nat.ltb_lt; lia|now apply Nat.leb_le].
  - destruct (f =? 0)%nat eqn:Ef; [apply Nat.eqb_eq in Ef; lia|]. rewrite guard_true by now apply Nat.leb_le. exact E.
Qed.
Print Assumptions C61_barycentric_partial.
(** One element, or an array that is zero after the part of the first element *)
Theorem C61_barycentric : forall v f s o XY0 XY1 XY2 XY3 xyl dofs w opU, let x := tet_of XY0 XY1 XY2 XY3 in let q := (length xyl / 4)%nat in
  (1 <= f)%nat -> (1 <= q)%nat -> has_op s o = true -> (forall r, (r < f)%nat -> nondegenerate (x r)) -> (forall n, (n < q)%nat -> Rsum 4 (fun k => nth (4 * n + k) xyl 0) = 1) ->
  room_eval q f s o w -> length dofs = (nfa s * f)%nat -> (odims s o * q * f <= length opU)%nat ->
  (forall c, (odims s o * q <= c < odims s o * q * f)%nat -> nth c opU 0 = 0) ->
  exists op', fem3DapplyL v f s o XY0 XY1 XY2 XY3 xyl dofs w opU = Some op' /\ length op' = length opU /\
    (forall r n k, (r < f)%nat -> (n < q)%nat -> (k < odims s o)%nat -> exists u, op_value (fdim s) o (discrete s (x r) (fun i => nth (i + nfa s * r) dofs 0)) k (bary_point (x r) xyl n) u /\
      rd op' (k + odims s o * (n + q * r)) = Some u) /\
    (forall c, (odims s o * q * f <= c)%nat -> rd op' c = rd opU c).
Proof.
  intros v f s o XY0 XY1 XY2 XY3 xyl dofs w opU x q Hf Hq Ho Hx HL HR LD LO HZ.
  destruct (C61_barycentric_partial v f s o XY0 XY1 XY2 XY3 xyl dofs w opU Hf Hq Ho Hx HL HR LD LO) as (op' & E & L & H & K). exists op'. split; [exact E|]. split; [exact L|]. split; [|exact K].
  intros r n k Hr Hn Hk. destruct (H r n k Hr Hn Hk) as (u & Hu & Eu). fold q in Eu. exists u. split; [exact Hu|]. rewrite Eu. f_equal. destruct r as [|r]; [cbn; ring|]. cbn [Nat.eqb].
  rewrite HZ; [ring|]. fold q in Hn. assert (n + q * S r < q * f)%nat by nia. split; nia.
Qed.
Print Assumptions C61_barycentric.
(** Only the part of the first element is cleared: with 7 in the array the value of the second element is wrong by 7 *)
Definition two_work : work := {| w_geom := {| g_xyp := repeat 0 24; g_psi := repeat 0 18; g_det := repeat 0 2; g_mes := repeat 0 2 |}; w_nrm := repeat 0 6; w_xyl := repeat 0 96; w_wg := repeat 0 24; w_xyg := repeat 0 72;
  w_u := repeat 0 540; w_v := repeat 0 540; w_du := repeat 0 540; w_diff := repeat 0 540; w_ex := repeat 0 540 |}.
Theorem C61_fused_refuted : exists XY0 XY1 XY2 XY3 xyl dofs w opU, let x := tet_of XY0 XY1 XY2 XY3 in
  (forall r, (r < 2)%nat -> nondegenerate (x r)) /\ length xyl = 4%nat /\ Rsum 4 (fun k => nth k xyl 0) = 1 /\ room_eval 1 2 P1 IDEN w /\ length dofs = 8%nat /\ length opU = 2%nat /\
  forall v, exists op', fem3DapplyL v 2 P1 IDEN XY0 XY1 XY2 XY3 xyl dofs w opU = Some op' /\
    exists u, op_value 1 IDEN (discrete P1 (x 1%nat) (fun i => nth (i + 4) dofs 0)) 0 (bary_point (x 1%nat) xyl 0) u /\ rd op' 1 = Some (7 + u).
Proof.
  exists (on_unit 0), (on_unit 1), (on_unit 2), (on_unit 3), (repeat (/ 4) 4), (repeat 1 8), two_work, [7; 7]. intros x.
  assert (Hx : forall r, (r < 2)%nat -> nondegenerate (x r)) by (intros r _; unfold x, on_unit, nondegenerate, tet_of, det3, edge_matrix; cbn; lra).
  assert (HR : room_eval 1 2 P1 IDEN two_work) by (unfold room_eval; cbn; lia).
  split; [exact Hx|]. split; [reflexivity|]. split; [cbn; lra|]. split; [exact HR|]. split; [reflexivity|]. split; [reflexivity|]. intros v.
  destruct (C61_barycentric_partial v 2 P1 IDEN (on_unit 0) (on_unit 1) (on_unit 2) (on_unit 3) (repeat (/ 4) 4) (repeat 1 8) two_work [7; 7]) as (op' & E & _ & H & _); try (cbn; lia); auto.
  - intros n Hn. cbn in Hn. replace n with 0%nat by lia. cbn. lra.
  - exists op'. split; [exact E|]. destruct (H 1%nat 0%nat 0%nat ltac:(lia) ltac:(cbn; lia) ltac:(cbn; lia)) as (u & Hu & Eu). exists u. split; [exact Hu|exact Eu].
Qed.
Print Assumptions C61_fused_refuted.

(** Points given by their coordinates *)
Theorem C61_points : forall v s o XY0 XY1 XY2 XY3 X q dofs w opU, let x := tet_of (coords XY0) (coords XY1) (coords XY2) (coords XY3) 0 in
  length XY0 = 3%nat -> length X = (3 * q)%nat -> (1 <= q)%nat -> has_op s o = true -> nondegenerate x ->
  room_eval q 1 s o w -> length (g_psi (w_geom w)) = 9%nat -> (4 * q <= length (w_xyl w))%nat -> length dofs = nfa s -> (odims s o * q <= length opU)%nat ->
  exists op', fem3DapplyX v s o XY0 XY1 XY2 XY3 X dofs w opU = Some op' /\ length op' = length opU /\
    (forall n k, (n < q)%nat -> (k < odims s o)%nat -> exists u, op_value (fdim s) o (discrete s x (fun i => nth i dofs 0)) k (cart_point X n) u /\ rd op' (k + odims s o * n) = Some u) /\
    (forall c, (odims s o * q <= c)%nat -> rd op' c = rd opU c).
Proof.
  intros v s o XY0 XY1 XY2 XY3 X q dofs w opU x L0 LX Hq Ho Hx HR Lp Lx LD LO.
  assert (Q3 : (length X / 3 = q)%nat) by (rewrite LX, Nat.mul_comm; apply Nat.div_mul; lia).
  pose proof HR as (R1 & R2 & R3 & R4 & _).
  destruct (bary_ok v XY0 XY1 XY2 XY3 X w q L0 LX Hx ltac:(lia) Lp ltac:(lia) ltac:(lia) Lx) as (xyl & EB & LB & SB & PB). fold x in PB.
  destruct (eval_op_ok q 1 s o (coords XY0) (coords XY1) (coords XY2) (coords XY3) xyl w ltac:(lia) Hq Ho) with (dofs := dofs) (opU := opU) as (op' & E & L & H & K); auto; try lia.
  exists op'. split; [|split; [exact L|split]].
  - unfold fem3DapplyX. rewrite Q3, guard_true; [cbn [obind]; rewrite EB; exact E|]. destruct v; [|apply Nat.leb_le; lia].
    unfold check_apply. rewrite LD, Nat.mul_1_r, Nat.eqb_refl. cbn [andb Nat.ltb Nat.leb]. apply Nat.leb_le. lia.
  - intros n k Hn Hk. destruct (H 0%nat n k ltac:(lia) Hn Hk) as (u & Hu & Eu). exists u. split.
    + apply (op_value_ext s o x _ k (bary_point x xyl n)); auto. apply (op_value_dofs s o x (fun i => nth (i + nfa s * 0) dofs 0)); [|exact Hu].
      intros i _. now rewrite Nat.mul_0_r, Nat.add_0_r.
    + cbn [Nat.eqb] in Eu. rewrite Nat.mul_0_r, Nat.add_0_r, Rplus_0_l in Eu. exact Eu.
  - intros c Hc. apply K. lia.
Qed.
Print Assumptions C61_points.

(** The tensor times the operator, D(x) Op(u)(x), at barycentric coordinates: for all elements but the first what was in
    the work memory is added to Op(u) *)
Theorem C61_tensor_partial : forall F constant sp d f s o XY0 XY1 XY2 XY3 xyl dofs w A, let x := tet_of XY0 XY1 XY2 XY3 in let q := (length xyl / 4)%nat in
  (1 <= d)%nat -> (1 <= f)%nat -> (1 <= q)%nat -> has_op s o = true -> (forall r, (r < f)%nat -> nondegenerate (x r)) -> (forall n, (n < q)%nat -> Rsum 4 (fun k => nth (4 * n + k) xyl 0) = 1) ->
  proper F constant sp d (odims s o) 1 f -> room_eval q f s o w -> room_tensor d q f s o w -> length dofs = (nfa s * f)%nat -> (d * q * f <= length A)%nat ->
  exists A', fem3DapplyL_tensor F constant sp d f s o XY0 XY1 XY2 XY3 xyl dofs w A = Some A' /\ length A' = length A /\
    (forall r n k, (r < f)%nat -> (n < q)%nat -> (k < d)%nat -> exists u,
      (forall j, (j < odims s o)%nat -> op_value (fdim s) o (discrete s (x r) (fun i => nth (i + nfa s * r) dofs 0)) j (bary_point (x r) xyl n) (u j)) /\
      rd A' (k + d * (n + q * r)) = Some (Rsum (odims s o) (fun j => tmat (F (vec_of (bary_point (x r) xyl n)) r) d (odims s o) k j *
        ((if (r =? 0)%nat then 0 else nth (j + odims s o * (n + q * r)) (w_v w) 0) + u j)))) /\
    (forall c, (d * q * f <= c)%nat -> rd A' c = rd A c).
Proof.
  intros F constant sp d f s o XY0 XY1 XY2 XY3 xyl dofs w A x q Hd Hf Hq Ho Hx HL HP HR HT LD LA. unfold fem3DapplyL_tensor. cbv zeta. fold q.
  assert (LX : (4 * q <= length xyl)%nat) by (apply Nat.mul_div_le; lia).
  destruct (f =? 0)%nat eqn:Ef; [apply Nat.eqb_eq in Ef; lia|]. rewrite guard_true by now apply Nat.leb_le. cbn [obind].
  exact (eval_tensor_ok q f s o XY0 XY1 XY2 XY3 xyl w Hf Hq Ho Hx LX HL HR F constant sp d dofs A Hd HP HT ltac:(lia) LA).
Qed.
Print Assumptions C61_tensor_partial.
(** One element, points given by their coordinates *)
Theorem C61_tensor_points : forall F constant sp d s o XY0 XY1 XY2 XY3 X q dofs w A, let x := tet_of (coords XY0) (coords XY1) (coords XY2) (coords XY3) 0 in
  (1 <= d)%nat -> length XY0 = 3%nat -> length X = (3 * q)%nat -> (1 <= q)%nat -> has_op s o = true -> nondegenerate x -> proper F constant sp d (odims s o) 1 1 ->
  room_eval q 1 s o w -> room_tensor d q 1 s o w -> length (g_psi (w_geom w)) = 9%nat -> (4 * q <= length (w_xyl w))%nat -> length dofs = nfa s -> (d * q <= length A)%nat ->
  exists A', fem3DapplyX_tensor F constant sp d s o XY0 XY1 XY2 XY3 X dofs w A = Some A' /\ length A' = length A /\
    (forall n k, (n < q)%nat -> (k < d)%nat -> exists u,
      (forall j, (j < odims s o)%nat -> op_value (fdim s) o (discrete s x (fun i => nth i dofs 0)) j (cart_point X n) (u j)) /\
      rd A' (k + d * n) = Some (Rsum (odims s o) (fun j => tmat (F (vec_of (cart_point X n)) 0%nat) d (odims s o) k j * u j))) /\
    (forall c, (d * q <= c)%nat -> rd A' c = rd A c).
Proof.
  intros F constant sp d s o XY0 XY1 XY2 XY3 X q dofs w A x Hd L0 LX Hq Ho Hx HP HR HT Lp Lx LD LA.
  assert (Q3 : (length X / 3 = q)%nat) by (rewrite LX, Nat.mul_comm; apply Nat.div_mul; lia).
  pose proof HR as (R1 & R2 & R3 & R4 & _).
  destruct (bary_ok Dynamic XY0 XY1 XY2 XY3 X w q L0 LX Hx ltac:(lia) Lp ltac:(lia) ltac:(lia) Lx) as (xyl & EB & LB & SB & PB). fold x in PB.
  destruct (eval_tensor_ok q 1 s o (coords XY0) (coords XY1) (coords XY2) (coords XY3) xyl w ltac:(lia) Hq Ho) with (F := F) (constant := constant) (sp := sp) (d := d) (dofs := dofs) (A := A) as (A' & E & L & H & K); auto; try lia.
  exists A'. split; [|split; [exact L|split]].
  - unfold fem3DapplyX_tensor. rewrite Q3, guard_true by (apply Nat.leb_le; lia). cbn [obind]. rewrite EB. exact E.
  - intros n k Hn Hk. destruct (H 0%nat n k ltac:(lia) Hn Hk) as (u & Hu & Eu). exists u. split.
    + intros j Hj. apply (op_value_ext s o x _ j (bary_point x xyl n)); auto. apply (op_value_dofs s o x (fun i => nth (i + nfa s * 0) dofs 0)); [|exact (Hu j Hj)].
      intros i _. now rewrite Nat.mul_0_r, Nat.add_0_r.
    + rewrite Nat.mul_0_r, Nat.add_0_r in Eu. rewrite Eu. f_equal. apply Rsum_ext. intros j _. cbn [Nat.eqb]. rewrite Rplus_0_l. f_equal.
      assert (EP : vec_of (cart_point X n) = vec_of (bary_point x xyl n)) by (unfold vec_of; now rewrite !PB by lia). now rewrite EP.
  - intros c Hc. apply K. lia.
Qed.
Print Assumptions C61_tensor_points.

(** An operator of a composite space, given by its band matrix, one element *)
Theorem C61_tensor_band : forall F constant sp q dim nf d U u dofs EX V w mes XYG DIFF DU opU, (0 < q)%nat -> (0 < dim)%nat -> (0 < d)%nat -> band_of U dim nf q 1 u ->
  (nf <= length dofs)%nat -> (dim * q <= length V)%nat -> (nparts U = 1%nat \/ q = 1%nat \/ (dim * q <= length EX)%nat) ->
  (forall n, (n < q)%nat -> rd w n = Some 1) -> rd mes 0 = Some 1 -> (3 * q <= length XYG)%nat -> proper F constant sp d dim 1 1 ->
  (d * dim * q <= length DIFF)%nat -> (d * q <= length DU)%nat -> (d * q <= length opU)%nat ->
  exists op', apply_tensor F constant sp q 1 dim nf d U dofs EX V w mes XYG DIFF DU opU = Some op' /\ length op' = length opU /\
    (forall n k, (n < q)%nat -> (k < d)%nat -> rd op' (k + d * n) = Some (Rsum dim (fun j => tmat (F (vec_of (cart_point XYG n)) 0%nat) d dim k j * Rsum nf (fun i => u 0%nat n j i * nth i dofs 0)))) /\
    (forall c, (d * q <= c)%nat -> rd op' c = rd opU c).
Proof.
  intros F constant sp q dim nf d U u dofs EX V w mes XYG DIFF DU opU Hq Hdim Hd HB LD LV HE Hw Hm LX (P1 & P2 & P3) LDf LDU LO.
  destruct (apply_tensor_band F constant sp q dim nf d U u dofs EX V w mes XYG DIFF DU opU Hq Hdim Hd HB LD LV HE Hw Hm LX) as (op' & E & L & H & K); auto.
  - split; [intros Hc r n Hr _; now apply P2|]. destruct sp; intros; first [exact I | now apply P3 | now apply (proj1 P3)].
  - exists op'. split; [exact E|]. split; [exact L|]. split; [|exact K]. intros n k Hn Hk. rewrite (H n k Hn Hk).
    assert (EP : xyz q XYG 0 n = vec_of (cart_point XYG n)) by (unfold xyz, vec_of, cart_point; rewrite Nat.mul_0_l, !Nat.add_0_r; reflexivity). now rewrite EP.
Qed.
Print Assumptions C61_tensor_band.

(** *** Memory on the stack *)
Theorem C61_stack : forall fusion maxpnt f q s o w, has_op s o = true -> (1 <= f <= fusion)%nat -> (q <= maxpnt)%nat -> stack_memory fusion maxpnt w ->
  room_eval q f s o w /\ (4 * q <= length (w_xyl w))%nat /\ (fusion = 1%nat -> length (g_psi (w_geom w)) = 9%nat).
Proof.
  intros fusion maxpnt f q s o w Ho Hf Hq (S1 & S2 & S3 & S4 & S5 & S6 & S7 & S8 & S9 & S10 & S11 & S12 & S13).
  pose proof (usize_le s o f q Ho) as HU. pose proof (esize_le s o q) as HE. assert (Hqf : (q * f <= maxpnt * fusion)%nat) by (apply Nat.mul_le_mono; lia). assert (Hm : (maxpnt <= maxpnt * fusion)%nat) by nia.
  unfold room_eval. rewrite S1, S5, S6, S7, S9, S10, S12, S13. replace (9 * maxpnt * 30 * fusion)%nat with (270 * (maxpnt * fusion))%nat by ring. replace (3 * 20 * maxpnt * fusion)%nat with (60 * (maxpnt * fusion))%nat by ring. replace (3 * maxpnt * fusion)%nat with (3 * (maxpnt * fusion))%nat by ring.
  repeat split; lia.
Qed.
Print Assumptions C61_stack.
(** The check lets four times as many points through: for every number of points between maxpnt and 4 * maxpnt it passes,
    and the array of coordinates on the stack is overrun *)
Theorem C61_stack_refuted : forall maxpnt q s o XY0 XY1 XY2 XY3 X dofs w opU, (maxpnt < q <= 4 * maxpnt)%nat -> length X = (3 * q)%nat -> length dofs = nfa s -> length opU = (odims s o * q)%nat -> stack_memory 1 maxpnt w ->
  check_static 1 maxpnt 1 (length X / 3) (nfa s) (odims s o) dofs opU = true /\ fem3DapplyX_static maxpnt s o XY0 XY1 XY2 XY3 X dofs w opU = None.
Proof.
  intros maxpnt q s o XY0 XY1 XY2 XY3 X dofs w opU Hq LX LD LO (_ & _ & _ & _ & _ & _ & S7 & _).
  assert (Q3 : (length X / 3 = q)%nat) by (rewrite LX, Nat.mul_comm; apply Nat.div_mul; lia).
  assert (C : check_apply 1 q (nfa s) (odims s o) dofs opU = true).
  { unfold check_apply. rewrite LD, Nat.mul_1_r, Nat.eqb_refl. cbn [andb Nat.ltb Nat.leb]. apply Nat.leb_le. lia. }
  assert (CS : check_static 1 maxpnt 1 (length X / 3) (nfa s) (odims s o) dofs opU = true).
  { unfold check_static. rewrite Q3, C. cbn [andb Nat.leb]. apply Nat.leb_le. lia. }
  split; [exact CS|]. unfold fem3DapplyX_static. rewrite CS. cbn [guard obind]. unfold fem3DapplyX. rewrite Q3, C. cbn [guard obind].
  unfold bary_of. destruct (geom_init_tet _ _ _ _ _ _) as [g|]; [|reflexivity]. cbn [obind].
  replace (4 * length X / 3)%nat with (4 * q)%nat by (rewrite LX; replace (4 * (3 * q))%nat with ((4 * q) * 3)%nat by lia; symmetry; apply Nat.div_mul; lia).
  rewrite S7. destruct (4 * q <=? 4 * maxpnt)%nat eqn:E; [apply Nat.leb_le in E; lia|reflexivity].
Qed.
Print Assumptions C61_stack_refuted.

(** Degrees of freedom interpolated from a polynomial of the degree of the space: evaluation returns the polynomial *)
Theorem C61_polynomial : forall v s Q p XY0 XY1 XY2 XY3 X q w opU, let x := tet_of (coords XY0) (coords XY1) (coords XY2) (coords XY3) 0 in
  degree_of s <> 0%nat -> poly (degree_of s) p -> length XY0 = 3%nat -> length X = (3 * q)%nat -> (1 <= q)%nat -> nondegenerate x ->
  room_eval q 1 s IDEN w -> length (g_psi (w_geom w)) = 9%nat -> (4 * q <= length (w_xyl w))%nat -> (q <= length opU)%nat ->
  exists dofs, length dofs = nfa s /\
    (forall i fusion ud, (i < nfa s)%nat -> has_dof fusion i ud ->
       exists ud', interpolate s Q (fun k => vec_of (x k)) (fun X _ => p (of_vec X)) fusion i ud = Some ud' /\ entered fusion i (fun _ => nth i dofs 0) ud ud') /\
    exists op', fem3DapplyX v s IDEN XY0 XY1 XY2 XY3 X dofs w opU = Some op' /\ forall n, (n < q)%nat -> rd op' n = Some (p (cart_point X n)).
Proof.
  intros v s Q p XY0 XY1 XY2 XY3 X q w opU x Hs Hp L0 LX Hq Hx HR Lp Lx LO. destruct (C36_reproduce s Q x p Hs Hx Hp) as (u & Hu & Hr). destruct (lagrange_scalar s Hs) as (_ & _ & F1).
  assert (Nu : forall i, (i < nfa s)%nat -> nth i (map u (seq 0 (nfa s))) 0 = u i).
  { intros i Hi. rewrite (nth_indep _ 0 (u 0%nat)) by (rewrite map_length, seq_length; exact Hi). rewrite map_nth, seq_nth by exact Hi. reflexivity. }
  assert (Ho : has_op s IDEN = true) by reflexivity. assert (O1 : odims s IDEN = 1%nat) by (unfold odims; cbn; lia).
  exists (map u (seq 0 (nfa s))). split; [now rewrite map_length, seq_length|]. split.
  { intros i fusion ud Hi Hd. destruct (Hu i fusion ud Hi Hd) as (ud' & E & H). exists ud'. split; [exact E|]. now rewrite Nu. }
  destruct (C61_points v s IDEN XY0 XY1 XY2 XY3 X q (map u (seq 0 (nfa s))) w opU L0 LX Hq Ho Hx HR Lp Lx) as (op' & E & _ & H & _); [now rewrite map_length, seq_length|rewrite O1; lia|].
  exists op'. split; [exact E|]. intros n Hn. destruct (H n 0%nat Hn ltac:(lia)) as (t & (D & _ & Et) & Ev). rewrite O1 in Ev. replace (0 + 1 * n)%nat with n in Ev by lia. rewrite Ev. f_equal. cbn [value_of] in Et. rewrite Et.
  unfold discrete. rewrite <- Hr. apply Rsum_ext. intros i Hi. now rewrite Nu.
Qed.
Print Assumptions C61_polynomial.

(** P2 on the unit tetrahedron: the gradient at two points, and three rows with D = (1, x, 2) diagonal entries as a full matrix *)
Definition unit_vertex (k : nat) : list R := [on_unit k 0 0; on_unit k 1 0; on_unit k 2 0].
Lemma unit_nd : nondegenerate (tet_of (coords (unit_vertex 0)) (coords (unit_vertex 1)) (coords (unit_vertex 2)) (coords (unit_vertex 3)) 0).
Proof. unfold unit_vertex, coords, on_unit, nondegenerate, tet_of, det3, edge_matrix. cbn. lra. Qed.
Example C61_ex : forall v, exists op', fem3DapplyX v P2 GRAD (unit_vertex 0) (unit_vertex 1) (unit_vertex 2) (unit_vertex 3) [/ 2; / 3; 0; 1; 1; 1] [1; 2; 3; 4; 5; 6; 7; 8; 9; 10] some_work (repeat 7 8) = Some op' /\ length op' = 8%nat /\ rd op' 7 = Some 7.
Proof.
  intros v. destruct (C61_points v P2 GRAD (unit_vertex 0) (unit_vertex 1) (unit_vertex 2) (unit_vertex 3) [/ 2; / 3; 0; 1; 1; 1] 2 [1; 2; 3; 4; 5; 6; 7; 8; 9; 10] some_work (repeat 7 8)) as (op' & E & L & _ & K); try reflexivity; try (cbn; lia); try apply unit_nd.
  - unfold room_eval. cbn. lia.
  - exists op'. split; [exact E|]. split; [exact L|]. rewrite K by (cbn; lia). reflexivity.
Qed.
Example C61_ex_tensor : let F : functor := fun X _ => TGen [1; 0; 0; 0; fst (fst X); 0; 0; 0; 2] in
  proper F false (Fixed KFull) 3 (odims P2 GRAD) 1 1 /\ room_eval 2 1 P2 GRAD some_work /\ room_tensor 3 2 1 P2 GRAD some_work /\ (8 <= length (w_xyl some_work))%nat /\ length (g_psi (w_geom some_work)) = 9%nat.
Proof.
  intros F. split; [|split; [unfold room_eval; cbn; lia|split; [unfold room_tensor; cbn; lia|split; [cbn; lia|reflexivity]]]].
  split; [intros X r _; cbn; repeat split; try reflexivity; lia|]. split; [discriminate|reflexivity].
Qed.
Example C61_ex_stack : exists w, stack_memory 1 24 w.
Proof.
  exists {| w_geom := {| g_xyp := repeat 0 (12 * 1); g_psi := repeat 0 (9 * 1); g_det := repeat 0 1; g_mes := repeat 0 1 |}; w_nrm := repeat 0 (3 * 1); w_xyl := repeat 0 (4 * 24); w_wg := repeat 0 24; w_xyg := repeat 0 (3 * 24 * 1);
    w_u := repeat 0 (9 * 24 * 30 * 1); w_v := repeat 0 (9 * 24 * 30 * 1); w_du := repeat 0 (9 * 24 * 30 * 1); w_diff := repeat 0 (9 * 24 * 30 * 1); w_ex := repeat 0 (3 * 20 * 24 * 1) |}.
  unfold stack_memory. cbn [w_geom w_nrm w_xyl w_wg w_xyg w_u w_v w_du w_diff w_ex g_xyp g_psi g_det g_mes]. rewrite !repeat_length. repeat split.
Qed.
