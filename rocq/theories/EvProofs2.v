(** The whole evaluation for the library spaces *)
From Verif Require Import Prelude RSum GeoModel GeoSpec GeoProofs GeoProofs2 GeoProps SpModel BasModel BasSpec BasProofs BasProofs2 BasProps BasProps2 CoreModel CoreSpec CoreProofs CoreProofs2 CoreProofs3 CoreProofs4 CoreProofs6 CoreProofs7 FiModel FiSpec FiProofs2 FiProofs3 FiProofs4 EvModel EvSpec EvProofs.
Local Open Scope R_scope.

Section Eval.
Variables (q f : nat) (s : fem) (o : op) (XY0 XY1 XY2 XY3 : nat -> nat -> R) (xyl : list R) (w : work).
Let x := tet_of XY0 XY1 XY2 XY3.
Hypothesis Hf : (1 <= f)%nat.
Hypothesis Hq : (1 <= q)%nat.
Hypothesis Ho : has_op s o = true.
Hypothesis Hx : forall r, (r < f)%nat -> nondegenerate (x r).
Hypothesis LX : (4 * q <= length xyl)%nat.
Hypothesis HL : forall n, (n < q)%nat -> Rsum 4 (fun k => nth (4 * n + k) xyl 0) = 1.
Hypothesis HR : room_eval q f s o w.
Local Notation pt r n := (bary_point (x r) xyl n).
Local Notation tab := (fun r n k i => op_of o (fun _ _ k i => BasSpec.shape s (x r) i k (pt r n)) (fun _ _ c a i => dshape s (x r) i c a (pt r n)) 0 0 k i).
Local Notation dim := (odims s o).

Lemma prepare_ok : exists g xyg U EX, prepare q f s o XY0 XY1 XY2 XY3 xyl w = Some (g, xyg, U, EX) /\ length (g_mes g) = length (g_mes (w_geom w)) /\ length xyg = length (w_xyg w) /\
  (forall r n, (r < f)%nat -> (n < q)%nat -> xyz q xyg r n = vec_of (pt r n)) /\ band_of (one_part dim q (nfa s) U) dim (nfa s) q f tab.
Proof.
  destruct HR as (R1 & R2 & R3 & R4 & R5 & R6 & R7). unfold prepare.
  destruct (C28_element f XY0 XY1 XY2 XY3 (w_geom w) R1 R2 R3 R4) as (g & Eg & G1 & G2 & G3 & G4 & Hg). rewrite Eg. cbn [obind].
  set (L := fun n k => nth (4 * n + k) xyl 0).
  destruct (C37_geometry f q XY0 XY1 XY2 XY3 (w_geom w) xyl L R1 R2 R3 R4 Hx) as (g' & Eg' & Hp).
  { intros n Hn. split; [now apply HL|]. intros k Hk. unfold L. rewrite (Nat.add_comm k). apply rd_nth0. lia. }
  rewrite Eg in Eg'. injection Eg' as <-. fold x in Hp, Hg.
  destruct (C28_points q f XY0 x xyl (g_xyp g) (w_xyg w)) as (xyg & Ex & Lx & Hxg); [exact LX|lia|exact R5|reflexivity| | |].
  { intros r k i Hr Hk Hi. destruct (Hg r Hr) as (Q & _). now apply Q. }
  { intros n Hn. rewrite <- (HL n Hn). apply Rsum_ext. intros k _. now rewrite Nat.add_comm. }
  rewrite Ex. cbn [obind].
  destruct (C37_operators s o f q x L _ (w_u w) (w_ex w) (fun r n c a i => dshape s (x r) i c a (BasSpec.point x L r n)) Ho Hf Hq Hp R6 R7) as (U & E1 & EU & TU & _).
  { intros r i n c k Hr Hi Hn Hc Hk. apply shape_partial; auto. }
  rewrite EU. cbn [obind fst snd]. exists g, xyg, U, E1. split; [reflexivity|]. split; [exact G4|]. split; [exact Lx|]. split.
  - intros r n Hr Hn. assert (Q : forall i, (i < 3)%nat -> nth (3 * (n + r * q) + i) xyg 0 = pt r n i).
    { intros i Hi. replace (3 * (n + r * q) + i)%nat with (i + 3 * (n + q * r))%nat by lia. rewrite Hxg by assumption. unfold bary_point. apply Rsum_ext. intros k _. now rewrite Nat.add_comm. }
    unfold xyz, vec_of. pose proof (Q 0%nat ltac:(lia)) as Q0. rewrite Nat.add_0_r in Q0. now rewrite Q0, (Q 1%nat), (Q 2%nat) by lia.
  - apply one_band; [now apply odims_pos|]. exact TU.
Qed.

Lemma eval_op_ok : forall dofs opU, (nfa s * f <= length dofs)%nat -> (dim * q * f <= length opU)%nat ->
  exists op', eval_op q f s o XY0 XY1 XY2 XY3 xyl dofs w opU = Some op' /\ length op' = length opU /\
    (forall r n k, (r < f)%nat -> (n < q)%nat -> (k < dim)%nat -> exists v, op_value (fdim s) o (discrete s (x r) (fun i => nth (i + nfa s * r) dofs 0)) k (pt r n) v /\
      rd op' (k + dim * (n + q * r)) = Some ((if (r =? 0)%nat then 0 else nth (k + dim * (n + q * r)) opU 0) + v)) /\
    (forall c, (dim * q * f <= c)%nat -> rd op' c = rd opU c).
Proof.
  intros dofs opU LD LO. destruct prepare_ok as (g & xyg & U & EX & E & _ & _ & _ & HB). unfold eval_op. rewrite E. cbn [obind].
  destruct (apply_fused q f dim (nfa s) (one_part dim q (nfa s) U) _ dofs EX opU Hq Hf (odims_pos _ _ Ho) eq_refl HB LD LO) as (op' & E' & L' & H' & K'). rewrite E'. exists op'. split; [reflexivity|]. split; [exact L'|]. split; [|exact K'].
  intros r n k Hr Hn Hk. eexists. split; [|now apply H']. now apply op_value_ok, Hx.
Qed.

Lemma ones_ok : forall n l, (n <= length l)%nat -> exists l', ones n l = Some l' /\ length l' = length l /\ forall i, (i < n)%nat -> rd l' i = Some 1.
Proof.
  intros n l H. unfold ones. destruct (for_step_len (fun i c => c = i) (fun c x => x = 1) n (fun i l => wr l i 1) l) as (l' & E & L & A & _).
  { intros i m Hi Hm. apply step_wr; [lia|reflexivity]. }
  exists l'. split; [exact E|]. split; [exact L|]. intros i Hi. destruct (A i) as (v & Ev & ->); [now exists i|exact Ev].
Qed.
Lemma eval_tensor_ok : forall F constant sp d dofs A, (1 <= d)%nat -> proper F constant sp d dim 1 f -> room_tensor d q f s o w -> (nfa s * f <= length dofs)%nat -> (d * q * f <= length A)%nat ->
  exists A', eval_tensor F constant sp d q f s o XY0 XY1 XY2 XY3 xyl dofs w A = Some A' /\ length A' = length A /\
    (forall r n k, (r < f)%nat -> (n < q)%nat -> (k < d)%nat -> exists v, (forall j, (j < dim)%nat -> op_value (fdim s) o (discrete s (x r) (fun i => nth (i + nfa s * r) dofs 0)) j (pt r n) (v j)) /\
      rd A' (k + d * (n + q * r)) = Some (Rsum dim (fun j => tmat (F (vec_of (pt r n)) r) d dim k j * ((if (r =? 0)%nat then 0 else nth (j + dim * (n + q * r)) (w_v w) 0) + v j)))) /\
    (forall c, (d * q * f <= c)%nat -> rd A' c = rd A c).
Proof.
  intros F constant sp d dofs A Hd (P1 & P2 & P3) (T1 & T2 & T3 & T4) LD LA. unfold eval_tensor.
  destruct (ones_ok q (w_wg w) T4) as (wg & Ew & Lw & Hw). rewrite Ew. cbn [obind].
  destruct prepare_ok as (g & xyg & U & EX & E & Lm & Lxg & HP & HB). rewrite E. cbn [obind]. destruct HR as (_ & _ & _ & R4 & R5 & _).
  destruct (ones_ok f (g_mes g) ltac:(lia)) as (mes & Em & Lmm & Hm). rewrite Em. cbn [obind].
  destruct (apply_tensor_fused F constant sp q f dim (nfa s) d (one_part dim q (nfa s) U) _ dofs EX (w_v w) wg mes xyg (w_diff w) (w_du w) A Hq Hf (odims_pos _ _ Ho) Hd eq_refl HB LD T1 Hw Hm) as (A' & E' & L' & H' & K'); auto; try lia.
  - split; [intros Hc r n Hr _; now apply P2|]. destruct sp; intros; first [exact I | now apply P3 | now apply (proj1 P3)].
  - intros _ -> K r n Hr Hn. destruct P3 as (Q1 & Q2). symmetry. apply Q2; [exact Hr|]. rewrite (Q1 _ (xyz q xyg 0 0) r Hr). exact K.
  - exists A'. split; [exact E'|]. split; [exact L'|]. split; [|exact K']. intros r n k Hr Hn Hk. eexists. split; [|rewrite (H' r n k Hr Hn Hk), HP by assumption; reflexivity].
    intros j Hj. cbv beta. now apply op_value_ok, Hx.
Qed.
End Eval.

(** *** points given by their coordinates *)
Lemma bary_ok : forall v XY0 XY1 XY2 XY3 X w q, length XY0 = 3%nat -> length X = (3 * q)%nat -> let x := tet_of (coords XY0) (coords XY1) (coords XY2) (coords XY3) 0 in
  nondegenerate x -> (12 <= length (g_xyp (w_geom w)))%nat -> length (g_psi (w_geom w)) = 9%nat -> (1 <= length (g_det (w_geom w)))%nat -> (1 <= length (g_mes (w_geom w)))%nat -> (4 * q <= length (w_xyl w))%nat ->
  exists xyl, bary_of v XY0 XY1 XY2 XY3 X w = Some xyl /\ length xyl = (4 * q)%nat /\ (forall n, (n < q)%nat -> Rsum 4 (fun k => nth (4 * n + k) xyl 0) = 1) /\
    forall n i, (n < q)%nat -> (i < 3)%nat -> bary_point x xyl n i = cart_point X n i.
Proof.
  intros v XY0 XY1 XY2 XY3 X w q L0 LXc x Hx R1 R2 R3 R4 LX.
  assert (Q3 : (length X / 3 = q)%nat) by (rewrite LXc, Nat.mul_comm; apply Nat.div_mul; lia).
  assert (Qn : match v with Typed => 4 * length X / 3 | Dynamic => 4 * (length X / 3) end%nat = (4 * q)%nat).
  { destruct v; [|now rewrite Q3]. rewrite LXc. replace (4 * (3 * q))%nat with ((4 * q) * 3)%nat by lia. apply Nat.div_mul. lia. }
  unfold bary_of. rewrite Qn. destruct (C28_element 1 (coords XY0) (coords XY1) (coords XY2) (coords XY3) (w_geom w)) as (g & Eg & G1 & G2 & G3 & G4 & Hg); [lia|lia|lia|lia|]. rewrite Eg. cbn [obind].
  destruct (Hg 0%nat ltac:(lia)) as (_ & _ & _ & Hi). specialize (Hi Hx). rewrite Nat.mul_0_r in Hi. rewrite guard_true by (apply Nat.leb_le; exact LX).
  assert (Lf : length (firstn (4 * q) (w_xyl w)) = (4 * q)%nat) by (rewrite firstn_length; lia).
  destruct (C28_barycentric_psi x X (firstn (4 * q) (w_xyl w)) (g_psi g)) as (W & EW & LW & HW); [lia|exact Hi|rewrite Lf, Q3, Nat.mul_comm, Nat.div_mul by lia; lia|].
  assert (E0 : map (x 0%nat) [0; 1; 2]%nat = XY0). { unfold x, tet_of, coords. destruct XY0 as [|u [|v' [|z [|? ?]]]]; try discriminate. reflexivity. }
  rewrite E0 in EW. cbn [obind]. rewrite EW. exists W. split; [reflexivity|]. split; [lia|]. rewrite Q3 in HW. split.
  - intros n Hn. apply (HW n Hn).
  - intros n i Hn Hi'. destruct (HW n Hn) as (_ & Q). unfold bary_point, cart_point. rewrite (Nat.add_comm (3 * n) i). exact (Q i Hi').
Qed.
Lemma op_value_dofs : forall s o x dof dof' k y v, (forall i, (i < nfa s)%nat -> dof i = dof' i) -> op_value (fdim s) o (discrete s x dof) k y v -> op_value (fdim s) o (discrete s x dof') k y v.
Proof.
  intros s o x dof dof' k y v Hd (D & HD & ->). exists D.
  assert (Q : forall c z, discrete s x dof c z = discrete s x dof' c z) by (intros c z; unfold discrete; apply Rsum_ext; intros i Hi; now rewrite Hd).
  split.
  - intros c a Hc Ha e He. destruct (HD c a Hc Ha e He) as (dl & Hdl). exists dl. intros h Hh Hl. rewrite <- !Q. now apply Hdl.
  - destruct o; cbn [value_of]; try reflexivity. apply Q.
Qed.
