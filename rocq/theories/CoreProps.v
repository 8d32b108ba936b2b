(** C31, C32, C33: small products, elemental matrices, in-place contraction with the normal. *)
From Verif Require Import Prelude RSum DirProofs2 CoreModel CoreSpec CoreProofs CoreProofs2 CoreProofs3 CoreProofs4 CoreProofs5 CoreProofs6 CoreProofs7.
Local Open Scope R_scope.

(** ** C31 *)
(** fusive_AT_mul_B stores A_r^T B_r for every block, whatever the result memory held before,
    and writes nothing else. *)
Theorem C31_transposed : forall fuse nRow A ACol B BCol Rm,
  (nRow * ACol * fuse <= length A)%nat -> (nRow * BCol * fuse <= length B)%nat -> (ACol * BCol * fuse <= length Rm)%nat ->
  exists R', at_mul_b fuse nRow A 0 ACol B 0 BCol Rm 0 = Some R' /\ length R' = length Rm /\
    (forall r i j, (r < fuse)%nat -> (i < ACol)%nat -> (j < BCol)%nat -> nth (i + ACol * (j + BCol * r)) R' 0 =
       Rsum nRow (fun m => nth (m + nRow * (i + ACol * r)) A 0 * nth (m + nRow * (j + BCol * r)) B 0)) /\
    (forall c, (ACol * BCol * fuse <= c)%nat -> rd R' c = rd Rm c).
Proof.
  intros fuse nRow A ACol B BCol Rm HA HB HR.
  destruct (at_mul_b_ok fuse nRow A 0 ACol B 0 BCol Rm 0 (fun r m i => nth (m + nRow * (i + ACol * r)) A 0) (fun r m j => nth (m + nRow * (j + BCol * r)) B 0)) as (R' & E & L & H & K).
  - intros r i j Hr Hi Hj. apply rd_nth0. pose proof (cell_lt nRow (ACol * fuse) j (i + ACol * r) Hj (cell_lt ACol fuse i r Hi Hr)). lia.
  - intros r i j Hr Hi Hj. apply rd_nth0. pose proof (cell_lt nRow (BCol * fuse) j (i + BCol * r) Hj (cell_lt BCol fuse i r Hi Hr)). lia.
  - lia.
  - exists R'. split; [exact E|]. split; [exact L|]. split; [|intros c Hc; apply K; lia]. intros r i j Hr Hi Hj. specialize (H r j i Hr Hj Hi). cbn [Nat.add] in H. now apply nth_error_nth with (d := 0) in H.
Qed.
Print Assumptions C31_transposed.

(** fusive_A_mul_B: block 0 receives A_0 B_0; every later block receives A_r B_r added to what
    the memory held, so the stated property holds for one block or for zeroed memory. *)
Theorem C31_product_partial : forall fuse ACol A ARow B BCol Rm, (0 < fuse)%nat ->
  (ARow * ACol * fuse <= length A)%nat -> (ACol * BCol * fuse <= length B)%nat -> (ARow * BCol * fuse <= length Rm)%nat ->
  (fuse = 1%nat \/ forall c, (ARow * BCol <= c < ARow * BCol * fuse)%nat -> nth c Rm 0 = 0) ->
  exists R', a_mul_b fuse ACol A 0 ARow B 0 BCol Rm 0 = Some R' /\ length R' = length Rm /\
    (forall r i j, (r < fuse)%nat -> (i < ARow)%nat -> (j < BCol)%nat -> nth (i + ARow * (j + BCol * r)) R' 0 =
       Rsum ACol (fun m => nth (i + ARow * (m + ACol * r)) A 0 * nth (m + ACol * (j + BCol * r)) B 0)) /\
    (forall c, (ARow * BCol * fuse <= c)%nat -> rd R' c = rd Rm c).
Proof.
  intros fuse ACol A ARow B BCol Rm Hf HA HB HR H0. assert (Em : Nat.max 1 fuse = fuse) by lia.
  destruct (a_mul_b_ok fuse ACol A 0 ARow B 0 BCol Rm 0 (fun r i m => nth (i + ARow * (m + ACol * r)) A 0) (fun r m j => nth (m + ACol * (j + BCol * r)) B 0) (fun r i j => nth (i + ARow * (j + BCol * r)) Rm 0)) as (R' & E & L & H & K).
  - intros r i j Hr Hi Hj. apply rd_nth0. pose proof (cell_lt ARow (ACol * fuse) i (j + ACol * r) Hi (cell_lt ACol fuse j r Hj Hr)). lia.
  - intros r i j Hr Hi Hj. apply rd_nth0. pose proof (cell_lt ACol (BCol * fuse) j (i + BCol * r) Hj (cell_lt BCol fuse i r Hi Hr)). lia.
  - rewrite Em. lia.
  - intros r i j Hr Hi Hj. apply rd_nth0. pose proof (cell_lt ARow (BCol * fuse) i (j + BCol * r) Hi (cell_lt BCol fuse j r Hj Hr)). lia.
  - exists R'. split; [exact E|]. split; [exact L|]. split; [|intros c Hc; apply K; rewrite Em; lia]. intros r i j Hr Hi Hj. specialize (H r i j Hr Hi Hj). cbn [Nat.add] in H. apply nth_error_nth with (d := 0) in H. rewrite H.
    destruct (Nat.eqb_spec r 0) as [->|Hr0]; [lra|]. destruct H0 as [|H0]; [lia|]. rewrite H0; [lra|].
    pose proof (cell_lt ARow (BCol * fuse) i (j + BCol * r) Hi (cell_lt BCol fuse j r Hj Hr)). nia.
Qed.
Print Assumptions C31_product_partial.
Theorem C31_product_refuted : exists fuse ACol A ARow B BCol Rm R', (0 < fuse)%nat /\
  (ARow * ACol * fuse <= length A)%nat /\ (ACol * BCol * fuse <= length B)%nat /\ (ARow * BCol * fuse <= length Rm)%nat /\
  a_mul_b fuse ACol A 0 ARow B 0 BCol Rm 0 = Some R' /\
  exists r i j, (r < fuse)%nat /\ (i < ARow)%nat /\ (j < BCol)%nat /\ nth (i + ARow * (j + BCol * r)) R' 0 <>
     Rsum ACol (fun m => nth (i + ARow * (m + ACol * r)) A 0 * nth (m + ACol * (j + BCol * r)) B 0).
Proof.
  exists 2%nat, 1%nat, [1; 1], 1%nat, [1; 1], 1%nat, [5; 5]. eexists. repeat (split; [cbn; lia|]). split; [cbn -[Rplus Rmult IZR]; reflexivity|].
  exists 1%nat, 0%nat, 0%nat. repeat (split; [lia|]). cbn -[Rplus Rmult IZR]. lra.
Qed.
Print Assumptions C31_product_refuted.
Example C31_ex : exists R', at_mul_b 2 2 [1; 2; 3; 4; 5; 6; 7; 8] 0 2 [1; 1; 2; 2] 0 1 (repeat 9 5) 0 = Some R' /\ nth 1 R' 0 = 7 /\ nth 2 R' 0 = 22 /\ nth 4 R' 0 = 9.
Proof.
  destruct (C31_transposed 2 2 [1; 2; 3; 4; 5; 6; 7; 8] 2 [1; 1; 2; 2] 1 (repeat 9 5)) as (R' & E & L & H & K); cbn [length repeat]; try lia. exists R'. split; [exact E|].
  split; [|split].
  - change 1%nat with (1 + 2 * (0 + 1 * 0))%nat. rewrite H by lia. cbn -[Rplus Rmult IZR]. lra.
  - change 2%nat with (0 + 2 * (0 + 1 * 1))%nat at 1. rewrite H by lia. cbn -[Rplus Rmult IZR]. lra.
  - apply nth_error_nth. exact (K 4%nat ltac:(lia)).
Qed.

(** ** C32 *)
(** The elemental matrix is the quadrature sum, for every partition of the operator matrices,
    every trait combination and every tensor the traits allow, with and without the normal, for
    any contents of the work memory.  In PerSelection mode a full tensor must not depend on the
    element index (see C32_selection_refuted); this is [sel_index]. *)
Theorem C32_form_partial : forall F constant sp (normal : bool) q f dimA dimB nfA nfB U V u v w mes XYG NRM DIFF EX DU A,
  let nD := (if normal then 3 else 1)%nat in
  (0 < q)%nat -> (0 < f)%nat -> (0 < dimA)%nat -> (0 < dimB)%nat ->
  band_of U dimA nfA q f u -> band_of V dimB nfB q f v ->
  promise F constant sp q f (xyz q XYG) ->
  (constant = false -> sp = PerSelection -> kind (F (xyz q XYG 0 0) 0%nat) = KFull -> forall r n, (r < f)%nat -> (n < q)%nat -> F (xyz q XYG r n) 0%nat = F (xyz q XYG r n) r) ->
  (forall r n, (r < f)%nat -> (n < q)%nat -> tensor_ok (dimB * nD) dimA nfA (F (xyz q XYG r n) r)) ->
  (q <= length w)%nat -> (f <= length mes)%nat -> (3 * (q * f) <= length XYG)%nat -> (3 * f <= length NRM)%nat ->
  (dimB * Nat.max (dimA * nD) nfA * q * f <= length DIFF)%nat -> (nfA * nfB * f <= length EX)%nat -> (dimB * nD * q * nfA * f <= length DU)%nat -> (nfB * nfA * f <= length A)%nat ->
  exists A', fem3Dtet F constant sp normal q f dimA dimB nfA nfB U V w mes XYG NRM DIFF EX DU A = Some A' /\ length A' = length A /\
    (forall r ia ib, (r < f)%nat -> (ia < nfA)%nat -> (ib < nfB)%nat -> rd A' (ib + nfB * (ia + nfA * r)) =
      Some (form q dimA dimB (fun n => nth n w 0) (nth r mes 0) (fun n => tmat (F (xyz q XYG r n) r) (dimB * nD) dimA) (fun c => nth (3 * r + c) NRM 0) normal (fun n j => u r n j ia) (fun n k => v r n k ib))) /\
    (forall c, (nfB * nfA * f <= c)%nat -> rd A' c = rd A c).
Proof.
  intros F constant sp normal q f dimA dimB nfA nfB U V u v w mes XYG NRM DIFF EX DU A nD Hq Hf HdA HdB HU HV HP Hsel HT Lw Lm LX LN LD LE LU LA.
  apply fem3Dtet_ok; auto; fold nD.
  - apply Nat.le_trans with (2 := LD). pose proof (Nat.mul_le_mono_l _ _ dimB (Nat.le_max_l (dimA * nD) nfA)) as H. pose proof (Nat.mul_le_mono_r _ _ (q * f) H). lia.
  - apply Nat.le_trans with (2 := LD). pose proof (Nat.mul_le_mono_l _ _ dimB (Nat.le_max_r (dimA * nD) nfA)) as H. pose proof (Nat.mul_le_mono_r _ _ (q * f) H). lia.
Qed.
Print Assumptions C32_form_partial.

(** fusive functions: all the tensors are given at once *)
Theorem C32_form_fusive : forall k sym FV (constant normal : bool) q f dimA dimB nfA nfB U V u v w mes NRM DIFF lmem EX DU A (T : nat -> nat -> tensor),
  let nD := (if normal then 3 else 1)%nat in
  (0 < q)%nat -> (0 < f)%nat -> (0 < dimA)%nat -> (0 < dimB)%nat ->
  band_of U dimA nfA q f u -> band_of V dimB nfB q f v ->
  (forall r n, (r < f)%nat -> (n < q)%nat -> tensor_ok (dimB * nD) dimA nfA (T r n) /\ fus_vals k sym (T r n) (FV r n)) ->
  (constant = true -> forall r n, (r < f)%nat -> (n < q)%nat -> T r n = T 0%nat 0%nat) ->
  (q <= length w)%nat -> (f <= length mes)%nat -> (3 * f <= length NRM)%nat -> (dimB * nD * dimA <= length lmem)%nat ->
  (dimB * Nat.max (dimA * nD) nfA * q * f <= length DIFF)%nat -> (nfA * nfB * f <= length EX)%nat -> (dimB * nD * q * nfA * f <= length DU)%nat -> (nfB * nfA * f <= length A)%nat ->
  exists A', fem3Dtet_fusive k sym FV constant normal q f dimA dimB nfA nfB U V w mes NRM DIFF lmem EX DU A = Some A' /\ length A' = length A /\
    (forall r ia ib, (r < f)%nat -> (ia < nfA)%nat -> (ib < nfB)%nat -> rd A' (ib + nfB * (ia + nfA * r)) =
      Some (form q dimA dimB (fun n => nth n w 0) (nth r mes 0) (fun n => tmat (T r n) (dimB * nD) dimA) (fun c => nth (3 * r + c) NRM 0) normal (fun n j => u r n j ia) (fun n k => v r n k ib))) /\
    (forall c, (nfB * nfA * f <= c)%nat -> rd A' c = rd A c).
Proof.
  intros k sym FV constant normal q f dimA dimB nfA nfB U V u v w mes NRM DIFF lmem EX DU A T nD Hq Hf HdA HdB HU HV HT HC Lw Lm LN LM LD LE LU LA.
  apply fem3Dtet_fusive_ok; auto; fold nD.
  - apply Nat.le_trans with (2 := LD). pose proof (Nat.mul_le_mono_l _ _ dimB (Nat.le_max_l (dimA * nD) nfA)) as H. pose proof (Nat.mul_le_mono_r _ _ (q * f) H). lia.
  - apply Nat.le_trans with (2 := LD). pose proof (Nat.mul_le_mono_l _ _ dimB (Nat.le_max_r (dimA * nD) nfA)) as H. pose proof (Nat.mul_le_mono_r _ _ (q * f) H). lia.
Qed.
Print Assumptions C32_form_fusive.

(** Evaluation of an expression from its degrees of freedom, one element. *)
Theorem C32_apply_partial : forall q dim nf U u dofs EX opU, (0 < q)%nat -> band_of U dim nf q 1 u -> (nf <= length dofs)%nat -> (dim * q <= length opU)%nat ->
  (nparts U = 1%nat \/ q = 1%nat \/ (dim * q <= length EX)%nat) ->
  exists op', fem3Dapply q 1 dim nf U dofs EX opU = Some op' /\ length op' = length opU /\
    (forall n k, (n < q)%nat -> (k < dim)%nat -> rd op' (k + dim * n) = Some (Rsum nf (fun i => u 0%nat n k i * nth i dofs 0))) /\
    (forall c, (dim * q <= c)%nat -> rd op' c = rd opU c).
Proof. intros q dim nf U u dofs EX opU Hq HU HD HL HE. exact (fem3Dapply_ok q dim nf U u dofs HU HD EX opU Hq HL HE). Qed.
Print Assumptions C32_apply_partial.

(** vectors of piecewise constants: m identical 1x1 parts, no extra memory asked for *)
Definition vec_p0 (m q f : nat) : band := {| parts := repeat (repeat 1 (q * f), q) m; st_row := seq 0 (S m); st_col := seq 0 (S m) |}.
Lemma nth_error_repeat' : forall {A} (x : A) n i, (i < n)%nat -> nth_error (repeat x n) i = Some x.
Proof. intros A x n. induction n as [|n IH]; intros [|i] H; cbn; [lia|lia|reflexivity|apply IH; lia]. Qed.
Lemma vec_p0_ok : forall m q f, (1 <= m)%nat -> band_of (vec_p0 m q f) m m q f (fun _ _ k i => if (k =? i)%nat then 1 else 0).
Proof.
  intros m q f Hm. assert (Hs : forall d, (d <= m)%nat -> nth d (seq 0 (S m)) 0%nat = d) by (intros d Hd; rewrite seq_nth by lia; lia).
  unfold band_of, vec_p0, nparts. cbn [parts st_row st_col]. rewrite repeat_length, seq_length.
  split; [exact Hm|]. split; [reflexivity|]. split; [reflexivity|]. rewrite !(Hs 0%nat) by lia. rewrite !(Hs m) by lia. do 4 (split; [reflexivity|]).
  split; [intros d Hd; rewrite !Hs by lia; lia|]. split.
  - intros d Hd. rewrite !Hs by lia. exists (repeat 1 (q * f)). replace (S d - d)%nat with 1%nat by lia. rewrite Nat.mul_1_r. split; [now apply nth_error_repeat'|].
    intros r n k i Hr Hn Hk Hi. replace k with d by lia. replace i with d by lia. rewrite Nat.eqb_refl. apply nth_error_repeat'. replace (d - d + n * 1 + q * (d - d + 1 * r))%nat with (n + q * r)%nat by lia. now apply cell_lt.
  - intros d d' r n k i Hd Hd' Hne Hr Hn. rewrite !Hs by lia. intros Hk Hi. destruct (Nat.eqb_spec k i); [lia|reflexivity].
Qed.

(** With the memory the library reserves (the operator of a vector of P0 asks for none), an
    evaluation at two points goes out of range. *)
Theorem C32_apply_memory_refuted : exists q dim nf U u dofs EX opU, (0 < q)%nat /\ band_of U dim nf q 1 u /\ (nf <= length dofs)%nat /\ (dim * q <= length opU)%nat /\
  length EX = apply_extraR 0 nf 1 /\ fem3Dapply q 1 dim nf U dofs EX opU = None.
Proof.
  exists 2%nat, 3%nat, 3%nat, (vec_p0 3 2 1). eexists. exists [1; 1; 1], (repeat 0 3), (repeat 0 6).
  split; [lia|]. split; [apply vec_p0_ok; lia|]. split; [cbn; lia|]. split; [cbn; lia|]. split; [reflexivity|]. reflexivity.
Qed.
Print Assumptions C32_apply_memory_refuted.
(** With two fused elements a vector expression is evaluated wrongly although all memory is
    sufficient and zeroed. *)
Theorem C32_apply_fused_refuted : exists q f dim nf U u dofs EX opU op', (0 < q)%nat /\ band_of U dim nf q f u /\ length dofs = (nf * f)%nat /\ length opU = (dim * q * f)%nat /\ (dim * q * f <= length EX)%nat /\
  fem3Dapply q f dim nf U dofs EX opU = Some op' /\
  exists r n k, (r < f)%nat /\ (n < q)%nat /\ (k < dim)%nat /\ nth (k + dim * (n + q * r)) op' 0 <> Rsum nf (fun i => u r n k i * nth (i + nf * r) dofs 0).
Proof.
  exists 1%nat, 2%nat, 3%nat, 3%nat, (vec_p0 3 1 2). eexists. exists (repeat 1 6), (repeat 0 6), (repeat 0 6). eexists.
  split; [lia|]. split; [apply vec_p0_ok; lia|]. split; [reflexivity|]. split; [reflexivity|]. split; [cbn; lia|]. split; [cbn -[IZR Rplus Rmult]; reflexivity|].
  exists 0%nat, 0%nat, 0%nat. do 3 (split; [lia|]). cbn -[IZR Rplus Rmult]. lra.
Qed.
Print Assumptions C32_apply_fused_refuted.
(** A PerSelection tensor that depends on the element index is evaluated with index 0 everywhere. *)
Theorem C32_selection_refuted : exists F q f dimA dimB nfA nfB U V u v w mes XYG NRM DIFF EX DU A A',
  (0 < q)%nat /\ (0 < f)%nat /\ (0 < dimA)%nat /\ (0 < dimB)%nat /\
  band_of U dimA nfA q f u /\ band_of V dimB nfB q f v /\ promise F false PerSelection q f (xyz q XYG) /\
  (forall r n, (r < f)%nat -> (n < q)%nat -> tensor_ok (dimB * 1) dimA nfA (F (xyz q XYG r n) r)) /\
  fem3Dtet F false PerSelection false q f dimA dimB nfA nfB U V w mes XYG NRM DIFF EX DU A = Some A' /\
  exists r, (r < f)%nat /\ nth (nfB * (nfA * r)) A' 0 <>
    form q dimA dimB (fun n => nth n w 0) (nth r mes 0) (fun n => tmat (F (xyz q XYG r n) r) (dimB * 1) dimA) (fun c => nth (3 * r + c) NRM 0) false (fun n j => u r n j 0%nat) (fun n k => v r n k 0%nat).
Proof.
  exists (fun _ it => TGen [INR it]), 1%nat, 2%nat, 1%nat, 1%nat, 1%nat, 1%nat, (vec_p0 1 1 2), (vec_p0 1 1 2). do 2 eexists. exists [1], [1; 1], (repeat 0 6), (repeat 0 6), (repeat 0 2), (repeat 0 2), (repeat 0 2), (repeat 0 2). eexists.
  do 4 (split; [lia|]). split; [apply vec_p0_ok; lia|]. split; [apply vec_p0_ok; lia|]. split; [split; [discriminate|reflexivity]|]. split; [reflexivity|].
  split; [cbn -[IZR Rplus Rmult INR]; reflexivity|]. exists 1%nat. split; [lia|]. unfold form, flux. cbn -[IZR Rplus Rmult]. lra.
Qed.
Print Assumptions C32_selection_refuted.

(** Two-component piecewise constants on three elements, a full tensor that changes from element
    to element, PerPoint traits. *)
Example C32_ex : exists A', fem3Dtet (fun _ it => if (it =? 0)%nat then TNull else TGen [1; 2; INR it; 4]) false PerPoint false 1 3 2 2 2 2 (vec_p0 2 1 3) (vec_p0 2 1 3)
     [1] [1; 1; 5] (repeat 0 9) (repeat 0 9) (repeat 7 12) (repeat 7 12) (repeat 7 12) (repeat 7 12) = Some A' /\ nth 10 A' 0 = 10 /\ nth 9 A' 0 = 10 /\ nth 0 A' 0 = 1.
Proof.
  destruct (C32_form_partial (fun _ it => if (it =? 0)%nat then TNull else TGen [1; 2; INR it; 4]) false PerPoint false 1 3 2 2 2 2 (vec_p0 2 1 3) (vec_p0 2 1 3)
     (fun _ _ k i => if (k =? i)%nat then 1 else 0) (fun _ _ k i => if (k =? i)%nat then 1 else 0)
     [1] [1; 1; 5] (repeat 0 9) (repeat 0 9) (repeat 7 12) (repeat 7 12) (repeat 7 12) (repeat 7 12)) as (A' & E & L & H & _); try (apply vec_p0_ok; lia); try (cbn; lia); try discriminate.
  - split; [discriminate|exact I].
  - intros r n Hr Hn. cbn -[Nat.eqb]. destruct (r =? 0)%nat; cbn; auto.
  - exists A'. split; [exact E|]. split; [|split].
    + specialize (H 2%nat 1%nat 0%nat ltac:(lia) ltac:(lia) ltac:(lia)). apply nth_error_nth with (d := 0) in H. rewrite <- (f_equal (fun z => nth z A' 0) (eq_refl : (0 + 2 * (1 + 2 * 2) = 10)%nat)). rewrite H.
      unfold form, flux. cbn -[IZR Rplus Rmult INR]. cbn [INR]. lra.
    + specialize (H 2%nat 0%nat 1%nat ltac:(lia) ltac:(lia) ltac:(lia)). apply nth_error_nth with (d := 0) in H. rewrite <- (f_equal (fun z => nth z A' 0) (eq_refl : (1 + 2 * (0 + 2 * 2) = 9)%nat)). rewrite H.
      unfold form, flux. cbn -[IZR Rplus Rmult INR]. lra.
    + specialize (H 0%nat 0%nat 0%nat ltac:(lia) ltac:(lia) ltac:(lia)). apply nth_error_nth with (d := 0) in H. rewrite <- (f_equal (fun z => nth z A' 0) (eq_refl : (0 + 2 * (0 + 2 * 0) = 0)%nat)). rewrite H.
      unfold form, flux. cbn -[IZR Rplus Rmult INR]. lra.
Qed.

(** ** C33 *)
(** The contraction with the normal, done in place, equals the contraction of a copy. *)
Theorem C33_normal : forall q f nf jd NRM DU, (3 * (jd * q * nf * f) <= length DU)%nat -> (3 * f <= length NRM)%nat ->
  exists DU', process_normal q f nf jd NRM DU = Some DU' /\ length DU' = length DU /\
    forall k n i r, (k < jd)%nat -> (n < q)%nat -> (i < nf)%nat -> (r < f)%nat ->
      nth (k + jd * (n + q * (i + nf * r))) DU' 0 = Rsum 3 (fun c => nth (3 * r + c) NRM 0 * nth (c + 3 * (k + jd * (n + q * (i + nf * r)))) DU 0).
Proof.
  intros q f nf jd NRM DU HL HN.
  destruct (process_normal_ok q f nf jd NRM DU (fun k n i r => nth (idx4 (jd * 3) q nf k n i r) DU 0) (fun r c => nth (3 * r + c) NRM 0)) as (D' & E & L & H); auto.
  - intros k n i r Hk Hn Hi Hr. apply rd_nth0. pose proof (idx4_lt (jd * 3) q nf f k n i r Hk Hn Hi Hr). lia.
  - intros r c Hr Hc. apply rd_nth0. lia.
  - exists D'. split; [exact E|]. split; [exact L|]. intros k n i r Hk Hn Hi Hr. specialize (H k n i r Hk Hn Hi Hr). unfold idx4 in H. apply nth_error_nth with (d := 0) in H. rewrite H. apply Rsum_ext. intros c Hc. do 2 f_equal. lia.
Qed.
Print Assumptions C33_normal.
Example C33_normal_ex : exists DU', process_normal 1 1 2 1 [1; 10; 100] [1; 2; 3; 4; 5; 6] = Some DU' /\ nth 0 DU' 0 = 321 /\ nth 1 DU' 0 = 654.
Proof.
  destruct (C33_normal 1 1 2 1 [1; 10; 100] [1; 2; 3; 4; 5; 6]) as (DU' & E & L & H); cbn [length]; try lia. exists DU'. split; [exact E|]. split.
  - pose proof (H 0%nat 0%nat 0%nat 0%nat) as H1. cbn -[IZR Rplus Rmult] in H1. rewrite H1 by lia. lra.
  - pose proof (H 0%nat 0%nat 1%nat 0%nat) as H1. cbn -[IZR Rplus Rmult] in H1. rewrite H1 by lia. lra.
Qed.
