(** C43 quadrature formulas *)
From Coq Require Import ZArith Reals List Bool Lia Lra Permutation.
From Coquelicot Require Import Coquelicot.
From Verif Require Import Prelude RSum GeoSpec BasModel BasSpec BasProps2 QuadModel QuadTables QuadRules QuadSpec QuadProofs QuadCheck QuadProofs2 QuadProofs3 QuadPoly QuadProofs4.
Import ListNotations.
Open Scope R_scope.

(** Every shape and order: the formula read point by point gives the mean value of every polynomial of that
    degree in barycentric coordinates, up to 1e-18 of the sum of the absolute values of its coefficients *)
Theorem C43_exact : forall s order, (0 <= order <= max_order s)%Z -> exists f F, quadrature s order = Some f /\ all_points (dim s) f = Some F /\
  forall P, bdegree (dim s) (Z.to_nat order) P -> near (/ 10 ^ 18 * bnorm P) (qsum F (beval P)) (mean s (beval P)).
Proof. intros s order H. destruct (quadrature_sound s order H) as (f & F & E & S). exists f, F. split; [exact E|]. split; [apply S|]. intros P HP. eapply sound_poly; eassumption. Qed.
Print Assumptions C43_exact.

(** The same for polynomials in Cartesian coordinates on every segment, triangle and tetrahedron with vertices X *)
Theorem C43_cartesian : forall s order, (0 <= order <= max_order s)%Z -> exists f F, quadrature s order = Some f /\ all_points (dim s) f = Some F /\
  forall (X : nat -> nat -> R) (c : nat -> nat -> nat -> R), let g := fun l => cartesian (Z.to_nat order) c (at_bary X l) in
    near (/ 10 ^ 18 * cartesian_size (S (dim s)) (Z.to_nat order) c X) (qsum F g) (mean s g).
Proof.
  intros s order H. destruct (quadrature_sound s order H) as (f & F & E & S). exists f, F. split; [exact E|]. split; [apply S|]. intros X c g.
  destruct (cartesian_poly (dim s) (Z.to_nat order) c X) as (P & D & N & V). rewrite <- N.
  rewrite <- (mean_ext s (beval P) g (fun l Hl _ => V l Hl)). rewrite <- (qsum_ext F (beval P) g); [eapply sound_poly; eassumption|].
  intros p w Hi. apply V. destruct S as (_ & HS & _). apply (HS p w Hi).
Qed.
Print Assumptions C43_cartesian.

(** All points are inside, all weights are positive *)
Theorem C43_interior : forall s order f F, (0 <= order <= max_order s)%Z -> quadrature s order = Some f -> all_points (dim s) f = Some F ->
  forall p w, In (p, w) F -> length p = S (dim s) /\ Rsum (S (dim s)) (fun k => nth k p 0) = 1 /\ (forall x, In x p -> 0 < x < 1) /\ 0 < w.
Proof.
  intros s order f F H E1 E2 p w Hi. destruct (quadrature_sound s order H) as (f' & F' & E & S). rewrite E1 in E. apply Some_inj' in E. subst f'.
  destruct S as (A & B & C & _). rewrite E2 in A. apply Some_inj' in A. subst F'. destruct (B p w Hi), (C p w Hi). auto.
Qed.
Print Assumptions C43_interior.

(** An order that is not provided is refused *)
Theorem C43_range : forall s order, quadrature s order <> None <-> (0 <= order <= max_order s)%Z.
Proof.
  intros s order. split.
  - intros H. destruct (Z_le_dec 0 order) as [A|A]; [destruct (Z_le_dec order (max_order s)) as [B|B]; [lia|]|]; exfalso; apply H;
    (assert (G : ((order >? max_order s) || (order <? 0))%Z = true) by (apply orb_true_iff; first [left; rewrite Z.gtb_ltb; apply Z.ltb_lt; lia|right; apply Z.ltb_lt; lia]));
    destruct s; cbn [quadrature max_order] in *; unfold segment_quadrature_formulas, triangle_quadrature_formulas, tetrahedron_quadrature_formulas; now rewrite G.
  - intros H. destruct (quadrature_sound s order H) as (f & F & E & _). congruence.
Qed.
Print Assumptions C43_range.

(** The points come in orbits, of the sizes that the symmetry partition lists, the points of an orbit have one weight,
    and the orbits are within 1e-30 of orbits mapped to themselves by every permutation of the vertices *)
Theorem C43_symmetric : forall s order f F, (0 <= order <= max_order s)%Z -> quadrature s order = Some f -> all_points (dim s) f = Some F ->
  length F = q_num f /\ exists orbs : list (list (list R) * R),
    Forall2 (fun a b => Forall2 (fun x y => Rabs (x - y) <= / 10 ^ 30) (fst a) (fst b) /\ snd a = snd b) F (flat_map (fun ow => map (fun p => (p, snd ow)) (fst ow)) orbs) /\
    (forall ow, In ow orbs -> closed_orbit (dim s) (fst ow)) /\ map (fun ow => length (fst ow)) orbs = sizes_of s (q_sym f).
Proof.
  intros s order f F H E1 E2. split.
  - unfold all_points in E2. assert (G : forall l F0, omap_list (get_point_weight (dim s) f) l = Some F0 -> length F0 = length l).
    { induction l as [|i l IH]; intros F0 E0; [cbn in E0; apply Some_inj' in E0; now subst F0|]. cbn [omap_list] in E0.
      destruct (get_point_weight (dim s) f i); [|discriminate]. cbn [obind] in E0. destruct (omap_list (get_point_weight (dim s) f) l) eqn:El; [|discriminate].
      cbn [obind] in E0. apply Some_inj' in E0. subst F0. cbn. f_equal. now apply IH. }
    rewrite (G _ _ E2). apply seq_length.
  - destruct (quadrature_sound s order H) as (f' & F' & E & S). rewrite E1 in E. apply Some_inj' in E. subst f'.
    destruct S as (A & _ & _ & _ & _ & orbs & C & D & Z). rewrite E2 in A. apply Some_inj' in A. subst F'. exists orbs. split; [|auto].
    assert (B : 24 / U <= / 10 ^ 30).
    { pose proof U_pos as HU. apply (Rmult_le_reg_r U); trivial. apply (Rmult_le_reg_l (10 ^ 30)); [apply pow_lt; lra|].
      replace (10 ^ 30 * (/ 10 ^ 30 * U)) with U by (field; apply pow_nonzero; lra). replace (10 ^ 30 * (24 / U * U)) with (10 ^ 30 * 24) by (field; lra).
      unfold U. replace (10 ^ 30) with (IZR (10 ^ 30)) by (rewrite (pow_IZR 10 30); reflexivity). rewrite <- mult_IZR. apply IZR_le. vm_compute. discriminate. }
    clear -B C. induction C as [|a b F G [H1 H2] _ IH]; constructor; trivial. split; [|exact H2]. clear -B H1. induction H1; constructor; trivial. lra.
Qed.
Print Assumptions C43_symmetric.

(** Rounded tables: a formula whose numbers are within d of these (d = 2^-53 for doubles) has an error of at most 1e-18 + 600 d *)
Theorem C43_rounding : forall s order f F G d P, (0 <= order <= max_order s)%Z -> quadrature s order = Some f -> all_points (dim s) f = Some F ->
  0 <= d -> close d F G -> (forall p v, In (p, v) G -> forall x, In x p -> -1 <= x <= 1) -> bdegree (dim s) (Z.to_nat order) P ->
  near ((/ 10 ^ 18 + 600 * d) * bnorm P) (qsum G (beval P)) (mean s (beval P)).
Proof.
  intros s order f F G d P H E1 E2 Hd HC HG HP. destruct (quadrature_sound s order H) as (f' & F' & E & S). rewrite E1 in E. apply Some_inj' in E. subst f'.
  assert (A : all_points (dim s) f = Some F') by apply S. rewrite E2 in A. apply Some_inj' in A. subst F'.
  eapply sound_rounded; try eassumption. destruct s; cbn [max_order] in H; lia.
Qed.
Print Assumptions C43_rounding.

(** The formulas meet the conditions of the theorems about degrees of freedom (C35, C38, C41): from order 1 on they are exact for affine functions *)
Theorem C43_affine : forall o1 o2 o3, (1 <= o1 <= 21)%Z -> (1 <= o2 <= 20)%Z -> (1 <= o3 <= 20)%Z ->
  exists f1 f2 f3 F1 F2 F3, segment_quadrature_formulas o1 = Some f1 /\ triangle_quadrature_formulas o2 = Some f2 /\ tetrahedron_quadrature_formulas o3 = Some f3 /\
    all_points 1 f1 = Some F1 /\ all_points 2 f2 = Some F2 /\ all_points 3 f3 = Some F3 /\ quads_ok (/ 10 ^ 18) (Quads F1 F2 F3).
Proof.
  intros o1 o2 o3 H1 H2 H3. destruct (quadrature_sound Segment o1 ltac:(cbn; lia)) as (f1 & F1 & E1 & S1). destruct (quadrature_sound Triangle o2 ltac:(cbn; lia)) as (f2 & F2 & E2 & S2).
  destruct (quadrature_sound Tetrahedron o3 ltac:(cbn; lia)) as (f3 & F3 & E3 & S3). exists f1, f2, f3, F1, F2, F3. split; [exact E1|]. split; [exact E2|]. split; [exact E3|].
  split; [apply S1|]. split; [apply S2|]. split; [apply S3|]. split; [|split]; cbn [q_seg q_tri q_tet].
  - apply (sound_affine Segment (Z.to_nat o1) f1 F1); [|exact S1]. lia.
  - apply (sound_affine Triangle (Z.to_nat o2) f2 F2); [|exact S2]. lia.
  - apply (sound_affine Tetrahedron (Z.to_nat o3) f3 F3); [|exact S3]. lia.
Qed.
Print Assumptions C43_affine.
(** so with the formulas of the library the basis functions are dual to the degrees of freedom up to 4e-18 *)
Theorem C35_dual_library : forall o1 o2 o3, (1 <= o1 <= 21)%Z -> (1 <= o2 <= 20)%Z -> (1 <= o3 <= 20)%Z ->
  exists f1 f2 f3 F1 F2 F3, segment_quadrature_formulas o1 = Some f1 /\ triangle_quadrature_formulas o2 = Some f2 /\ tetrahedron_quadrature_formulas o3 = Some f3 /\
    all_points 1 f1 = Some F1 /\ all_points 2 f2 = Some F2 /\ all_points 3 f3 = Some F3 /\
    forall x s i j fusion ud, nondegenerate x -> (i < nfa s)%nat -> (j < nfa s)%nat -> has_dof fusion i ud ->
      exists ud' v, interpolate s (Quads F1 F2 F3) (fun k => vec_of (x k)) (vector_fun (fdim s) (BasSpec.shape s x j)) fusion i ud = Some ud' /\ entered fusion i (fun _ => v) ud ud' /\
        near (4 * / 10 ^ 18) v (if (i =? j)%nat then 1 else 0).
Proof.
  intros o1 o2 o3 H1 H2 H3. destruct (C43_affine o1 o2 o3 H1 H2 H3) as (f1 & f2 & f3 & F1 & F2 & F3 & E1 & E2 & E3 & A1 & A2 & A3 & Q).
  exists f1, f2, f3, F1, F2, F3. split; [exact E1|]. split; [exact E2|]. split; [exact E3|]. split; [exact A1|]. split; [exact A2|]. split; [exact A3|].
  intros x s i j fusion ud Hx Hi Hj Hd. now apply C35_dual.
Qed.
Print Assumptions C35_dual_library.

(** *** Examples *)
(** the mean of the product of two barycentric coordinates over a tetrahedron is 1/20 *)
Definition ex_product : bpoly := [(1, [1; 1; 0; 0]%nat)].
Example C43_ex_product : mean Tetrahedron (beval ex_product) = / 20 /\ bnorm ex_product = 1 /\ bdegree 3 2 ex_product.
Proof.
  assert (D : bdegree 3 2 ex_product) by (intros c es [E|[]]; apply (f_equal snd) in E; cbn [snd] in E; subst es; split; [reflexivity|vm_compute; lia]).
  split; [|split; [cbn; rewrite Rabs_R1; ring|exact D]]. rewrite mean_closed by (intros c es Hi; apply (D c es Hi)).
  unfold bsum, ex_product. cbn [fold_right fst snd dim]. unfold exact, facts. replace (list_sum [1; 1; 0; 0]%nat) with 2%nat by reflexivity.
  cbn [fold_right]. change (fact 3) with 6%nat. change (fact 1) with 1%nat. change (fact 0) with 1%nat. change (fact (2 + 3)) with 120%nat.
  rewrite !INR_IZR_INZ. cbn. lra.
Qed.
Example C43_ex_tetrahedron : exists f F, tetrahedron_quadrature_formulas 2 = Some f /\ all_points 3 f = Some F /\ near (/ 10 ^ 18) (qsum F (beval ex_product)) (/ 20).
Proof.
  destruct (C43_exact Tetrahedron 2 ltac:(cbn; lia)) as (f & F & E & A & P). exists f, F. split; [exact E|]. split; [exact A|].
  destruct C43_ex_product as (M & N & D). specialize (P ex_product D). rewrite M, N, Rmult_1_r in P. exact P.
Qed.
(** the formula of order 20 for tetrahedra has more than 20 orbits *)
Example C43_ex_orbits : exists f, tetrahedron_quadrature_formulas 20 = Some f /\ (length (sizes_of Tetrahedron (q_sym f)) > 20)%nat.
Proof. destruct (quadrature_sound Tetrahedron 20 ltac:(cbn; lia)) as (f & F & E & S). exists f. split; [exact E|]. cbn [quadrature] in E. unfold tetrahedron_quadrature_formulas in E.
  cbn [Z.gtb Z.ltb Z.compare Pos.compare Pos.compare_cont orb] in E. change (Z.to_nat 20) with 20%nat in E. cbn [nth_error tet_rules_np tet_rules tet_rules_w tet_symmetry obind] in E.
  apply Some_inj' in E. subst f. cbn [q_sym]. vm_compute. lia.
Qed.
