(** C52: strains, invariants of the Cauchy-Green tensor, and the stresses that
    automatic differentiation gives from an energy. *)
From Coq Require Import Reals Lra Lia Psatz FunctionalExtensionality.
From Verif Require Import Prelude RSum AdModel AdSpec AdProofs AdProofs2 AdProofs3 AdProofs6 AdProofs7 AdProofs8 TnModel TnSpec TnProofs3 MechModel MechSpec MechProofs MechProofs2 MechProofs3 MechProofs4.
Open Scope R_scope.

(** *** The strain tensors are E = (F^T F - I) / 2, and the functions for their variations
    return the derivatives along the variation *)
Theorem C52_strain : forall F dF, length F = 9%nat -> length dF = 9%nat -> forall i j, (i < 3)%nat -> (j < 3)%nat ->
  at2 (F_to_E F) i j = green (mat (of_list F)) i j /\
  at2 (grU_to_E F) i j = green (mat (deformation F)) i j /\
  D1 (fun Y => green (mat Y) i j) (of_list dF) (of_list F) (at2 (F_and_dF_to_dE F dF) i j) /\
  D1 (fun Y => green (mat Y) i j) (of_list dF) (deformation F) (at2 (grU_and_dgrU_to_dE F dF) i j).
Proof.
  intros F dF ? ? i j Hi Hj. lists.
  assert (T : forall k, (k < 6)%nat -> forall v X, D1 (ey k) v X (dey X v k)).
  { intros k Hk v X. apply (proj1 (ey_DJ 1 k v v X Hk)). lia. }
  assert (S : (fun Y => green (mat Y) i j) = ey (sym3_cont i j)).
  { apply functional_extensionality. intros Y. i3 i; i3 j; cbv -[Rplus Rmult Rminus Ropp Rinv IZR INR]; field. }
  split; [i3 i; i3 j; ev; field|]. split; [i3 i; i3 j; ev; field|].
  assert (Hk : (sym3_cont i j < 6)%nat) by (i3 i; i3 j; cbn; lia).
  rewrite S. split; (match goal with |- D1 _ ?v ?X _ => pose proof (T _ Hk v X) as T'; eapply lim_eq; [exact T'|] end; clear - Hi Hj; i3 i; i3 j; ev; field).
Qed.
Print Assumptions C52_strain.

(** *** The values are the invariants of C = I + 2 E *)
Theorem C52_invariants : forall nd E i, length E = 6%nat -> well_formed i ->
  val (leaf nd E i) = invariant_of (cauchy_of (at2 E)) i.
Proof.
  intros nd E i HE W. rewrite leaf_val by assumption. apply invariant_ext. intros a b Ha Hb. i3 a; i3 b; reflexivity.
Qed.
Print Assumptions C52_invariants.

(** For E = (F^T F - I) / 2: the third invariant is det(F)^2 and J is |det F| *)
Theorem C52_volume : forall F, length F = 9%nat ->
  C_I3 (F_to_E F) = det3 (mat (of_list F)) * det3 (mat (of_list F)) /\
  C_J (F_to_E F) = Rabs (det3 (mat (of_list F))).
Proof.
  intros F ?. assert (E : C_I3 (F_to_E F) = det3 (mat (of_list F)) * det3 (mat (of_list F))) by (lists; ev; field).
  split; [exact E|]. unfold C_J. rewrite E. apply sqrt_Rsqr_abs.
Qed.
Print Assumptions C52_volume.

(** *** The variables carry the derivatives with respect to the strain *)
Theorem C52_derivatives : forall n nd E i, length E = 6%nat -> well_formed i -> regular (cauchy_of (at2 E)) i -> (n <= nd)%nat ->
  carries sym3_storage sym_dir (of_list E) n (fun Y => invariant_of (cauchy_of (sym6 Y)) i) (leaf nd E i) /\
  flags_sound sym3_storage n (leaf nd E i).
Proof.
  intros n nd E i HE W Hr Hn.
  assert (C : chain sym3_storage nat sym_dir (co nat sym_dir) (co2 nat (fun _ _ _ => 0)) pos (of_list E) n (fun Y => invariant_of (cauchy_of (sym6 Y)) i) (leaf nd E i)).
  { assert (S : strain (of_list E) (fun k Y => Y k) = E) by (clear - HE; lists; reflexivity).
    rewrite <- S at 2. apply (leaf_chain nat sym_dir (of_list E) n (fun k Y => Y k) sym_dir (fun _ _ _ => 0)); [|assumption| |assumption].
    - intros. apply DJ_coord.
    - eapply regular_ext; [|exact Hr]. intros a b Ha Hb. i3 a; i3 b; reflexivity. }
  destruct C as ((L1 & L2) & Fl & V & H). split; [|exact Fl]. split; [exact V|]. split; [exact L1|]. split; [exact L2|].
  assert (LE : forall k e, (k < 6)%nat -> L sym3_storage nat (co nat sym_dir) k e = e k).
  { intros k e Hk. unfold L. cbn [ng sym3_storage]. i6 k; cbv -[Rplus Rmult Rminus Ropp Rinv IZR INR]; field. }
  assert (QE : forall k l e e2, (k < 6)%nat -> (l < 6)%nat -> Q sym3_storage nat (co nat sym_dir) (co2 nat (fun _ _ _ => 0)) k l e e2 = e2 k l).
  { intros k l e e2 Hk Hl. unfold Q. cbn [ng sym3_storage]. i6 k; i6 l; cbv -[Rplus Rmult Rminus Ropp Rinv IZR INR]; field. }
  split.
  - intros Hn1 k Hk. specialize (H n k k (le_n _)). apply (proj1 H) in Hn1 as (A & _). now rewrite LE in A by exact Hk.
  - intros Hn2 c k l Hc. destruct (sym3_pairs c k l Hc) as (Hk & Hl). cbn [ng sym3_storage] in Hk, Hl.
    assert (Pc : pos k l = c /\ pos l k = c).
    { clear - Hc. assert (Hc' : (c < 21)%nat) by (change 21%nat with (length (hidx sym3_storage)); apply nth_error_Some; congruence).
      assert (G : forallb (fun c => match nth_error (hidx sym3_storage) c with Some (k, l) => (pos k l =? c) && (pos l k =? c) | None => false end%nat) (seq 0 21) = true) by (vm_compute; reflexivity).
      rewrite forallb_forall in G. specialize (G c ltac:(apply in_seq; lia)). rewrite Hc in G. apply andb_prop in G as (G1 & G2). now apply Nat.eqb_eq in G1, G2. }
    destruct Pc as (P1 & P2). split.
    + specialize (proj2 (H n k l (le_n _)) Hn2) as A. rewrite QE in A by assumption. unfold he in A. now rewrite P1 in A.
    + specialize (proj2 (H n l k (le_n _)) Hn2) as A. rewrite QE in A by assumption. unfold he in A. now rewrite P2 in A.
Qed.
Print Assumptions C52_derivatives.

(** *** Elements of the first Piola-Kirchhoff stress and of its derivative *)
Theorem C52_stress_elements : forall grU S dS i j k l, length grU = 9%nat -> length S = 6%nat -> length dS = 21%nat ->
  (i < 3)%nat -> (j < 3)%nat -> (k < 3)%nat -> (l < 3)%nat ->
  let F := mat (deformation grU) in
  mt2 (S_to_P grU S) i j = Rsum 3 (fun n => F i n * at2 S n j) /\
  at45 (dS_to_dP grU S dS) i j k l = delta i k * at2 S l j + Rsum2 3 (fun n m => F i n * F k m * at4 dS n j m l).
Proof.
  intros grU S dS i j k l Hg HS HD Hi Hj Hk Hl F. split.
  - rewrite S_to_P_ok by assumption. apply Rsum_ext. intros. unfold F. now rewrite def_grad_mat.
  - rewrite dS_to_dP_ok by assumption. f_equal. apply Rsum_ext. intros. apply Rsum_ext. intros. unfold F. now rewrite !def_grad_mat.
Qed.
Print Assumptions C52_stress_elements.

(** *** The stress of an energy.  The energy is any smooth expression of invariants; its
    value, its stress P and the derivative of P, all obtained from derivatives with respect
    to the strain, are the value, the gradient and the Hessian of the energy as a function of
    the deformation gradient, along all variations V, V' of it.

    Not covered: expressions outside [admissible] (a varying divisor without the flag for
    second derivatives, see C52_reciprocal_refuted; hypot of values with different flags). *)
Theorem C52_stress_partial : forall grU (inv : nat -> invariant) nd e, length grU = 9%nat ->
  let F := deformation grU in
  let u i Y := invariant_of (right_cauchy (mat Y)) (inv i) in
  let lf i := leaf nd (grU_to_E grU) (inv i) in
  let r := run sym3_storage lf e in
  (forall i, well_formed (inv i)) -> (forall i, regular (right_cauchy (mat F)) (inv i)) ->
  smooth u F e ->
  (admissible sym3_storage lf 0 e -> val r = denote u e F) /\
  (admissible sym3_storage lf 1 e -> (1 <= nd)%nat ->
    forall V, D1 (denote u e) V F (Rsum2 3 (fun i j => mt2 (S_to_P grU (D r)) i j * mat V i j))) /\
  (admissible sym3_storage lf 2 e -> (2 <= nd)%nat ->
    forall V V', D2 (denote u e) V V' F
      (Rsum4 3 (fun i j k l => at45 (dS_to_dP grU (D r) (DD r)) i j k l * mat V i j * mat V' k l))).
Proof.
  intros grU inv nd e Hg F u lf r HW HR HS. split; [|split].
  - intros HA. apply (chain_val _ _ _ _ _ _ _ _ _ _ (energy_chain grU Hg inv 0 nd (Nat.le_0_l _) HW HR e HS HA)).
  - intros HA Hn V. destruct (energy_chain grU Hg inv 1 nd Hn HW HR e HS HA) as ((L1 & L2) & _ & _ & H).
    fold r u lf in L1, L2, H. specialize (H 1%nat V V (le_n _)). destruct (proj1 H (le_n _)) as (A & _).
    unfold gr in A. erewrite <- stress_L; [exact A|exact Hg|exact L1].
  - intros HA Hn V V'. destruct (energy_chain grU Hg inv 2 nd Hn HW HR e HS HA) as ((L1 & L2) & _ & _ & H).
    fold r u lf in L1, L2, H. specialize (proj2 (H 2%nat V V' (le_n _)) (le_n _)) as A.
    unfold gr, he in A. erewrite <- stress_Q; [exact A|exact Hg|exact L1|exact L2].
Qed.
Print Assumptions C52_stress_partial.

(** The hypotheses are met by a compressible neo-Hookean energy with a fibre term,
    I1 * J^(-2/3) - 3 + (J - 1)^2 + exp((I4 - 1)^2), for a deformation that is not the identity *)
Definition shear : list R := [1; 2; 0; 0; 0; 0; 0; 0; 1].
Definition fibre : list R := [1; 0; 0].
Definition sample_inv (i : nat) : invariant := match i with O => I1 | 1%nat => Jdet | _ => I4fs fibre fibre end.
Definition neo : expr :=
  Add (Add (Sub (Mul (Leaf 0) (PowR (Leaf 1) (- 2 / 3))) (Const 3)) (Sq (Sub (Leaf 1) (Const 1)))) (Fn Exp (Sq (Sub (Leaf 2) (Const 1)))).
Lemma shear_det : det3 (right_cauchy (mat (deformation shear))) = 16.
Proof. ev. ring. Qed.
Example C52_met : length shear = 9%nat /\ (forall i, well_formed (sample_inv i)) /\
  (forall i, regular (right_cauchy (mat (deformation shear))) (sample_inv i)) /\
  smooth (fun i Y => invariant_of (right_cauchy (mat Y)) (sample_inv i)) (deformation shear) neo /\
  admissible sym3_storage (fun i => leaf 2 (grU_to_E shear) (sample_inv i)) 2 neo.
Proof.
  split; [reflexivity|]. split; [intros [|[|i]]; cbn; auto|]. split.
  { intros [|[|i]]; cbn [sample_inv regular]; auto. rewrite shear_det. lra. }
  split.
  - cbn [smooth neo denote sample_inv fn_dom]. repeat split. intros _. cbn [invariant_of]. rewrite shear_det. apply sqrt_lt_R0. lra.
  - cbn [admissible neo]. repeat split.
Qed.
(** a value: the first invariant and the volume ratio for this deformation *)
Example C52_values : C_I1 (grU_to_E shear) = 13 /\ C_I3 (grU_to_E shear) = 16.
Proof. split; ev; field. Qed.

(** *** The variable I1 says that its second derivative with respect to the strain is
    trivial, so a division by it loses the term 2 / I1^3 * dI1 dI1: with the energy 1 / I1 and
    no deformation the derivative of the stress P_00 in F_00 is wrong *)
Theorem C52_reciprocal_refuted : let grU := repeat 0 9 in let e := Div (Const 1) (Leaf 0) in
  let u (i : nat) Y := invariant_of (right_cauchy (mat Y)) I1 in
  let r := run sym3_storage (fun _ => leaf 2 (grU_to_E grU) I1) e in
  smooth u (deformation grU) e /\
  at45 (dS_to_dP grU (D r) (DD r)) 0 0 0 0 = - (2 / 9) /\
  D2 (denote u e) (unit_dir 0) (unit_dir 0) (deformation grU) (2 / 27) /\
  ~ D2 (denote u e) (unit_dir 0) (unit_dir 0) (deformation grU) (at45 (dS_to_dP grU (D r) (DD r)) 0 0 0 0).
Proof.
  cbv zeta.
  assert (V : at45 (dS_to_dP (repeat 0 9) (D (run sym3_storage (fun _ => leaf 2 (grU_to_E (repeat 0 9)) I1) (Div (Const 1) (Leaf 0))))
    (DD (run sym3_storage (fun _ => leaf 2 (grU_to_E (repeat 0 9)) I1) (Div (Const 1) (Leaf 0))))) 0 0 0 0 = - (2 / 9)) by (ev; field).
  split; [|split; [exact V|]].
  - cbn [smooth denote]. repeat split. intros C. revert C. ev. intros C. lra.
  - assert (T : DJ 2 (fun Y => / invariant_of (right_cauchy (mat Y)) I1) (unit_dir 0) (unit_dir 0) (deformation (repeat 0 9)) (- (2 / 9)) (- (2 / 9)) (2 / 27)).
    { eapply DJ_eq; [apply (DJ_comp 2 (fun Y => invariant_of (right_cauchy (mat Y)) I1) (fun y => / y)); [|apply fn2_inv; intros C; revert C; ev; intros C; lra]|..].
      { cbv -[Rplus Rmult Ropp Rinv IZR INR DJ deformation unit_dir]. dc. }
      all: ev; field. }
    destruct T as (_ & T). specialize (T (le_n _)).
    assert (T' : D2 (denote (fun _ Y => invariant_of (right_cauchy (mat Y)) I1) (Div (Const 1) (Leaf 0))) (unit_dir 0) (unit_dir 0) (deformation (repeat 0 9)) (2 / 27)).
    { cbn [denote]. eapply D2_ext; [|exact T]. exists 1. split; [lra|]. intros t Ht. exists 1. split; [lra|]. intros. cbv beta. unfold Rdiv. ring. }
    split; [exact T'|]. rewrite V. intros C. pose proof (D2_unique _ _ _ _ _ _ T' C). lra.
Qed.
Print Assumptions C52_reciprocal_refuted.
