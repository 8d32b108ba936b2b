(** C35 (duality), C36 (Lagrange spaces), C38 (coordinates of dofs), C39 (symbolic basis). *)
From Verif Require Import Prelude RSum GeoModel GeoSpec GeoProofs GeoProofs2 GeoProps SpModel SpSpec BasModel BasSpec BasProofs CoreProofs BasProofs2 BasProofs3 BasProofs4 BasProofs5 BasProofs6 BasProofs7 BasProofs8 BasProofs9 BasProps.
Local Open Scope R_scope.

(** *** C35 *)
(** Interpolation on dof i enters the dof of the function (dof_value) for each of the fused functions
    and changes nothing else *)
Theorem C35_dofs : forall s Q x F fusion i ud, nondegenerate x -> on_simplex 1 (q_seg Q) -> on_simplex 2 (q_tri Q) -> on_simplex 3 (q_tet Q) -> (i < nfa s)%nat -> has_dof fusion i ud ->
  exists ud', interpolate s Q (fun k => vec_of (x k)) F fusion i ud = Some ud' /\ entered fusion i (fun r => dof_value s Q x F i r) ud ud'.
Proof. exact dofs_ok. Qed.
Print Assumptions C35_dofs.
(** Interpolation of basis function j on dof i gives 1 if i = j and 0 otherwise, up to four times the
    error of the formulas for affine functions *)
Theorem C35_dual : forall e Q x s i j fusion ud, quads_ok e Q -> nondegenerate x -> (i < nfa s)%nat -> (j < nfa s)%nat -> has_dof fusion i ud ->
  exists ud' v, interpolate s Q (fun k => vec_of (x k)) (vector_fun (fdim s) (shape s x j)) fusion i ud = Some ud' /\ entered fusion i (fun _ => v) ud ud' /\
    near (4 * e) v (if (i =? j)%nat then 1 else 0).
Proof. intros e Q x s i j fusion ud HQ Hx Hi Hj Hd. exact (dual_ok e Q x fusion ud HQ Hx s i j Hi Hj Hd). Qed.
Print Assumptions C35_dual.
(** For the nodal spaces the value is exact, no formula is used *)
Theorem C35_dual_nodal : forall Q x s i j fusion ud, nodal s = true -> nondegenerate x -> (i < nfa s)%nat -> (j < nfa s)%nat -> has_dof fusion i ud ->
  exists ud', interpolate s Q (fun k => vec_of (x k)) (vector_fun (fdim s) (shape s x j)) fusion i ud = Some ud' /\ entered fusion i (fun _ => if (i =? j)%nat then 1 else 0) ud ud'.
Proof.
  intros Q x s i j fusion ud Hn Hx Hi Hj Hd. rewrite node_interpolate by assumption. assert (Hs : scalar s = true) by (destruct s; try discriminate Hn; reflexivity).
  destruct (put_ok fusion i (fun r => vector_fun (fdim s) (shape s x j) (vec_of (comb x (node s i))) r) ud Hd) as (ud' & E & H). exists ud'. split; [exact E|].
  eapply entered_ext; [exact H|]. intros r Hr. cbv beta. unfold vector_fun. rewrite sval_comb by (try apply node_sum; auto). now apply node_dual.
Qed.
Print Assumptions C35_dual_nodal.
Lemma repeat_dof : forall i r, has_dof (S r) i (repeat (repeat 0 (S i)) (S r)).
Proof. intros i r a Ha. exists (repeat 0 (S i)). split; [|rewrite repeat_length; lia]. unfold rd. apply nth_error_repeat. lia. Qed.
Lemma entered_value : forall i r v v' ud ud', has_dof (S r) i ud -> entered (S r) i v ud ud' -> entered (S r) i v' ud ud' -> v r = v' r.
Proof.
  intros i r v v' ud ud' Hd (_ & H) (_ & H'). destruct (Hd r (Nat.lt_succ_diag_r r)) as (a & Ea & Hi). destruct (H r a Ea) as (a1 & E1 & _ & R1). destruct (H' r a Ea) as (a2 & E2 & _ & R2). rewrite E1 in E2. apply Some_inj' in E2. subst a2.
  specialize (R1 i). specialize (R2 i). rewrite R1 in R2. assert (B : (r <? S r)%nat = true) by (apply Nat.ltb_lt; lia). rewrite B, Nat.eqb_refl in R2. cbn [andb] in R2. now apply Some_inj' in R2.
Qed.
Lemma dof_shape : forall e Q x s i j r, quads_ok e Q -> nondegenerate x -> (i < nfa s)%nat -> (j < nfa s)%nat -> near (4 * e) (dof_value s Q x (vector_fun (fdim s) (shape s x j)) i r) (delta i j).
Proof.
  intros e Q x s i j r HQ Hx Hi Hj. assert (Hd := repeat_dof i r). destruct (dual_ok e Q x (S r) _ HQ Hx s i j Hi Hj Hd) as (ud' & v & E & H & N). assert (HQ' := HQ). destruct HQ' as ((A & _) & (B & _) & (C & _)).
  destruct (dofs_ok s Q x (vector_fun (fdim s) (shape s x j)) (S r) i _ Hx A B C Hi Hd) as (ud2 & E2 & H2). rewrite E in E2. apply Some_inj' in E2. subst ud2.
  now rewrite (entered_value i r _ (fun _ => v) _ _ Hd H2 H).
Qed.
Lemma near_sum : forall m c u v e, (forall j, (j < m)%nat -> near e (u j) (v j)) -> near (e * Rsum m (fun j => Rabs (c j))) (Rsum m (fun j => c j * u j)) (Rsum m (fun j => c j * v j)).
Proof.
  intros m c u v e. induction m as [|m IH]; intros H; [unfold near; cbn [Rsum]; rewrite Rminus_0_r, Rabs_R0; lra|]. specialize (IH (fun j Hj => H j (Nat.lt_lt_succ_r _ _ Hj))). specialize (H m (Nat.lt_succ_diag_r m)).
  unfold near in *. cbn [Rsum]. replace (Rsum m (fun j => c j * u j) + c m * u m - (Rsum m (fun j => c j * v j) + c m * v m)) with (Rsum m (fun j => c j * u j) - Rsum m (fun j => c j * v j) + c m * (u m - v m)) by ring.
  eapply Rle_trans; [apply Rabs_triang|]. rewrite Rabs_mult. pose proof (Rabs_pos (c m)). assert (Rabs (c m) * Rabs (u m - v m) <= Rabs (c m) * e) by (now apply Rmult_le_compat_l). lra.
Qed.
Lemma Rsum_delta : forall m i c, (i < m)%nat -> Rsum m (fun j => c j * delta i j) = c i.
Proof.
  intros m i c H. rewrite (Rsum_single m i).
  - unfold delta. rewrite Nat.eqb_refl. ring.
  - exact H.
  - intros j Hj Hne. unfold delta. assert (B : (i =? j)%nat = false) by (apply Nat.eqb_neq; auto). rewrite B. ring.
Qed.
(** Interpolation of a function of the space gives back its coefficients *)
Theorem C35_coefficients : forall e Q x s (c : nat -> R) i fusion ud, quads_ok e Q -> nondegenerate x -> (i < nfa s)%nat -> has_dof fusion i ud ->
  exists ud' v, interpolate s Q (fun k => vec_of (x k)) (vector_fun (fdim s) (fun k y => Rsum (nfa s) (fun j => c j * shape s x j k y))) fusion i ud = Some ud' /\
    entered fusion i v ud ud' /\ forall r, (r < fusion)%nat -> near (4 * e * Rsum (nfa s) (fun j => Rabs (c j))) (v r) (c i).
Proof.
  intros e Q x s c i fusion ud HQ Hx Hi Hd. assert (HQ' := HQ). destruct HQ' as ((A & _) & (B & _) & (C & _)).
  destruct (dofs_ok s Q x (vector_fun (fdim s) (fun k y => Rsum (nfa s) (fun j => c j * shape s x j k y))) fusion i ud Hx A B C Hi Hd) as (ud' & E & H). exists ud', (dof_value s Q x (vector_fun (fdim s) (fun k y => Rsum (nfa s) (fun j => c j * shape s x j k y))) i).
  split; [exact E|]. split; [exact H|]. intros r Hr. change (vector_fun (fdim s) (fun k y => Rsum (nfa s) (fun j => c j * shape s x j k y))) with (fun X k => Rsum (nfa s) (fun j => c j * vector_fun (fdim s) (shape s x j) X k)).
  rewrite dof_value_lin, <- (Rsum_delta (nfa s) i c Hi) at 1. apply near_sum. intros j Hj. now apply dof_shape.
Qed.
Print Assumptions C35_coefficients.
(** Formulas of one point, exact for affine functions *)
Definition one_point : quads := {| q_seg := [([/ 2; / 2], 1)]; q_tri := [([/ 3; / 3; / 3], 1)]; q_tet := [([/ 4; / 4; / 4; / 4], 1)] |}.
Example C35_ex_quads : quads_ok 0 one_point.
Proof.
  assert (N : forall a b, a = b -> near 0 a b) by (intros a b ->; apply near_refl; lra).
  unfold quads_ok, affine_exact, one_point; cbn [q_seg q_tri q_tet]. split; [|split]; (split; [intros p w [E|[]]; injection E as <- <-; split; [reflexivity|cbn [Rsum nth]; lra]|]);
    (split; [apply N; unfold qsum; cbn; ring|]); intros k Hk; apply N; unfold qsum; destruct k as [|[|[|[|k]]]]; try (exfalso; lia); cbn; field.
Qed.
(** hence the basis functions of every space are linearly independent *)
Theorem C35_independent : forall s x (c : nat -> R), nondegenerate x -> (forall k y, (k < fdim s)%nat -> Rsum (nfa s) (fun j => c j * shape s x j k y) = 0) -> forall i, (i < nfa s)%nat -> c i = 0.
Proof.
  intros s x c Hx H i Hi. destruct (C35_coefficients 0 one_point x s c i 1 _ C35_ex_quads Hx Hi (repeat_dof i 0)) as (ud' & v & E & He & N). specialize (N 0%nat Nat.lt_0_1). rewrite Rmult_0_r, Rmult_0_l in N.
  assert (HQ := C35_ex_quads). destruct HQ as ((A & _) & (B & _) & (C & _)).
  destruct (dofs_ok s one_point x (fun X k => Rsum 0 (fun j => 0 * 0)) 1 i _ Hx A B C Hi (repeat_dof i 0)) as (u2 & E2 & H2).
  assert (F : vector_fun (fdim s) (fun k y => Rsum (nfa s) (fun j => c j * shape s x j k y)) = (fun X k => Rsum 0 (fun j => 0 * 0))).
  { apply FunctionalExtensionality.functional_extensionality. intros X. apply FunctionalExtensionality.functional_extensionality. intros k. unfold vector_fun. cbn [Rsum]. apply H. apply Nat.mod_upper_bound. destruct s; discriminate. }
  rewrite F, E2 in E. apply Some_inj' in E. subst u2. assert (Z := entered_value i 0 _ _ _ _ (repeat_dof i 0) H2 He). cbv beta in Z.
  rewrite (dof_value_lin s one_point x 0 (fun _ => 0) (fun _ _ _ => 0)) in Z. cbn [Rsum] in Z. rewrite <- Z in N. unfold near in N. rewrite Rminus_0_l, Rabs_Ropp in N. pose proof (Rabs_pos (c i)).
  destruct (Req_dec (c i) 0) as [|Hc]; [assumption|]. apply Rabs_pos_lt in Hc. lra.
Qed.
Print Assumptions C35_independent.
Example C35_ex : nondegenerate ref_tet /\ has_dof 2 3 [[0; 0; 0; 0]; [0; 0; 0; 5]].
Proof.
  split; [unfold nondegenerate, det3, edge_matrix, ref_tet, delta; cbn; lra|]. intros r Hr. destruct r as [|[|r]]; [| |exfalso; lia]; eexists; (split; [reflexivity|cbn; lia]).
Qed.

(** *** C36 *)
Lemma lagrange_scalar : forall s, degree_of s <> 0%nat -> scalar s = true /\ nodal s = true /\ fdim s = 1%nat.
Proof. intros s H. destruct s; try (exfalso; now apply H); repeat split; reflexivity. Qed.
Lemma shape_repro : forall s x p y c, degree_of s <> 0%nat -> nondegenerate x -> poly (degree_of s) p -> Rsum (nfa s) (fun i => p (comb x (node s i)) * shape s x i c y) = p (comb x (fun k => lam x k y)).
Proof.
  intros s x p y c Hs Hx Hp. destruct (lagrange_scalar s Hs) as (S1 & S2 & _). rewrite <- (repro_poly s x p Hs Hp (fun k => lam x k y) (lam_sum x y Hx)). apply Rsum_ext. intros i Hi. f_equal. now apply shape_sval.
Qed.
Lemma poly_coord : forall m p y y', poly m p -> (forall c, (c < 3)%nat -> y c = y' c) -> p y = p y'.
Proof. intros m p y y' (c & H) E. rewrite !H. rewrite !E by lia. reflexivity. Qed.
Lemma const_poly : forall m, poly m (fun _ => 1).
Proof.
  intros m. exists (fun a b e => delta a 0 * delta b 0 * delta e 0). intros y.
  rewrite (Rsum_single (S m) 0); [|lia|].
  - rewrite (Rsum_single (S m - 0) 0); [|lia|].
    + rewrite (Rsum_single (S m - 0 - 0) 0); [|lia|].
      * unfold delta. cbn. ring.
      * intros j Hj Hne. unfold delta. assert (B : (j =? 0)%nat = false) by (now apply Nat.eqb_neq). rewrite B. ring.
    + intros j Hj Hne. apply Rsum_zero. intros. unfold delta. assert (B : (j =? 0)%nat = false) by (now apply Nat.eqb_neq). rewrite B. ring.
  - intros j Hj Hne. apply Rsum_zero. intros. apply Rsum_zero. intros. unfold delta. assert (B : (j =? 0)%nat = false) by (now apply Nat.eqb_neq). rewrite B. ring.
Qed.
(** The functions of P1, P2, P3 (and those of P0 and CR1) sum to one at every point *)
Theorem C36_sum_one : forall s x y c, (degree_of s <> 0%nat \/ s = P0 \/ s = CR1) -> nondegenerate x -> Rsum (nfa s) (fun i => shape s x i c y) = 1.
Proof.
  intros s x y c [Hs|[->| ->]] Hx.
  - rewrite <- (shape_repro s x (fun _ => 1) y c Hs Hx (const_poly _)) at 1. apply Rsum_ext. intros. ring.
  - cbn. ring.
  - pose proof (lam_sum x y Hx) as L. cbn [Rsum nfa] in *. unfold shape, opp. cbn. lra.
Qed.
Print Assumptions C36_sum_one.
Lemma partial_sum : forall m (F : nat -> (nat -> R) -> R) k y D, (forall i, (i < m)%nat -> partial (F i) k y (D i)) -> partial (fun y => Rsum m (fun i => F i y)) k y (Rsum m D).
Proof.
  intros m F k y D. induction m as [|m IH]; intros H.
  - cbn [Rsum]. apply derivable_pt_lim_const.
  - cbn [Rsum]. apply (derivable_pt_lim_plus (fun t => Rsum m (fun i => F i (shift y k t))) (fun t => F m (shift y k t))); [apply IH; auto|apply H; lia].
Qed.
(** and their derivatives sum to zero *)
Theorem C36_gradients : forall s x y c k D, (degree_of s <> 0%nat \/ s = P0 \/ s = CR1) -> nondegenerate x -> (forall i, (i < nfa s)%nat -> partial (shape s x i c) k y (D i)) -> Rsum (nfa s) D = 0.
Proof.
  intros s x y c k D Hs Hx HD. apply (partial_unique (fun y => Rsum (nfa s) (fun i => shape s x i c y)) k y); [now apply partial_sum|].
  assert (E : (fun t => Rsum (nfa s) (fun i => shape s x i c (shift y k t))) = (fun _ => 1)) by (apply FunctionalExtensionality.functional_extensionality; intros t; now apply C36_sum_one).
  unfold partial. rewrite E. apply derivable_pt_lim_const.
Qed.
Print Assumptions C36_gradients.
(** The same for the tables written by the operators *)
Theorem C36_tables : forall s f q x L g U E, (degree_of s <> 0%nat \/ s = P0 \/ s = CR1) -> (1 <= f)%nat -> (1 <= q)%nat -> prepared f q x L g ->
  (usize s IDEN f q <= length U)%nat -> (usize s GRAD f q <= length U)%nat -> (esize s IDEN q <= length E)%nat -> (esize s GRAD q <= length E)%nat ->
  (exists U' E', apply_op s IDEN f q g U E = Some (U', E') /\ forall r n, (r < f)%nat -> (n < q)%nat -> Rsum (nfa s) (fun i => nth (cell 1 q (nfa s) r n 0 i) U' 0) = 1) /\
  (exists U' E', apply_op s GRAD f q g U E = Some (U', E') /\ forall r n k, (r < f)%nat -> (n < q)%nat -> (k < 3)%nat -> Rsum (nfa s) (fun i => nth (cell 3 q (nfa s) r n k i) U' 0) = 0).
Proof.
  intros s f q x L g U E Hs Hf Hq Hp U1 U2 E1 E2. assert (Hd : fdim s = 1%nat) by (destruct Hs as [Hs|[->| ->]]; [now apply lagrange_scalar|reflexivity|reflexivity]).
  assert (RN : forall l c v, rd l c = Some v -> nth c l 0 = v) by (intros l c v H; unfold rd in H; now apply nth_error_nth).
  split.
  - destruct (apply_ok s IDEN f q x L g U E eq_refl Hf Hq Hp U1 E1) as (U' & E' & Er & T & _). exists U', E'. split; [exact Er|]. intros r n Hr Hn. unfold odims in T. cbn [dim_op] in T. rewrite Hd in T.
    rewrite <- (C36_sum_one s (x r) (point x L r n) 0 Hs (prep_nd f q g x L Hp r Hr)). apply Rsum_ext. intros i Hi. apply RN. rewrite T by (assumption || lia). reflexivity.
  - destruct (apply_ok s GRAD f q x L g U E eq_refl Hf Hq Hp U2 E2) as (U' & E' & Er & T & _). exists U', E'. split; [exact Er|]. intros r n k Hr Hn Hk. unfold odims in T. cbn [dim_op] in T. rewrite Hd in T.
    transitivity (Rsum (nfa s) (fun i => dshape s (x r) i 0 k (point x L r n))); [|apply (C36_gradients s (x r) (point x L r n) 0 k _ Hs (prep_nd f q g x L Hp r Hr))].
    + apply Rsum_ext. intros i Hi. apply RN. rewrite T by (assumption || lia). unfold op_of. f_equal. f_equal; [now rewrite Nat.div_small|now rewrite Nat.mod_small].
    + intros i Hi. apply shape_partial; auto. now apply (prep_nd f q g x L Hp).
Qed.
Print Assumptions C36_tables.
(** Interpolation of a polynomial of the degree of the space on all dofs gives coefficients whose
    combination of the basis functions is that polynomial, at every point *)
Theorem C36_reproduce : forall s Q x p, degree_of s <> 0%nat -> nondegenerate x -> poly (degree_of s) p ->
  exists u : nat -> R,
    (forall i fusion ud, (i < nfa s)%nat -> has_dof fusion i ud ->
       exists ud', interpolate s Q (fun k => vec_of (x k)) (fun X _ => p (of_vec X)) fusion i ud = Some ud' /\ entered fusion i (fun _ => u i) ud ud') /\
    forall y, Rsum (nfa s) (fun i => u i * shape s x i 0 y) = p y.
Proof.
  intros s Q x p Hs Hx Hp. destruct (lagrange_scalar s Hs) as (S1 & S2 & _). exists (fun i => p (of_vec (vec_of (comb x (node s i))))). split.
  - intros i fusion ud Hi Hd. rewrite node_interpolate by assumption. apply put_ok. exact Hd.
  - intros y. rewrite (Rsum_ext _ _ (fun i => p (comb x (node s i)) * shape s x i 0 y)) by (intros i Hi; f_equal; apply (poly_coord _ p _ _ Hp); intros c Hc; now apply of_vec_of).
    rewrite shape_repro by assumption. apply (poly_coord _ p _ _ Hp). intros c Hc. unfold comb. first [now apply lam_point|symmetry; now apply lam_point].
Qed.
Print Assumptions C36_reproduce.
Example C36_ex : poly 3 (fun y => y 0%nat ^ 2 * y 2%nat - 5 * y 1%nat + 7).
Proof. exists (fun a b e => match (a, b, e) with (2, 0, 1)%nat => 1 | (0, 1, 0)%nat => -5 | (0, 0, 0)%nat => 7 | _ => 0 end). intros y. cbn. ring. Qed.

(** *** C38 *)
Lemma put3' : forall (v : nat -> R) body coord, (3 <= length coord)%nat -> (forall k c, (k < 3)%nat -> body k c = wr c k (v k)) -> for_ 3 body coord = Some (v 0%nat :: v 1%nat :: v 2%nat :: skipn 3 coord).
Proof.
  intros v body coord HL H. destruct coord as [|a [|b [|c r]]]; cbn [length] in HL; try (exfalso; lia). unfold for_. cbn [for_range]. rewrite (H 0%nat) by lia. cbn [wr obind]. rewrite (H 1%nat) by lia. cbn [wr obind].
  rewrite (H 2%nat) by lia. reflexivity.
Qed.
(** The coordinates of the four vertices as the array given to DOF_coord *)
Definition nodes_of (x : tetra) (nodes : list R) : Prop := forall k c, (k < 4)%nat -> (c < 3)%nat -> rd nodes (3 * k + c) = Some (x k c).
Lemma coord_ok : forall s i x nodes coord, (match s with P1 | P2 | B2 => True | P3 => i <> 17%nat /\ i <> 19%nat | _ => False end) -> (i < nfa s)%nat -> nodes_of x nodes -> (3 <= length coord)%nat ->
  let v := comb x (node s i) in dof_coord s i nodes coord = Some (v 0%nat :: v 1%nat :: v 2%nat :: skipn 3 coord).
Proof.
  intros s i x nodes coord Hs Hi Hn HL v. unfold v. clear v.
  assert (HC : forall k c, (k < 4)%nat -> (c < 3)%nat -> rd nodes (c + 3 * k) = Some (x k c)) by (intros k c Hk Hc; rewrite Nat.add_comm; now apply Hn).
  destruct s; try contradiction; cbn [nfa] in Hi; unfold dof_coord; cbv zeta; upto i; try (exfalso; destruct Hs; congruence);
    cbn [Nat.ltb Nat.leb Nat.eqb Nat.sub Nat.add b2n Nat.modulo Nat.divmod Nat.div fst snd]; try rewrite guard_true by reflexivity;
    apply put3'; try exact HL; intros k c Hk; rewrite ?(Hn 0%nat k), ?(Hn 1%nat k), ?(Hn 2%nat k), ?(Hn 3%nat k) by lia; cbn [obind]; f_equal;
    unfold comb, node, unitw, delta; cbn; field.
Qed.
(** For the nodal spaces with a reported coordinate, except dofs 17 and 19 of P3: it is the point where
    interpolation evaluates the function *)
Theorem C38_nodal_partial : forall s i x nodes coord, (match s with P1 | P2 | B2 => True | P3 => i <> 17%nat /\ i <> 19%nat | _ => False end) -> (i < nfa s)%nat -> nodes_of x nodes -> (3 <= length coord)%nat ->
  exists a b c, dof_coord s i nodes coord = Some (a :: b :: c :: skipn 3 coord) /\
    forall Q F fusion ud, has_dof fusion i ud -> exists ud', interpolate s Q (fun k => vec_of (x k)) F fusion i ud = Some ud' /\ entered fusion i (fun r => F (a, b, c) r) ud ud'.
Proof.
  intros s i x nodes coord Hs Hi Hn HL. do 3 eexists. split; [now apply (coord_ok s i x)|]. intros Q F fusion ud Hd. rewrite node_interpolate by (assumption || (destruct s; try contradiction; reflexivity)).
  now apply put_ok.
Qed.
Print Assumptions C38_nodal_partial.
(** Dofs 17 and 19 of P3: on every non-degenerate element the reported point is on another face *)
Theorem C38_p3_refuted : forall i x nodes coord Q, (i = 17 \/ i = 19)%nat -> nondegenerate x -> nodes_of x nodes -> (3 <= length coord)%nat ->
  exists a b c F ud' v, dof_coord P3 i nodes coord = Some (a :: b :: c :: skipn 3 coord) /\
    interpolate P3 Q (fun k => vec_of (x k)) F 1 i [repeat 0 20] = Some ud' /\ entered 1 i (fun _ => v) [repeat 0 20] ud' /\ v <> F (a, b, c) 0%nat.
Proof.
  intros i x nodes coord Q Hi Hx Hn HL. set (w := fun k : nat => if (i =? 17)%nat then (if (k =? 2)%nat then 0 else / 3) else (if (k =? 0)%nat then 0 else / 3)).
  assert (Hw : Rsum 4 w = 1) by (unfold w; destruct Hi as [-> | ->]; cbn; lra).
  assert (Hd : has_dof 1 i [repeat 0 20]) by (intros r Hr; assert (r = 0)%nat as -> by lia; eexists; split; [reflexivity|]; rewrite repeat_length; lia).
  destruct (put_ok 1 i (fun r => lam x 0 (of_vec (vec_of (comb x (node P3 i))))) [repeat 0 20] Hd) as (ud' & E & H).
  exists (comb x w 0%nat), (comb x w 1%nat), (comb x w 2%nat), (fun X _ => lam x 0 (of_vec X)), ud', (lam x 0 (of_vec (vec_of (comb x (node P3 i))))). split; [|split; [|split; [exact H|]]].
  - unfold dof_coord. cbv zeta. destruct Hi as [-> | ->]; cbn [Nat.ltb Nat.leb Nat.eqb Nat.sub Nat.add b2n];
    apply put3'; try exact HL; intros k c Hk; rewrite ?(Hn 0%nat k), ?(Hn 1%nat k), ?(Hn 2%nat k), ?(Hn 3%nat k) by lia; cbn [obind]; f_equal; unfold comb, w; cbn; field.
  - rewrite node_interpolate by (reflexivity || (cbn; lia)). exact E.
  - change (comb x w 0%nat, comb x w 1%nat, comb x w 2%nat) with (vec_of (comb x w)). rewrite !(lam_ext x 0 (of_vec (vec_of _)) (comb x _)) by (intros; now apply of_vec_of).
    unfold comb. rewrite !lam_bary by first [lia|assumption|apply (node_sum P3); [reflexivity|cbn; lia]]. unfold w, node, unitw, delta. destruct Hi as [-> | ->]; cbn; lra.
Qed.
Print Assumptions C38_p3_refuted.
(** CR1: the coordinate reported for dof i is the centre of another face than the one over which
    interpolation takes the mean: the mean of lambda_(i+3) is 0, its value there is 1/3 *)
Theorem C38_cr1_refuted : forall i x nodes coord Q, (i < 4)%nat -> nondegenerate x -> nodes_of x nodes -> (3 <= length coord)%nat -> on_simplex 2 (q_tri Q) ->
  exists a b c F ud', dof_coord CR1 i nodes coord = Some (a :: b :: c :: skipn 3 coord) /\
    interpolate CR1 Q (fun k => vec_of (x k)) F 1 i [repeat 0 4] = Some ud' /\ entered 1 i (fun _ => 0) [repeat 0 4] ud' /\ F (a, b, c) 0%nat = 1 / 3.
Proof.
  intros i x nodes coord Q Hi Hx Hn HL HQ. set (w := fun k : nat => if (k =? i)%nat then 0 else / 3). assert (Hw : Rsum 4 w = 1) by (unfold w; four i; cbn; lra).
  assert (HC : forall k c, (k < 4)%nat -> (c < 3)%nat -> rd nodes (c + 3 * k) = Some (x k c)) by (intros k c Hk Hc; rewrite Nat.add_comm; now apply Hn).
  assert (Hd : has_dof 1 i [repeat 0 4]) by (intros r Hr; assert (r = 0)%nat as -> by lia; eexists; split; [reflexivity|]; rewrite repeat_length; lia).
  exists (comb x w 0%nat), (comb x w 1%nat), (comb x w 2%nat), (fun X _ => lam x (opp i) (of_vec X)).
  assert (I : exists ud', interpolate CR1 Q (fun k => vec_of (x k)) (fun X _ => lam x (opp i) (of_vec X)) 1 i [repeat 0 4] = Some ud' /\ entered 1 i (fun _ => 0) [repeat 0 4] ud').
  { cbn [interpolate]. rewrite guard_true by (apply Nat.ltb_lt; lia). quad (fun (p : list R) (r : nat) => 0) ud' E H; [exact Hd| |exists ud'; split; [exact E|]].
    - intros p w' Hin. destruct (HQ p w' Hin) as [Lp Sp]. rewrite (face_point x) by assumption. cbn [obind]. f_equal. apply FunctionalExtensionality.functional_extensionality. intros r. f_equal.
      rewrite (lam_ext x (opp i) (of_vec (vec_of _)) (comb x (facew i p))) by (intros; now apply of_vec_of). unfold comb. rewrite lam_bary by (try assumption; try (now apply facew_sum); unfold opp; apply Nat.mod_upper_bound; lia).
      clear - Hi. four i; unfold facew, delta, opp; cbn -[nth]; ring.
    - eapply entered_ext; [exact H|]. intros r Hr. cbv beta. rewrite (qsum_const (q_tri Q) 0). ring. }
  destruct I as (ud' & E & H). exists ud'. split; [|split; [exact E|split; [exact H|]]].
  - unfold dof_coord. apply put3'; [exact HL|]. intros k c Hk. rewrite !HC by (first [apply Nat.mod_upper_bound; lia|assumption]). cbn [obind]. f_equal. unfold comb, w. clear - Hi. four i; cbn; field.
  - change (comb x w 0%nat, comb x w 1%nat, comb x w 2%nat) with (vec_of (comb x w)). rewrite (lam_ext x (opp i) (of_vec (vec_of _)) (comb x w)) by (intros; now apply of_vec_of). unfold comb.
    rewrite lam_bary by (try assumption; unfold opp; apply Nat.mod_upper_bound; lia). unfold w. clear - Hi. four i; unfold opp; cbn; field.
Qed.
Print Assumptions C38_cr1_refuted.
(** P0: the sum of the vertices is added to what the output array contains.  With zeros there the result
    is the centre, the point whose value is the mean of every affine function *)
Theorem C38_p0_partial : forall x nodes coord, nodes_of x nodes -> (3 <= length coord)%nat ->
  exists a b c, dof_coord P0 0 nodes coord = Some (a :: b :: c :: skipn 3 coord) /\
    (forall k, (k < 3)%nat -> nth k [a; b; c] 0 = nth k coord 0 / 4 + comb x (fun _ => / 4) k) /\
    (nth 0 coord 0 = 0 -> nth 1 coord 0 = 0 -> nth 2 coord 0 = 0 -> forall Q (t : nat -> R) t0 i, quads_ok 0 Q ->
       dof_value P0 Q x (fun X _ => t0 + Rsum 3 (fun k => t k * of_vec X k)) 0 i = t0 + Rsum 3 (fun k => t k * nth k [a; b; c] 0)).
Proof.
  intros x nodes coord Hn HL. destruct coord as [|c0 [|c1 [|c2 r]]]; cbn [length] in HL; try (exfalso; lia).
  exists ((c0 + x 0%nat 0%nat + x 1%nat 0%nat + x 2%nat 0%nat + x 3%nat 0%nat) / 4), ((c1 + x 0%nat 1%nat + x 1%nat 1%nat + x 2%nat 1%nat + x 3%nat 1%nat) / 4), ((c2 + x 0%nat 2%nat + x 1%nat 2%nat + x 2%nat 2%nat + x 3%nat 2%nat) / 4). split; [|split].
  - unfold dof_coord. rewrite guard_true by reflexivity. unfold for_. cbn [for_range].
    rewrite (Hn 0%nat 0%nat), (Hn 0%nat 1%nat), (Hn 0%nat 2%nat), (Hn 1%nat 0%nat), (Hn 1%nat 1%nat), (Hn 1%nat 2%nat), (Hn 2%nat 0%nat), (Hn 2%nat 1%nat), (Hn 2%nat 2%nat), (Hn 3%nat 0%nat), (Hn 3%nat 1%nat), (Hn 3%nat 2%nat) by lia. reflexivity.
  - intros k Hk. three k; cbn [nth]; unfold comb; cbn [Rsum]; field.
  - intros Z0 Z1 Z2 Q t t0 i (_ & _ & (Hs & H1 & Hm)). cbn [nth] in Z0, Z1, Z2. subst c0 c1 c2. cbn [dof_value].
    assert (N : forall a b, near 0 a b -> a = b) by (intros a b H; unfold near in H; pose proof (Rabs_pos (a - b)); destruct (Req_dec (a - b) 0) as [|Hc]; [lra|]; apply Rabs_pos_lt in Hc; lra).
    apply N in H1. assert (M : forall k, (k <= 3)%nat -> qsum (q_tet Q) (fun p => nth k p 0) = / 4) by (intros k Hk; rewrite (N _ _ (Hm k Hk)); f_equal; cbn; ring).
    rewrite (qsum_ext _ _ (fun p => t0 * 1 + 1 * Rsum 4 (fun k => Rsum 3 (fun c => t c * x k c) * nth k p 0))).
    + rewrite (qsum_lin (q_tet Q) (fun _ => 1)), H1, (qsum_Rsum (q_tet Q) 4 (fun k p => Rsum 3 (fun c => t c * x k c) * nth k p 0)).
      assert (SC : forall a k, (k <= 3)%nat -> qsum (q_tet Q) (fun p => a * nth k p 0) = a * / 4).
      { intros a k Hk. rewrite <- (M k Hk). transitivity (a * qsum (q_tet Q) (fun p => nth k p 0) + 0 * qsum (q_tet Q) (fun _ => 1)); [|ring]. rewrite <- qsum_lin. apply qsum_ext. intros. ring. }
      rewrite (Rsum_ext 4 _ (fun k => Rsum 3 (fun c => t c * x k c) * / 4)) by (intros k Hk; apply SC; lia). cbn [Rsum nth]. field.
    + intros p w Hin. rewrite !Rsum3. rewrite !of_vec_of by lia. unfold comb. cbn [Rsum]. ring.
Qed.
Print Assumptions C38_p0_partial.
Theorem C38_p0_refuted : exists nodes coord c', nodes_of ref_tet nodes /\ length coord = 3%nat /\ dof_coord P0 0 nodes coord = Some c' /\ nth 0 c' 0 = 1 /\ comb ref_tet (fun _ => / 4) 0%nat = / 4.
Proof.
  assert (Hn : nodes_of ref_tet [0; 0; 0; 1; 0; 0; 0; 1; 0; 0; 0; 1]) by (intros k c Hk Hc; four k; three c; reflexivity).
  destruct (C38_p0_partial ref_tet _ [3; 0; 0] Hn (le_n 3)) as (a & b & c & E & H & _). exists [0; 0; 0; 1; 0; 0; 0; 1; 0; 0; 0; 1], [3; 0; 0]. eexists. split; [exact Hn|]. split; [reflexivity|]. split; [exact E|].
  specialize (H 0%nat ltac:(lia)). cbn [nth] in H |- *. assert (C : comb ref_tet (fun _ => / 4) 0%nat = / 4) by (unfold comb, ref_tet, delta; cbn; field). split; [rewrite H, C; field|exact C].
Qed.
Print Assumptions C38_p0_refuted.
(** The other spaces have no coordinates: the call always ends with an exception *)
Theorem C38_unimplemented : forall s i nodes coord, s = B4 \/ s = RT0 \/ s = ND0 -> dof_coord s i nodes coord = None.
Proof. intros s i nodes coord [->|[->| ->]]; reflexivity. Qed.
Print Assumptions C38_unimplemented.

(** *** C39 *)
Definition lambdas (x : tetra) (y : nat -> R) (m : mat) : Prop := mr m = 4%nat /\ mc m = 1%nat /\ forall k, (k < 4)%nat -> me m k 0%nat = lam x k y.
Lemma sym_ok : forall s x y lmb g, scalar s = true -> lambdas x y lmb ->
  exists l, basis s lmb g = Some l /\ length l = nfa s /\
    forall i, (i < nfa s)%nat -> exists v, nth_error l i = Some (scal v) /\
      v = shape s x (match s with P3 => if (i =? 17)%nat then 19%nat else if (i =? 19)%nat then 17%nat else i | _ => i end) 0 y.
Proof.
  intros s x y lmb g Hs (Hr & Hc & He).
  assert (HL : forall k, (k < 4)%nat -> ent lmb k 0 = Some (lam x k y)).
  { intros k Hk. unfold ent. rewrite Hr, Hc. assert (B : (k <? 4)%nat = true) by (now apply Nat.ltb_lt). rewrite B. cbn [Nat.ltb Nat.leb andb]. f_equal. now apply He. }
  destruct s; try discriminate Hs; unfold basis, sym_p2edges; cbv zeta; cbn [map seq flat_map app pairs4 triples4 fst snd Nat.eqb Nat.modulo Nat.divmod Nat.add Nat.sub];
    rewrite ?(HL 0%nat), ?(HL 1%nat), ?(HL 2%nat), ?(HL 3%nat) by lia; cbn [collect obind];
    (eexists; split; [reflexivity|]; split; [reflexivity|]; cbn [nfa]; intros i Hi; upto i; cbn [nth_error]; eexists; (split; [reflexivity|]); unfold shape, edge_of, opp; cbn -[Rdiv lam]; field).
Qed.
(** The symbolic basis, with the barycentric coordinates of a point as its argument, has the values of the
    numeric table of IDEN at that point; dofs 17 and 19 of P3 and the vector spaces are excluded *)
Theorem C39_symbolic_partial : forall s f q x L g U E gl, scalar s = true -> (1 <= f)%nat -> (1 <= q)%nat -> prepared f q x L g -> (usize s IDEN f q <= length U)%nat ->
  exists U' E', apply_op s IDEN f q g U E = Some (U', E') /\
    forall r n lmb, (r < f)%nat -> (n < q)%nat -> lambdas (x r) (point x L r n) lmb ->
      exists l, basis s lmb gl = Some l /\ length l = nfa s /\
        forall i, (i < nfa s)%nat -> (s = P3 -> i <> 17%nat /\ i <> 19%nat) ->
          exists m, nth_error l i = Some m /\ mr m = 1%nat /\ mc m = 1%nat /\ rd U' (cell 1 q (nfa s) r n 0 i) = Some (me m 0%nat 0%nat).
Proof.
  intros s f q x L g U E gl Hs Hf Hq Hp HU. destruct (apply_ok s IDEN f q x L g U E eq_refl Hf Hq Hp HU) as (U' & E' & Er & T & _); [cbn; lia|]. exists U', E'. split; [exact Er|].
  intros r n lmb Hr Hn Hl. destruct (sym_ok s (x r) (point x L r n) lmb gl Hs Hl) as (l & El & Ll & H). exists l. split; [exact El|]. split; [exact Ll|]. intros i Hi Hx.
  destruct (H i Hi) as (v & Ev & Hv). exists (scal v). split; [exact Ev|]. split; [reflexivity|]. split; [reflexivity|]. unfold odims in T. cbn [dim_op] in T. replace (fdim s) with 1%nat in T by (destruct s; try discriminate Hs; reflexivity).
  rewrite T by (assumption || lia). cbn [op_of scal me]. f_equal. rewrite Hv. unfold uval. destruct s; try reflexivity. destruct (Hx eq_refl) as [N1 N2]. apply Nat.eqb_neq in N1, N2. now rewrite N1, N2.
Qed.
Print Assumptions C39_symbolic_partial.
(** P3: the symbolic functions 17 and 19 are the numeric functions 19 and 17 *)
Theorem C39_p3_refuted : forall x lmb gl i, nondegenerate x -> (i = 17 \/ i = 19)%nat ->
  (forall y, lambdas x y (lmb y)) -> exists y l v, basis P3 (lmb y) gl = Some l /\ nth_error l i = Some (scal v) /\ v = 0 /\ shape P3 x i 0 y = 1.
Proof.
  intros x lmb gl i Hx Hi Hl. set (y := comb x (node P3 i)). destruct (sym_ok P3 x y (lmb y) gl eq_refl (Hl y)) as (l & El & Ll & H). exists y, l.
  destruct (H i ltac:(cbn; lia)) as (v & Ev & Hv). exists v. split; [exact El|]. split; [exact Ev|].
  assert (SV : forall j c, (j < 20)%nat -> shape P3 x j c y = delta i j).
  { intros j c Hj. rewrite <- (node_dual P3 i j eq_refl) by (cbn; lia). rewrite (shape_sval P3 x j c y eq_refl). apply sval_ext; [exact Hj|]. intros k Hk. unfold y, comb. apply lam_bary; auto. apply (node_sum P3); [reflexivity|cbn; lia]. }
  split.
  - rewrite Hv. destruct Hi as [-> | ->]; cbn [Nat.eqb]; rewrite SV by lia; reflexivity.
  - rewrite SV by lia. unfold delta. now rewrite Nat.eqb_refl.
Qed.
Print Assumptions C39_p3_refuted.
(** The symbolic bases of RT0 and ND0 can never be formed: the determinant is asked of a matrix of one
    column, an error for every argument *)
Theorem C39_vector_refuted : forall s lmb gl, s = RT0 \/ s = ND0 -> basis s lmb gl = None.
Proof.
  intros s lmb gl Hs.
  assert (D : (do c0 <- m_col gl 0; do c1 <- m_col gl 1; do c2 <- m_col gl 2; do s01 <- vcat2 c0 c1; do s <- vcat2 s01 c2; det3x3 s) = None).
  { unfold m_col. destruct (0 <? mc gl)%nat; [|reflexivity]. destruct (1 <? mc gl)%nat; [|reflexivity]. destruct (2 <? mc gl)%nat; [|reflexivity]. cbn [obind]. unfold vcat2. cbn [mc mr Nat.eqb obind]. unfold det3x3. cbn [mc mr Nat.eqb].
    now rewrite Bool.andb_false_r. }
  assert (O : forall A B C (a : option A) (f : A -> option B) (g : B -> option C), (do y <- (do z <- a; f z); g y) = do z <- a; do y <- f z; g y) by (intros A B C a f g; now destruct a).
  assert (G : forall T (k : R -> option T), (do c0 <- m_col gl 0; do c1 <- m_col gl 1; do c2 <- m_col gl 2; do s01 <- vcat2 c0 c1; do s <- vcat2 s01 c2; do d <- det3x3 s; k d) = None).
  { intros T k. transitivity (do d <- (do c0 <- m_col gl 0; do c1 <- m_col gl 1; do c2 <- m_col gl 2; do s01 <- vcat2 c0 c1; do s <- vcat2 s01 c2; det3x3 s); k d); [|now rewrite D].
    destruct (m_col gl 0) as [c0|]; [|reflexivity]. destruct (m_col gl 1) as [c1|]; [|reflexivity]. destruct (m_col gl 2) as [c2|]; [|reflexivity]. cbn [obind]. destruct (vcat2 c0 c1) as [s01|]; [|reflexivity]. cbn [obind]. now destruct (vcat2 s01 c2). }
  destruct Hs as [-> | ->]; unfold basis; cbv zeta; cbn [seq map collect]; rewrite G; reflexivity.
Qed.
Print Assumptions C39_vector_refuted.
Example C39_ex : lambdas ref_tet (fun _ => / 4) (Mat 4 1 (fun _ _ => / 4)).
Proof. split; [reflexivity|]. split; [reflexivity|]. intros k Hk. unfold lam. four k; unfold det3, edge_matrix, repl, ref_tet, delta; cbn; field. Qed.
