(** Properties C01-C05 of the dof maps. *)
From Verif Require Import Prelude DofModel DofSpec DofProofs DofProofs2.

(** Example maps used for the non-vacuity checks. *)
Definition P1map := unite_of_sym [1;0;0;0;0;0;0;0;0;0;0;0;0;0;0;0].
Definition P2map := unite_of_sym [1;1;0;0;0;0;0;0;0;0;0;0;0;0;0;0].
Definition P3map := unite_of_sym [1;0;1;0;0;1;0;0;0;0;0;0;0;0;0;0].
Definition P0map := unite_of_sym [0;0;0;0;0;0;0;0;0;0;0;1;0;0;0;0].
Definition stokes := Complex [Vector 3 P2map; P1map].
Example stokes_wf : wf stokes.
Proof. cbn. repeat split. Qed.

(** ** C01: dof counts *)
(** Composition: the counts of a composition / repetition are the sums over the
    parts; the total is the sum over entity types of (number of entities) times
    (dofs per entity). *)
Theorem C01_counts_composition : forall l t, wf (Complex l) -> t < 6 ->
  num_dof (Complex l) t = list_sum (map (fun b => num_dof b t) l) /\
  num_dof_tet_t (Complex l) t = list_sum (map (fun b => num_dof_tet_t b t) l) /\
  num_dof_tet (Complex l) = list_sum (map num_dof_tet l).
Proof.
  intros l t Hwf Ht. split; [|split].
  - cbn [num_dof]. replace (length l) with (length (map (fun b => num_dof b t) l)) by apply map_length. apply nth_prefix_total.
  - cbn [num_dof_tet_t]. replace (length l) with (length (map (fun b => num_dof_tet_t b t) l)) by apply map_length. apply nth_prefix_total.
  - now apply num_dof_tet_complex.
Qed.
Print Assumptions C01_counts_composition.
Theorem C01_counts_repetition : forall k b t,
  num_dof (Vector k b) t = k * num_dof b t /\ num_dof_tet_t (Vector k b) t = k * num_dof_tet_t b t /\
  num_dof_tet (Vector k b) = k * num_dof_tet b.
Proof. intros; repeat split. Qed.
Print Assumptions C01_counts_repetition.
Theorem C01_counts_by_entity : forall d t, wf d -> t < 6 ->
  num_dof_tet_t d t = tet_elems t * num_dof d t /\ num_dof_tet_mask d (2 ^ t) = tet_elems t * num_dof d t.
Proof.
  intros d t Hwf Ht. rewrite num_dof_tet_t_cnt, num_dof_tet_mask_one, num_dof_cnt by assumption. now split.
Qed.
Print Assumptions C01_counts_by_entity.
Theorem C01_counts_total : forall d, wf d ->
  num_dof_tet d = list_sum (map (fun t => tet_elems t * num_dof d t) (seq 0 6)).
Proof.
  intros d Hwf. rewrite num_dof_tet_cnt by assumption. apply list_sum_map_ext_in. intros t Ht.
  apply in_seq in Ht. rewrite num_dof_cnt; [reflexivity|assumption|lia].
Qed.
Print Assumptions C01_counts_total.
(** For a union of types given as one mask the count is the sum over the
    selected types, for maps with no ComplexDofMap inside ... *)
Theorem C01_counts_union_partial : forall d m, wf d -> complex_free d ->
  num_dof_tet_mask d m = list_sum (map (fun t => if Nat.testbit m t then tet_elems t * num_dof d t else 0) (seq 0 6)).
Proof.
  intros d m Hwf Hc. rewrite num_dof_tet_mask_ok by assumption. apply list_sum_map_ext_in. intros t Ht.
  apply in_seq in Ht. rewrite num_dof_cnt; [reflexivity|assumption|lia].
Qed.
Print Assumptions C01_counts_union_partial.
(** ... and not for a ComplexDofMap: asked for EDGE = EDGE_UNORIENT|EDGE_ORIENT
    (mask 6), a composition of one P2 space answers 0 instead of 6. *)
Theorem C01_counts_union_refuted : exists d m, wf d /\ m = 6 /\
  num_dof_tet_mask d m <> list_sum (map (fun t => if Nat.testbit m t then tet_elems t * num_dof d t else 0) (seq 0 6)).
Proof. exists (Complex [P2map]), 6. repeat split. vm_compute. discriminate. Qed.
Print Assumptions C01_counts_union_refuted.
Example C01_ex : wf stokes /\ num_dof_tet stokes = 34 /\ num_dof stokes 0 = 4 /\ num_dof_tet_t stokes 1 = 18 /\ complex_free P3map.
Proof. split; [exact stokes_wf|]. vm_compute. auto. Qed.

(** ** C02: every index has a locus, different indices have different loci,
    every possible locus is hit; the index runs through the layout in order. *)
Theorem C02_local_order_spec : forall d i, wf d ->
  local_order d i = option_map (fun x => LO i (d_type x) (d_elem x) (d_pos x) (d_sym x)) (nth_error (layout d) i).
Proof. intros d i H. exact (local_order_layout d H i). Qed.
Print Assumptions C02_local_order_spec.
Theorem C02_valid : forall d i, wf d -> i < num_dof_tet d ->
  exists lo, local_order d i = Some lo /\ lo_gid lo = i /\ lo_type lo < 6 /\
             lo_elem lo < tet_elems (lo_type lo) /\ lo_leid lo < num_dof d (lo_type lo).
Proof.
  intros d i Hwf Hi. rewrite local_order_layout by assumption. rewrite length_layout_num in Hi by assumption.
  destruct (nth_error (layout d) i) as [x|] eqn:E; [|apply nth_error_None in E; lia].
  exists (lo_of i x). split; [reflexivity|]. apply nth_error_In, (in_map locus), in_loci in E.
  destruct E as (H1 & H2 & H3). repeat split; [assumption..|]. cbn. now rewrite num_dof_cnt.
Qed.
Print Assumptions C02_valid.
Theorem C02_injective : forall d i j lo lo', wf d ->
  local_order d i = Some lo -> local_order d j = Some lo' ->
  lo_type lo = lo_type lo' -> lo_elem lo = lo_elem lo' -> lo_leid lo = lo_leid lo' -> i = j.
Proof.
  intros d i j lo lo' Hwf E1 E2 H1 H2 H3. rewrite local_order_layout in E1, E2 by assumption.
  destruct (nth_error (layout d) i) as [x|] eqn:Ex; [|discriminate].
  destruct (nth_error (layout d) j) as [y|] eqn:Ey; [|discriminate].
  injection E1 as <-. injection E2 as <-. cbn in H1, H2, H3.
  assert (Hi : i < length (loci d)) by (unfold loci; rewrite map_length; apply nth_error_Some; congruence).
  apply (proj1 (NoDup_nth_error (loci d)) (NoDup_loci d) i j Hi).
  unfold loci. rewrite !nth_error_map, Ex, Ey. cbn. unfold locus. congruence.
Qed.
Print Assumptions C02_injective.
Theorem C02_surjective : forall d t e p, wf d -> t < 6 -> e < tet_elems t -> p < num_dof d t ->
  exists i lo, i < num_dof_tet d /\ local_order d i = Some lo /\ lo_type lo = t /\ lo_elem lo = e /\ lo_leid lo = p.
Proof.
  intros d t e p Hwf Ht He Hp. rewrite num_dof_cnt in Hp by assumption.
  assert (Hin : In (t, e, p) (loci d)) by (apply in_loci; auto).
  apply In_nth_error in Hin. destruct Hin as (i & E). unfold loci in E. rewrite nth_error_map in E.
  destruct (nth_error (layout d) i) as [x|] eqn:Ex; [|discriminate]. injection E as E1 E2 E3.
  exists i, (lo_of i x). rewrite length_layout_num by assumption. split; [apply nth_error_Some; congruence|].
  rewrite local_order_layout, Ex by assumption. cbn. auto.
Qed.
Print Assumptions C02_surjective.
Theorem C02_type_on_tet : forall d i, wf d -> i < num_dof_tet d ->
  type_on_tet d i = option_map lo_type (local_order d i).
Proof.
  intros d i Hwf Hi. rewrite type_on_tet_layout, local_order_layout by assumption.
  now destruct (nth_error (layout d) i).
Qed.
Print Assumptions C02_type_on_tet.
Example C02_ex : local_order stokes 15 = Some (LO 15 1 1 1 (Some (0, 0))) /\ local_order stokes 31 = Some (LO 31 0 1 3 (Some (0, 0))) /\
  local_order P3map 9 = Some (LO 9 1 2 1 (Some (1, 1))) /\ local_order stokes 34 = None.
Proof. vm_compute. auto. Qed.

(** ** C03: TetDofID / TetDofIDExt invert LocalOrderOnTet *)
(** Holds, with or without asserts, for every map in which repetitions carry
    only cell dofs; an invalid locus is rejected when asserts are on. *)
Theorem C03_lookup_inverse_partial : forall chk d i lo, wf d -> lookup_safe d ->
  local_order d i = Some lo ->
  tet_dof_id chk d (lo_type lo) (lo_elem lo) (lo_leid lo) = Some (i, lo_sym lo).
Proof.
  intros chk d i lo Hwf Hs E. rewrite local_order_layout in E by assumption.
  destruct (nth_error (layout d) i) as [x|] eqn:Ex; [|discriminate]. injection E as <-. cbn.
  assert (Hin := nth_error_In _ _ Ex). apply (in_map locus), in_loci in Hin.
  destruct (tet_dof_id_layout chk d Hwf Hs _ _ _ Hin) as (j & s & Ej & Hj). rewrite Ej.
  assert (j = i).
  { assert (Hji : j < length (loci d)) by (unfold loci; rewrite map_length; apply nth_error_Some; congruence).
    apply (proj1 (NoDup_nth_error (loci d)) (NoDup_loci d) j i Hji).
    unfold loci. rewrite !nth_error_map, Ex, Hj. reflexivity. }
  subst j. rewrite Ex in Hj. injection Hj as Hj. rewrite Hj. reflexivity.
Qed.
Print Assumptions C03_lookup_inverse_partial.
Theorem C03_lookup_rejects_invalid : forall d t e p, wf d ->
  ~ (t < 6 /\ e < tet_elems t /\ p < num_dof d t) -> tet_dof_id true d t e p = None.
Proof.
  intros d t e p Hwf H. apply tet_dof_id_invalid; [assumption|]. intros (H1 & H2 & H3). apply H.
  rewrite num_dof_cnt by assumption. auto.
Qed.
Print Assumptions C03_lookup_rejects_invalid.
(** The full claim is false: for a 3-vector of P1 the node dof of the second
    component is a valid locus returned by LocalOrderOnTet(4), yet TetDofID
    aborts with asserts on and returns another dof's index with asserts off. *)
Theorem C03_lookup_inverse_refuted : exists d i lo, wf d /\ local_order d i = Some lo /\
  tet_dof_id true d (lo_type lo) (lo_elem lo) (lo_leid lo) = None /\
  exists j s, tet_dof_id false d (lo_type lo) (lo_elem lo) (lo_leid lo) = Some (j, s) /\ j <> i.
Proof.
  exists (Vector 3 P1map), 4. eexists. split; [cbn; auto|]. split; [vm_compute; reflexivity|].
  split; [vm_compute; reflexivity|]. do 2 eexists. split; [vm_compute; reflexivity|]. vm_compute. discriminate.
Qed.
Print Assumptions C03_lookup_inverse_refuted.
(** With enough copies even the assert-checked lookup silently answers with the
    index of another dof. *)
Theorem C03_lookup_wrong_value_refuted : exists d i lo j s, wf d /\ local_order d i = Some lo /\
  tet_dof_id true d (lo_type lo) (lo_elem lo) (lo_leid lo) = Some (j, s) /\ j <> i.
Proof.
  exists (Vector 5 P1map), 16. do 3 eexists. split; [cbn; auto|]. split; [vm_compute; reflexivity|].
  split; [vm_compute; reflexivity|]. vm_compute. discriminate.
Qed.
Print Assumptions C03_lookup_wrong_value_refuted.
Example C03_ex : let d := Complex [P3map; Vector 4 P0map; P2map] in
  wf d /\ lookup_safe d /\ local_order d 21 = Some (LO 21 5 0 1 (Some (0, 0))) /\ tet_dof_id true d 5 0 1 = Some (21, Some (0, 0)).
Proof.
  cbn zeta. split; [cbn; repeat split|]. split; [|vm_compute; auto].
  repeat split; right; intros t Ht; do 5 (destruct t as [|t]; [reflexivity|]); lia.
Qed.

(** ** C04: nested component views *)
Theorem C04_view_is_window : forall d path v i, wf d -> nested_view d path = Some v ->
  i < num_dof_tet (v_base v) ->
  view_local_order v i = local_order d (v_shift_tet v + i) /\ v_shift_tet v + i < num_dof_tet d.
Proof.
  intros d path v i Hwf E Hi. split; [symmetry; now apply view_local_order_spec with path|].
  destruct (nested_view_ok d path v Hwf E) as (_ & _ & H & _). lia.
Qed.
Print Assumptions C04_view_is_window.
(** An index belongs to the view exactly when it lies in the window. *)
Theorem C04_view_membership : forall v i,
  view_valid_output v i = true <-> exists j, j < num_dof_tet (v_base v) /\ i = v_shift_tet v + j.
Proof.
  intros v i. unfold view_valid_output. rewrite andb_true_iff, Nat.leb_le, Nat.ltb_lt. split.
  - intros [H1 H2]. exists (i - v_shift_tet v). lia.
  - intros (j & H1 & ->). lia.
Qed.
Print Assumptions C04_view_membership.
(** First-level components cover all indices exactly once, and ComponentID names
    the one an index belongs to. *)
Theorem C04_components_cover : forall d i, wf d -> is_vector d = true \/ is_complex d = true -> i < num_dof_tet d ->
  exists c j v, component_tet d i = Some (c, j) /\ nested_view d [c] = Some v /\
    j < num_dof_tet (v_base v) /\ i = v_shift_tet v + j.
Proof.
  intros d i Hwf Hk Hi. assert (H := component_tet_ok d i Hwf Hi).
  destruct d; [destruct Hk; discriminate|exact H|exact H].
Qed.
Print Assumptions C04_components_cover.
Theorem C04_components_disjoint : forall d c c' v v' i, wf d ->
  nested_view d [c] = Some v -> nested_view d [c'] = Some v' ->
  view_valid_output v i = true -> view_valid_output v' i = true -> c = c'.
Proof. exact component_unique. Qed.
Print Assumptions C04_components_disjoint.
Example C04_ex : exists v, nested_view (Complex [P1map; stokes]) [1; 0; 2] = Some v /\ v_base v = P2map /\
  v_shift_tet v = 24 /\ view_local_order v 5 = Some (LO 29 1 1 2 (Some (0, 0))).
Proof. eexists. split; [vm_compute; reflexivity|]. vm_compute. auto. Qed.

(** ** C05: algebra of dof maps.  [same_dofs a b]: the same dofs, in the same
    order, on the same entities at the same positions. *)
Theorem C05_product : forall a b, wf a -> wf b -> no_empty a -> no_empty b ->
  exists m, dmap_mul a b = Some m /\ wf m /\ same_dofs m (Complex [a; b]).
Proof. intros a b H1 H2 H3 H4. destruct (dmap_mul_ok a b H1 H2 H3 H4) as (m & E & Hs & Hw). eauto. Qed.
Print Assumptions C05_product.
Theorem C05_product_whenever_defined : forall a b m, wf a -> wf b -> dmap_mul a b = Some m -> same_dofs m (Complex [a; b]).
Proof. intros a b m Ha Hb E. exact (proj1 (dmul_sound _ a b m Ha Hb E)). Qed.
Print Assumptions C05_product_whenever_defined.
Theorem C05_power : forall d k, same_dofs (dmap_xor d k) (dmap_pow d k) /\ same_dofs (dmap_pow d k) (Complex (repeat d k)).
Proof. intros. split; [apply dmap_xor_ok|apply sd_vector]. Qed.
Print Assumptions C05_power.
Theorem C05_merge_with_simplifications : forall l m, Forall wf l -> dmap_merge_simpl l = Some m ->
  same_dofs m (dmap_merge l).
Proof. intros l m H E. exact (proj1 (merge_simpl_sound l m H E)). Qed.
Print Assumptions C05_merge_with_simplifications.
Theorem C05_make_compressed : forall l, Forall wf l -> same_dofs (make_compressed l) (Complex l).
Proof. exact make_compressed_ok. Qed.
Print Assumptions C05_make_compressed.
Theorem C05_push_back : forall l x m, push_back (Complex l) x = Some m -> same_dofs m (Complex [Complex l; x]).
Proof. intros l x m E. injection E as <-. apply sd_push. Qed.
Print Assumptions C05_push_back.
(** What same_dofs means for the API: index by index the same locus. *)
Theorem C05_same_dofs_observable : forall a b, wf a -> wf b -> same_dofs a b ->
  num_dof_tet a = num_dof_tet b /\ (forall t, t < 6 -> num_dof a t = num_dof b t) /\
  forall i, option_map (fun lo => (lo_gid lo, lo_type lo, lo_elem lo, lo_leid lo)) (local_order a i) =
            option_map (fun lo => (lo_gid lo, lo_type lo, lo_elem lo, lo_leid lo)) (local_order b i).
Proof.
  intros a b Ha Hb [H1 H2]. split; [|split].
  - rewrite !length_layout_num by assumption. unfold loci in H2. apply (f_equal (@length _)) in H2.
    now rewrite !map_length in H2.
  - intros t Ht. now rewrite !num_dof_cnt, H1 by assumption.
  - intros i. rewrite !local_order_layout by assumption. unfold loci in H2.
    assert (E : nth_error (map locus (layout a)) i = nth_error (map locus (layout b)) i) by now rewrite H2.
    rewrite !nth_error_map in E. destruct (nth_error (layout a) i), (nth_error (layout b) i); cbn in *; try discriminate; [|reflexivity].
    unfold locus in E. injection E as E1 E2 E3. now rewrite E1, E2, E3.
Qed.
Print Assumptions C05_same_dofs_observable.
(** Symmetry labels are not preserved: equality ignores them, so a product of a
    map with three fixed face dofs and a map with one orbit of three is a
    repetition of the first, and the labels of the second are lost. *)
Definition faceA := unite_of_sym [0;0;0;0;0;3;0;0;0;0;0;0;0;0;0;0].
Definition faceB := unite_of_sym [0;0;0;0;0;0;1;0;0;0;0;0;0;0;0;0].
Theorem C05_product_symmetry_refuted : exists a b m, wf a /\ wf b /\ dmap_mul a b = Some m /\ layout m <> layout (Complex [a; b]).
Proof.
  exists faceA, faceB. eexists. split; [cbn; auto|]. split; [cbn; auto|]. split; [vm_compute; reflexivity|].
  vm_compute. discriminate.
Qed.
Print Assumptions C05_product_symmetry_refuted.
(** The product with an empty composition touches back()/front() of an empty
    vector: the hypothesis [no_empty] of C05_product cannot be dropped. *)
Theorem C05_product_empty_refuted : dmap_mul (Complex []) P1map = None /\ dmap_mul P1map (Complex []) = None.
Proof. split; reflexivity. Qed.
Print Assumptions C05_product_empty_refuted.
Example C05_ex : dmap_mul (Complex [P1map; Vector 2 P2map]) (Complex [P2map; P1map]) = Some (Complex [P1map; Vector 3 P2map; P1map])
  /\ make_compressed [P1map; P2map; P2map; P2map; P1map] = Complex [P1map; Vector 3 P2map; P1map]
  /\ dmap_merge_simpl [P1map; P1map; P2map] = Some (Complex [Vector 2 P1map; P2map])
  /\ no_empty stokes.
Proof. repeat split; discriminate. Qed.
