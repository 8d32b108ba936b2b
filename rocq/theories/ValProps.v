(** C68: indices accepted as valid are exactly those of dofs; checked access. *)
From Coq Require Import NArith.
From Verif Require Import Prelude DofModel DofSpec DofProofs DofProofs2 DofProps SymModel SymSpec SymProofs3 TsModel ValModel ValSpec.

Lemma named_lt : forall d i lo, wf d -> local_order d i = Some lo -> i < num_dof_tet d /\ lo_gid lo = i.
Proof.
  intros d i lo Hwf E. rewrite C02_local_order_spec in E by assumption. destruct (nth_error (layout d) i) as [x|] eqn:Ex; [|discriminate]. injection E as <-.
  split; [|reflexivity]. rewrite length_layout_num by assumption. apply nth_error_Some. congruence.
Qed.
Lemma valid_locus_iff : forall d t e p, valid_locus d t e p = true <-> t < 6 /\ e < tet_elems t /\ p < num_dof d t.
Proof. intros d t e p. unfold valid_locus. rewrite !andb_true_iff, !Nat.ltb_lt. unfold ngeom. intuition. Qed.
(** A number is valid iff it is the number of a dof. *)
Theorem C68_tet : forall d i, wf d -> (valid_tet d i = true <-> names_dof d i).
Proof.
  intros d i Hwf. unfold valid_tet. rewrite Nat.ltb_lt. split.
  - intros Hi. destruct (C02_valid d i Hwf Hi) as (lo & E & Hg & _). now exists lo.
  - intros (lo & E & _). now apply named_lt in E.
Qed.
Print Assumptions C68_tet.
(** A place is valid iff there is a dof at it. *)
Theorem C68_locus : forall d t e p, wf d -> (valid_locus d t e p = true <-> places_dof d t e p).
Proof.
  intros d t e p Hwf. rewrite valid_locus_iff. split.
  - intros (Ht & He & Hp). destruct (C02_surjective d t e p Hwf Ht He Hp) as (i & lo & _ & E & H). exists i, lo. tauto.
  - intros (i & lo & E & <- & <- & <-). destruct (named_lt d i lo Hwf E) as [Hi _]. destruct (C02_valid d i Hwf Hi) as (lo' & E' & _ & H). rewrite E in E'. injection E' as <-. exact H.
Qed.
Print Assumptions C68_locus.
(** Every order handed out by the map is accepted; an accepted order has the number of a dof
    and the place of a dof. *)
Theorem C68_order_partial : forall d lo, wf d ->
  (forall i, local_order d i = Some lo -> valid_order d lo false = true) /\
  (valid_order d lo false = true <-> names_dof d (lo_gid lo) /\ places_dof d (lo_type lo) (lo_elem lo) (lo_leid lo)).
Proof.
  intros d lo Hwf. assert (H : valid_order d lo false = true <-> names_dof d (lo_gid lo) /\ places_dof d (lo_type lo) (lo_elem lo) (lo_leid lo)).
  { unfold valid_order. cbv zeta. rewrite andb_false_r, andb_true_iff, C68_tet, C68_locus by assumption. reflexivity. }
  split; [|exact H]. intros i E. apply H. destruct (named_lt d i lo Hwf E) as [_ Hg]. rewrite Hg. split; [now exists lo|]. now exists i, lo.
Qed.
Print Assumptions C68_order_partial.
(** But they need not belong to the same dof. *)
Theorem C68_order_refuted : exists d lo, wf d /\ valid_order d lo false = true /\ (forall i lo', local_order d i = Some lo' -> lo_gid lo' = lo_gid lo -> lo_elem lo' <> lo_elem lo).
Proof.
  exists P1map, (LO 0 0 1 0 (Some (0, 0))). assert (Hwf : wf P1map) by (cbn; auto). split; [exact Hwf|]. split; [reflexivity|]. intros i lo' E Hg. destruct (named_lt _ _ _ Hwf E) as [_ Hi]. cbn [lo_gid] in Hg. assert (Z : i = 0) by congruence. rewrite Z in E. clear Hi Z.
  vm_compute in E. injection E as <-. cbn. discriminate.
Qed.
Print Assumptions C68_order_refuted.
(** With the test of the symmetry number, no order at all is accepted. *)
Theorem C68_sym_refuted : (forall d lo, valid_order d lo true = false) /\ exists d i lo, wf d /\ labelled d /\ local_order d i = Some lo.
Proof.
  split.
  - intros d lo. unfold valid_order. cbv zeta. destruct (valid_tet d (lo_gid lo) && valid_locus d (lo_type lo) (lo_elem lo) (lo_leid lo)); [|reflexivity]. cbn [andb].
    destruct (N.eqb_spec (N.lor (sym_components d (lo_type lo)) mask_undef) 0) as [Z|Z]; [|reflexivity]. apply N.lor_eq_0_iff in Z as [_ Z]. discriminate.
  - exists P2map, 5. eexists. split; [cbn; auto|]. split; [|vm_compute; reflexivity]. intros x Hx. vm_compute in Hx. repeat (destruct Hx as [<-|Hx]; [discriminate|]). destruct Hx.
Qed.
Print Assumptions C68_sym_refuted.
(** The test that needs no map rejects orders handed out by maps (second dof of the cell) and
    accepts entities that do not exist (edge number 9). *)
Theorem C68_is_valid_refuted : (exists d i lo, wf d /\ local_order d i = Some lo /\ order_is_valid lo = false) /\
  exists lo, order_is_valid lo = true /\ tet_elems (lo_type lo) <= lo_elem lo.
Proof.
  split.
  - exists (Vector 2 P0map), 1. eexists. split; [cbn; auto|]. split; [vm_compute; reflexivity|]. reflexivity.
  - exists (LO 0 1 9 0 None). split; [reflexivity|]. cbn. lia.
Qed.
Print Assumptions C68_is_valid_refuted.
(** Checked access by number: the dof, or the exception, never anything else. *)
Theorem C68_at : forall d i, wf d ->
  (names_dof d i -> exists lo, at_tet d i = Some (Got lo) /\ local_order d i = Some lo /\ lo_gid lo = i) /\
  (~ names_dof d i -> at_tet d i = Some OutOfRange).
Proof.
  intros d i Hwf. split; intros H.
  - pose proof (proj2 (C68_tet d i Hwf) H) as Hv. destruct H as (lo & E & Hg). exists lo. unfold at_tet. rewrite Hv, E. cbn [obind]. auto.
  - unfold at_tet. destruct (valid_tet d i) eqn:Hv; [|reflexivity]. exfalso. apply H. now apply C68_tet.
Qed.
Print Assumptions C68_at.
(** Checked access by place: the exception iff there is no dof; the dof for the maps of C03
    (repetitions of cell dofs only). *)
Theorem C68_at_place_partial : forall chk d t e p, wf d ->
  (~ places_dof d t e p -> at_locus chk d t e p = Some OutOfRange) /\
  (lookup_safe d -> forall i lo, local_order d i = Some lo -> lo_type lo = t -> lo_elem lo = e -> lo_leid lo = p -> at_locus chk d t e p = Some (Got lo)).
Proof.
  intros chk d t e p Hwf. split.
  - intros H. unfold at_locus. destruct (valid_locus d t e p) eqn:Hv; [|reflexivity]. exfalso. apply H. now apply C68_locus.
  - intros Hs i lo E Ht He Hp. unfold at_locus. rewrite (proj2 (C68_locus d t e p Hwf)) by (exists i, lo; auto). subst t e p.
    rewrite (C03_lookup_inverse_partial chk d i lo Hwf Hs E). cbn [obind fst snd]. destruct (named_lt d i lo Hwf E) as [_ <-]. now destruct lo.
Qed.
Print Assumptions C68_at_place_partial.
(** Repetitions of other dofs: a valid place, answered with another dof. *)
Theorem C68_at_place_refuted : exists d i lo lo', wf d /\ local_order d i = Some lo /\
  at_locus true d (lo_type lo) (lo_elem lo) (lo_leid lo) = Some (Got lo') /\ lo_gid lo' <> i.
Proof.
  exists (Vector 5 P1map), 16. do 2 eexists. split; [cbn; auto|]. split; [vm_compute; reflexivity|]. split; [vm_compute; reflexivity|]. vm_compute. discriminate.
Qed.
Print Assumptions C68_at_place_refuted.
Example C68_ex : let d := Complex [P2map; P0map] in wf d /\ lookup_safe d /\ valid_tet d 10 = true /\ valid_tet d 11 = false /\
  at_tet d 10 = Some (Got (LO 10 5 0 0 (Some (0, 0)))) /\ at_tet d 11 = Some OutOfRange /\
  at_locus true d 1 3 0 = Some (Got (LO 7 1 3 0 (Some (0, 0)))) /\ at_locus true d 1 6 0 = Some OutOfRange.
Proof. cbn zeta. split; [cbn; repeat split|]. split; [cbn; tauto|]. vm_compute. repeat split. Qed.

(** Views: a place of the whole map is accepted iff a dof of the view lies there. *)
Lemma base_wf : forall d path v, wf d -> nested_view d path = Some v -> wf (v_base v).
Proof. intros d path v Hwf E. now destruct (nested_view_ok d path v Hwf E) as (H & _). Qed.
Theorem C68_view_place : forall d path v t e p, wf d -> nested_view d path = Some v ->
  (view_valid_place v t e p = true <->
   exists i lo, i < num_dof_tet (v_base v) /\ view_local_order v i = Some lo /\ lo_type lo = t /\ lo_elem lo = e /\ lo_leid lo = p).
Proof.
  intros d path v t e p Hwf E. pose proof (base_wf d path v Hwf E) as Hb. unfold view_valid_place. rewrite !andb_true_iff, Nat.ltb_lt, Nat.leb_le, C68_locus by assumption. split.
  - intros ((Ht & Hs) & i & lo & El & H1 & H2 & H3). exists i. eexists. split; [now apply named_lt in El|]. unfold view_local_order. rewrite El. cbn [obind]. split; [reflexivity|].
    cbn [lo_type lo_elem lo_leid]. rewrite H1, H3. repeat split; [assumption|]. lia.
  - intros (i & lo & Hi & El & H1 & H2 & H3). unfold view_local_order in El. destruct (local_order (v_base v) i) as [lb|] eqn:Eb; [|discriminate]. cbn [obind] in El. injection El as <-. cbn [lo_type lo_elem lo_leid] in *.
    rewrite H1 in H3. split; [split|].
    + destruct (C02_valid (v_base v) i Hb Hi) as (lb' & Eb' & _ & Ht & _). rewrite Eb in Eb'. injection Eb' as <-. unfold ngeom. now rewrite <- H1.
    + lia.
    + exists i, lb. repeat split; try assumption. lia.
Qed.
Print Assumptions C68_view_place.
(** Hence a place belongs to at most one first-level component, and to the component of its dof. *)
Theorem C68_view_members : forall d path v i lo, wf d -> nested_view d path = Some v -> local_order d i = Some lo ->
  (view_valid_place v (lo_type lo) (lo_elem lo) (lo_leid lo) = true <-> view_valid_output v i = true).
Proof.
  intros d path v i lo Hwf E El. rewrite (C68_view_place d path v _ _ _ Hwf E), C04_view_membership. split.
  - intros (j & lo' & Hj & Ej & H1 & H2 & H3). exists j. split; [exact Hj|]. destruct (C04_view_is_window d path v j Hwf E Hj) as [Hw _]. rewrite Hw in Ej.
    exact (C02_injective d i _ lo lo' Hwf El Ej (eq_sym H1) (eq_sym H2) (eq_sym H3)).
  - intros (j & Hj & ->). destruct (C04_view_is_window d path v j Hwf E Hj) as [Hw _]. exists j, lo. rewrite Hw. auto.
Qed.
Print Assumptions C68_view_members.
(** Records of the whole map are accepted iff their dof is in the view. *)
Theorem C68_view_order : forall d path v i lo, wf d -> nested_view d path = Some v -> local_order d i = Some lo ->
  (view_valid_order v lo = true <-> view_valid_output v i = true).
Proof.
  intros d path v i lo Hwf E El. destruct (named_lt d i lo Hwf El) as [Hi Hg]. pose proof (C68_view_members d path v i lo Hwf E El) as H. unfold view_valid_place in H. unfold view_valid_order. rewrite Hg.
  destruct (lo_type lo <? ngeom); cbn [negb andb] in *; [|rewrite <- H; reflexivity]. destruct (view_valid_output v i); cbn [negb]; [exact H|]. tauto.
Qed.
Print Assumptions C68_view_order.
(** The record of a place of the view is that of the dof in the whole map (maps of C03). *)
Theorem C68_view_at_partial : forall chk d path v i lo, wf d -> nested_view d path = Some v -> lookup_safe (v_base v) -> local_order (v_base v) i = Some lo ->
  view_order_at chk v (lo_type lo) (lo_elem lo) (lo_leid lo) = local_order d (v_shift_tet v + i).
Proof.
  intros chk d path v i lo Hwf E Hs El. pose proof (base_wf d path v Hwf E) as Hb. destruct (named_lt (v_base v) i lo Hb El) as [Hi Hg]. destruct (C04_view_is_window d path v i Hwf E Hi) as [Hw _]. rewrite <- Hw.
  unfold view_order_at, view_local_order. rewrite (C03_lookup_inverse_partial chk (v_base v) i lo Hb Hs El), El. cbn [obind fst snd]. now rewrite Hg.
Qed.
Print Assumptions C68_view_at_partial.
Example C68_view_ex : exists v, nested_view (Complex [P1map; stokes]) [1; 0; 2] = Some v /\ lookup_safe (v_base v) /\
  view_valid_place v 1 1 2 = true /\ view_valid_place v 1 1 1 = false /\ view_valid_place v 1 6 2 = false /\
  view_order_at true v 1 1 0 = Some (LO 29 1 1 2 (Some (0, 0))).
Proof. eexists. split; [vm_compute; reflexivity|]. split; [cbn; tauto|]. vm_compute. auto. Qed.
