(** Properties C06 (tetrahedron sparsity sets) and C07 (iteration over the dofs
    of a map restricted to a sparsity). *)
From Coq Require Import NArith.
From Verif Require Import Prelude DofModel DofSpec DofProofs DofProps SparsityModel SparsitySpec SparsityProofs IterProofs IterProofs2.

(** ** C06 *)
(** Every history of calls on valid entities acts on the set of selected
    entities as its set-theoretic reading says; "with closure" is inclusion of
    vertex sets; selection is what getElemsIds reports. *)
Theorem C06_history : forall l s, Forall op_ok l ->
  exists s', run_ops s l = Some s' /\ forall d k, entity d k -> (sel s' d k <-> ops_spec l (sel s) d k).
Proof. exact run_ops_ok. Qed.
Print Assumptions C06_history.
(** From the default (empty) object, single calls spelled out. *)
Theorem C06_set_closure : forall s d k d' k', entity d k -> entity d' k' ->
  exists s', set_ent d k true s = Some s' /\ (sel s' d' k' <-> sel s d' k' \/ incl (verts d' k') (verts d k)).
Proof. intros s d k d' k' H H'. exact (op_ok_run (OSet d k true) s d' k' H H'). Qed.
Print Assumptions C06_set_closure.
Theorem C06_unset_closure : forall s d k d' k', entity d k -> entity d' k' ->
  exists s', unset_ent d k true s = Some s' /\ (sel s' d' k' <-> sel s d' k' /\ ~ incl (verts d' k') (verts d k)).
Proof. intros s d k d' k' H H'. exact (op_ok_run (OUnset d k true) s d' k' H H'). Qed.
Print Assumptions C06_unset_closure.
(** Walking with beginPos/nextPos visits the selected entities, each once, by
    dimension then number, and getElemsIds lists a dimension in increasing order. *)
Theorem C06_walk : forall s,
  walk s 15 (begin_pos s) = Some (filter (fun p => selb s (fst p) (snd p)) all_entities).
Proof.
  intros s. rewrite walk_all. f_equal. apply filter_ext_in. intros [d k] H. apply in_all_entities in H.
  unfold tstp. cbn [fst snd]. symmetry. now apply selb_tst.
Qed.
Print Assumptions C06_walk.
Theorem C06_walk_dim : forall s d k, entity d k ->
  begin_pos_dim s d = option_map (pair d) (hd_error (get_elems_ids s d)) /\
  next_pos_on_dim s (d, k) = option_map (pair d) (hd_error (filter (fun j => k <? j) (get_elems_ids s d))).
Proof.
  intros s d k [Hd Hk]. split.
  - rewrite begin_pos_dim_eq by assumption. f_equal. unfold get_elems_ids. rewrite hd_filter.
    generalize (lookup_sz d) at 1 2. intros n. generalize 0. induction n as [|n IH]; intros m; cbn; [reflexivity|].
    destruct (tst s d m); [reflexivity|apply IH].
  - rewrite next_on_dim by (split; assumption). f_equal. unfold get_elems_ids. change (lookup_sz d) with (ent_count d).
    assert (E : seq 0 (ent_count d) = seq 0 (S k) ++ seq (S k) (ent_count d - S k)).
    { rewrite <- seq_app. f_equal. lia. }
    rewrite E, filter_app, filter_app.
    assert (Z : filter (fun j => k <? j) (filter (tst s d) (seq 0 (S k))) = []).
    { clear E Hk. destruct (filter (fun j => k <? j) (filter (tst s d) (seq 0 (S k)))) as [|x l] eqn:Ex; [reflexivity|exfalso].
      assert (In x (x :: l)) by now left. rewrite <- Ex in H. apply filter_In in H. destruct H as [H1 H2]. apply filter_In in H1.
      apply Nat.ltb_lt in H2. destruct H1 as [H1 _]. apply in_seq in H1. lia. }
    rewrite Z. cbn [app]. rewrite <- hd_filter. f_equal. symmetry.
    assert (A : forall l : list nat, (forall x, In x l -> (k <? x) = true) -> filter (fun j => k <? j) l = l).
    { induction l as [|x l IH]; intros H; [reflexivity|]. cbn [filter]. rewrite H by now left. f_equal. apply IH. intros; apply H. now right. }
    apply A. intros x Hx. apply filter_In in Hx. destruct Hx as [Hx _]. apply in_seq in Hx. apply Nat.ltb_lt. lia.
Qed.
Print Assumptions C06_walk_dim.
(** empty() and empty(dim) answer correctly for every object built without the
    complement operator ... *)
Theorem C06_empty_partial : forall l s, Forall op_ok l -> Forall arg_ok l -> run_ops sp_empty_set l = Some s ->
  (is_empty s = true <-> forall d k, entity d k -> ~ sel s d k) /\
  (forall d, d < 4 -> (empty_dim s d = true <-> forall k, entity d k -> ~ sel s d k)).
Proof.
  intros l s H1 H2 E. assert (Hr : in_range s) by (apply (run_ops_range l sp_empty_set); auto; repeat split).
  split; [now apply is_empty_iff|]. intros d Hd. now apply empty_dim_iff.
Qed.
Print Assumptions C06_empty_partial.
(** ... but the complement of the full set is not reported empty, although no
    entity is selected in it. *)
Theorem C06_empty_refuted : exists l s, Forall op_ok l /\ run_ops sp_empty_set l = Some s /\
  is_empty s = false /\ forall d k, entity d k -> ~ sel s d k.
Proof.
  exists [OSet 3 0 true; ONot]. eexists. split; [repeat constructor|]. split; [reflexivity|]. split; [reflexivity|].
  intros d k He. rewrite sel_tst by assumption. ent He; vm_compute; discriminate.
Qed.
Print Assumptions C06_empty_refuted.
Example C06_ex : Forall op_ok [OSet 2 3 true; OUnset 1 4 false; ONot; OUnset 0 2 false] /\
  option_map (fun s => map (get_elems_ids s) (seq 0 4)) (run_ops sp_empty_set [OSet 2 3 true; OUnset 1 4 false; ONot; OUnset 0 2 false])
  = Some [[]; [1;3;4;5]; [0;1;2]; [0]].
Proof. split; [repeat constructor|]. vm_compute. reflexivity. Qed.

(** ** C07 *)
(** Default order: the iteration ends without a failed check and visits exactly
    the dofs on selected entities, each once and with the classification
    LocalOrderOnTet gives. *)
Theorem C07_iteration_exact_partial : forall d s, wf d -> in_range s -> iter_safe s d ->
  exists L, sp_iterate false d s = Some L /\ NoDup L /\
    forall lo, In lo L <-> (local_order d (lo_gid lo) = Some lo /\ sel s (geom_dim (lo_type lo)) (lo_elem lo)).
Proof. intros d s Hwf Hr Hs. destruct (iterate_exact d s Hwf Hr Hs) as (L & E & H1 & H2). exists L. auto. Qed.
Print Assumptions C07_iteration_exact_partial.
(** In particular for every map without composition inside, ... *)
Theorem C07_iteration_no_composition : forall d s, wf d -> in_range s -> complex_free d ->
  exists L, sp_iterate false d s = Some L /\ exact_visit d s L.
Proof. intros d s Hwf Hr Hc. apply iterate_exact; auto. now apply complex_free_safe. Qed.
Print Assumptions C07_iteration_no_composition.
(** ... and for a composition of such maps all of which have a selected dof. *)
Theorem C07_iteration_composition : forall l s, wf (Complex l) -> in_range s -> Forall complex_free l ->
  (forall b, In b l -> exists lo, sel_dof b s lo) ->
  exists L, sp_iterate false (Complex l) s = Some L /\ exact_visit (Complex l) s L.
Proof.
  intros l s Hwf Hr Hc Hne. apply iterate_exact; auto. split.
  - clear Hwf Hne. induction Hc as [|b l Hb Hc IH]; cbn; [exact I|]. split; [now apply complex_free_safe|exact IH].
  - intros i j k _ Hjk Hk _ _. destruct (nth_error l j) as [b|] eqn:E; [|apply nth_error_None in E; lia].
    destruct (Hne b (nth_error_In _ _ E)) as (lo & H). exists b, lo. auto.
Qed.
Print Assumptions C07_iteration_composition.
(** The preferred (geometric) order is exact for leaf maps. *)
Theorem C07_iteration_geom_leaf_partial : forall nd sy s, wf (Unite nd sy) -> in_range s ->
  exists L, sp_iterate true (Unite nd sy) s = Some L /\ exact_visit (Unite nd sy) s L.
Proof.
  intros nd sy s Hwf Hr. exists (leaf_list nd sy s).
  pose proof (leaf_exact nd sy Hwf s) as He. split; [|exact He].
  apply iterate_follows; [now apply leaf_follows|]. now apply (visit_length _ s).
Qed.
Print Assumptions C07_iteration_geom_leaf_partial.
(** Composition P1 x P0 x P1 over the nodes 0 and 2: the middle component has no
    node dof, and the iteration stops there: the dofs of the third component are
    never visited. *)
Theorem C07_iteration_composition_refuted : exists d s L lo, wf d /\ in_range s /\
  sp_iterate false d s = Some L /\ sel_dof d s lo /\ ~ In lo L.
Proof.
  exists (Complex [P1map; P0map; P1map]), (Sp 5 0 0 0). do 2 eexists.
  split; [repeat split|]. split; [repeat split|]. split; [vm_compute; reflexivity|].
  split; [split; [instantiate (1 := LO 5 0 0 1 (Some (0, 0))); vm_compute; reflexivity|vm_compute; auto]|].
  intros H. cbn in H. repeat (destruct H as [H|H]; [discriminate|]). exact H.
Qed.
Print Assumptions C07_iteration_composition_refuted.
(** A repetition of a composition: two copies of P0 x P1 over nodes 0, 2 and the
    cell; the cell dof of the first copy is never visited. *)
Theorem C07_iteration_nested_refuted : exists d s L lo, wf d /\ in_range s /\
  sp_iterate false d s = Some L /\ sel_dof d s lo /\ ~ In lo L.
Proof.
  exists (Vector 2 (Complex [P0map; P1map])), (Sp 5 0 0 1). do 2 eexists.
  split; [repeat split|]. split; [repeat split|]. split; [vm_compute; reflexivity|].
  split; [split; [instantiate (1 := LO 0 5 0 0 (Some (0, 0))); vm_compute; reflexivity|vm_compute; auto]|].
  intros H. cbn in H. repeat (destruct H as [H|H]; [discriminate|]). exact H.
Qed.
Print Assumptions C07_iteration_nested_refuted.
(** Geometric order over a composition of an oriented-edge and an
    unoriented-edge space: the oriented dofs are never visited. *)
Theorem C07_iteration_geom_refuted : exists d s L lo, wf d /\ in_range s /\
  sp_iterate true d s = Some L /\ sel_dof d s lo /\ ~ In lo L.
Proof.
  exists (Complex [Unite [0;0;1;0;0;0] None; Unite [0;1;0;0;0;0] None]), (Sp 0 9 0 0). do 2 eexists.
  split; [repeat split|]. split; [repeat split|]. split; [vm_compute; reflexivity|].
  split; [split; [instantiate (1 := LO 0 2 0 0 None); vm_compute; reflexivity|vm_compute; auto]|].
  intros H. cbn in H. repeat (destruct H as [H|H]; [discriminate|]). exact H.
Qed.
Print Assumptions C07_iteration_geom_refuted.
(** A sparsity made with the complement operator makes the iteration fail a
    check (with asserts compiled out: return a wrong dof): every node of a P1
    space is selected out. *)
Theorem C07_iteration_complement_refuted : exists d l s, wf d /\ Forall op_ok l /\
  run_ops sp_empty_set l = Some s /\ (forall lo, ~ sel_dof d s lo) /\ sp_iterate false d s = None.
Proof.
  exists P1map, [OSetDim 0; ONot]. eexists. split; [repeat split|]. split; [repeat constructor|].
  split; [reflexivity|]. split; [|vm_compute; reflexivity].
  intros [g t e p sy] [E H]. cbn [lo_gid] in E. unfold on_sel in H. cbn [lo_type lo_elem] in H.
  do 4 (destruct g as [|g]; [vm_compute in E; injection E as <- <- _ _; vm_compute in H; exact H|]). vm_compute in E. discriminate.
Qed.
Print Assumptions C07_iteration_complement_refuted.
Example C07_ex : wf stokes /\ in_range (Sp 5 9 0 0) /\ iter_safe (Sp 5 9 0 0) stokes /\
  option_map (map lo_gid) (sp_iterate false stokes (Sp 5 9 0 0)) = Some [0; 2; 4; 7; 10; 12; 14; 17; 20; 22; 24; 27; 30; 32].
Proof.
  split; [exact stokes_wf|]. split; [repeat split|]. split; [|vm_compute; reflexivity].
  split; [cbn; auto|]. intros i j k H1 H2 H3. cbn in H3. lia.
Qed.
