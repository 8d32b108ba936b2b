(** C07: iteration over the dofs of a view. *)
From Coq Require Import NArith.
From Verif Require Import Prelude DofModel DofSpec DofProofs DofProofs2 DofProps SparsityModel SparsitySpec SparsityProofs SparsityProps GeomIterSpec GeomIterProps ValModel ValProps ViterModel.

Lemma out_in : forall v lo, LO (lo_gid (out_lo v lo) - v_shift_tet v) (lo_type (out_lo v lo)) (lo_elem (out_lo v lo))
  (lo_leid (out_lo v lo) - nth (lo_type (out_lo v lo)) (v_shift_elem v) 0) (lo_sym (out_lo v lo)) = lo.
Proof. intros v [g t e p sy]. unfold out_lo, shift_lo. cbn [lo_gid lo_type lo_elem lo_leid lo_sym]. f_equal; lia. Qed.
Lemma out_inj : forall v a b, out_lo v a = out_lo v b -> a = b.
Proof. intros v a b H. rewrite <- (out_in v a), <- (out_in v b). now rewrite H. Qed.
Lemma out_local : forall d path v lo, wf d -> nested_view d path = Some v -> local_order (v_base v) (lo_gid lo) = Some lo ->
  local_order d (lo_gid (out_lo v lo)) = Some (out_lo v lo) /\ view_valid_output v (lo_gid (out_lo v lo)) = true.
Proof.
  intros d path v lo Hwf E El. destruct (named_lt _ _ _ (base_wf d path v Hwf E) El) as [Hi _]. destruct (C04_view_is_window d path v (lo_gid lo) Hwf E Hi) as [Hw _].
  assert (Hg : lo_gid (out_lo v lo) = v_shift_tet v + lo_gid lo) by (unfold out_lo, shift_lo; cbn [lo_gid]; lia). rewrite Hg. split.
  - rewrite <- Hw. unfold view_local_order. rewrite El. reflexivity.
  - apply C04_view_membership. now exists (lo_gid lo).
Qed.
Lemma collect_view : forall pref d path v s fuel cur L, wf d -> nested_view d path = Some v -> sp_collect pref (v_base v) s fuel cur = Some L ->
  (forall lo, In lo L -> local_order (v_base v) (lo_gid lo) = Some lo) -> view_collect pref v s fuel (option_map (out_lo v) cur) = Some (map (out_lo v) L).
Proof.
  intros pref d path v s fuel. induction fuel as [|f IH]; intros cur L Hwf E Ec HL; destruct cur as [lo|]; cbn [sp_collect view_collect option_map] in *; try discriminate; try (injection Ec as <-; reflexivity).
  destruct (sp_incr pref (v_base v) s lo) as [nxt|] eqn:En; [|discriminate]. cbn [obind] in Ec. destruct (sp_collect pref (v_base v) s f nxt) as [r|] eqn:Er; [|discriminate]. cbn [obind] in Ec. injection Ec as <-.
  destruct (out_local d path v lo Hwf E (HL lo (or_introl eq_refl))) as [H1 H2]. unfold view_incr. rewrite (proj2 (C68_view_order d path v _ _ Hwf E H1) H2). cbn [guard obind]. cbv zeta.
  rewrite out_in, En. cbn [obind]. rewrite (IH nxt r Hwf E Er) by (intros x Hx; apply HL; now right). reflexivity.
Qed.
(** If the iteration over the map shown by the view is right, so is that over the view: it
    visits once each dof of the whole map that is in the view and on a selected entity. *)
Theorem C07_view : forall pref d path v s L, wf d -> nested_view d path = Some v -> sp_iterate pref (v_base v) s = Some L -> exact_visit (v_base v) s L ->
  exists L', view_iterate pref v s = Some L' /\ NoDup L' /\
    forall lo, In lo L' <-> (local_order d (lo_gid lo) = Some lo /\ view_valid_output v (lo_gid lo) = true /\ sel s (geom_dim (lo_type lo)) (lo_elem lo)).
Proof.
  intros pref d path v s L Hwf E Ei [Hn Hx]. exists (map (out_lo v) L). split; [|split].
  - unfold sp_iterate in Ei. unfold view_iterate, view_begin. destruct (sp_begin pref (v_base v) s) as [b|]; [|discriminate]. cbn [obind] in *. eapply collect_view; [exact Hwf|exact E|exact Ei|].
    intros lo Hlo. now apply Hx in Hlo as [H _].
  - clear Ei Hx. induction Hn as [|x l Hx Hn IH]; cbn [map]; constructor; [|exact IH]. intros H. apply in_map_iff in H as (y & Hy & Hin). apply out_inj in Hy. now subst y.
  - intros lo. rewrite in_map_iff. split.
    + intros (x & <- & Hin). apply Hx in Hin as [H1 H2]. destruct (out_local d path v x Hwf E H1) as [H3 H4]. split; [exact H3|]. split; [exact H4|]. exact H2.
    + intros (H1 & H2 & H3). apply C04_view_membership in H2 as (j & Hj & Hg). destruct (C04_view_is_window d path v j Hwf E Hj) as [Hw _]. rewrite Hg, <- Hw in H1.
      unfold view_local_order in H1. destruct (local_order (v_base v) j) as [lb|] eqn:Eb; [|discriminate]. cbn [obind] in H1. injection H1 as H1. exists lb. split; [exact H1|]. apply Hx.
      destruct (named_lt _ _ _ (base_wf d path v Hwf E) Eb) as [_ Hgb]. split; [now rewrite Hgb|]. rewrite <- H1 in H3. exact H3.
Qed.
Print Assumptions C07_view.
(** Hence for views of the maps for which the iteration is proved, in both orders. *)
Theorem C07_view_iteration_partial : forall d path v s, wf d -> nested_view d path = Some v -> in_range s -> iter_safe s (v_base v) ->
  exists L, view_iterate false v s = Some L /\ NoDup L /\
    forall lo, In lo L <-> (local_order d (lo_gid lo) = Some lo /\ view_valid_output v (lo_gid lo) = true /\ sel s (geom_dim (lo_type lo)) (lo_elem lo)).
Proof.
  intros d path v s Hwf E Hr Hs. destruct (C07_iteration_exact_partial (v_base v) s (base_wf d path v Hwf E) Hr Hs) as (L & EL & H). exact (C07_view false d path v s L Hwf E EL H).
Qed.
Print Assumptions C07_view_iteration_partial.
Theorem C07_view_iteration_geom_partial : forall d path v s, wf d -> nested_view d path = Some v -> in_range s -> geom_safe (v_base v) ->
  exists L, view_iterate true v s = Some L /\ NoDup L /\
    forall lo, In lo L <-> (local_order d (lo_gid lo) = Some lo /\ view_valid_output v (lo_gid lo) = true /\ sel s (geom_dim (lo_type lo)) (lo_elem lo)).
Proof.
  intros d path v s Hwf E Hr Hs. destruct (C07_iteration_geom_partial (v_base v) s (base_wf d path v Hwf E) Hr Hs) as (L & EL & H1 & H2 & _). exact (C07_view true d path v s L Hwf E EL (conj H1 H2)).
Qed.
Print Assumptions C07_view_iteration_geom_partial.
Example C07_view_ex : exists v, nested_view (Complex [P1map; stokes]) [1; 0; 2] = Some v /\ v_base v = P2map /\
  view_iterate false v (Sp 5 2 0 0) = Some [LO 24 0 0 3 (Some (0, 0)); LO 26 0 2 3 (Some (0, 0)); LO 29 1 1 2 (Some (0, 0))].
Proof. eexists. split; [vm_compute; reflexivity|]. split; vm_compute; reflexivity. Qed.
