(** C04: views of views and stored submaps. *)
From Verif Require Import Prelude DofModel DofSpec DofProofs DofProofs2 DofProps VwModel.

Lemma add_zero : forall s, length s = ngeom -> add_shift zero_shift (fun t => nth t s 0) = s.
Proof.
  intros s H. unfold ngeom in H. do 6 (destruct s as [|? s]; [discriminate|]). destruct s; [|discriminate]. reflexivity.
Qed.
Lemma add_len : forall s f, length (add_shift s f) = ngeom.
Proof. intros s f. unfold add_shift. now rewrite map_length, seq_length. Qed.
Lemma from_len : forall p d se st v, nested_from d p se st = Some v -> length (v_shift_elem v) = ngeom.
Proof.
  induction p as [|c p IH]; intros d se st v E; [discriminate|]. destruct d as [nd sy|k b|l]; cbn [nested_from] in E; [discriminate| |].
  - destruct (c <? k); [|discriminate]. cbn [guard obind] in E. cbv zeta in E. destruct p; [injection E as <-; apply add_len|]. exact (IH _ _ _ _ E).
  - destruct (nth_error l c) as [b|]; [|discriminate]. cbn [obind] in E. cbv zeta in E. destruct p; [injection E as <-; apply add_len|]. exact (IH _ _ _ _ E).
Qed.
Lemma from_app : forall p d se st v q, q <> [] -> nested_from d p se st = Some v -> nested_from d (p ++ q) se st = nested_from (v_base v) q (v_shift_elem v) (v_shift_tet v).
Proof.
  induction p as [|c p IH]; intros d se st v q Hq E; [discriminate|]. destruct d as [nd sy|k b|l]; cbn [nested_from app] in *; [discriminate| |].
  - destruct (c <? k); [|discriminate]. cbn [guard obind] in *. cbv zeta in *. destruct p as [|c' p].
    + injection E as <-. cbn [app v_base v_shift_elem v_shift_tet]. now destruct q.
    + rewrite <- (IH _ _ _ _ _ Hq E). reflexivity.
  - destruct (nth_error l c) as [b|]; [|discriminate]. cbn [obind] in *. cbv zeta in *. destruct p as [|c' p].
    + injection E as <-. cbn [app v_base v_shift_elem v_shift_tet]. now destruct q.
    + rewrite <- (IH _ _ _ _ _ Hq E). reflexivity.
Qed.
Lemma view_len : forall d p v, nested_view d p = Some v -> length (v_shift_elem v) = ngeom.
Proof. intros d p v E. destruct p; cbn [nested_view] in E; [injection E as <-; reflexivity|exact (from_len _ _ _ _ _ E)]. Qed.
Lemma from_tet : forall p d se st v, nested_from d p se st = Some v -> exists w, nested_from d p zero_shift 0 = Some w /\ v_base w = v_base v /\ v_shift_tet v = st + v_shift_tet w.
Proof.
  assert (G : forall p d se st se0 st0 v, nested_from d p se (st + st0) = Some v -> exists w, nested_from d p se0 st0 = Some w /\ v_base w = v_base v /\ v_shift_tet v = st + v_shift_tet w).
  { induction p as [|c p IH]; intros d se st se0 st0 v E; [discriminate|]. destruct d as [nd sy|k b|l]; cbn [nested_from] in *; [discriminate| |].
    - destruct (c <? k); [|discriminate]. cbn [guard obind] in *. cbv zeta in *. destruct p as [|c' p].
      + injection E as <-. eexists. split; [reflexivity|]. cbn [v_base v_shift_tet]. split; [reflexivity|lia].
      + rewrite <- Nat.add_assoc in E. exact (IH _ _ _ _ _ _ E).
    - destruct (nth_error l c) as [b|]; [|discriminate]. cbn [obind] in *. cbv zeta in *. destruct p as [|c' p].
      + injection E as <-. eexists. split; [reflexivity|]. cbn [v_base v_shift_tet]. split; [reflexivity|lia].
      + rewrite <- Nat.add_assoc in E. exact (IH _ _ _ _ _ _ E). }
  intros p d se st v E. apply (G p d se st zero_shift 0 v). now rewrite Nat.add_0_r.
Qed.
(** A view of a view (its only component has number 0) is the view along the joined path. *)
Theorem C04_view_of_view : forall d p v q, nested_view d p = Some v -> view_nested v (0 :: q) = nested_view d (p ++ q).
Proof.
  intros d p v q E. unfold view_nested. rewrite Nat.eqb_refl. cbn [guard obind]. cbv zeta. rewrite (add_zero _ (view_len d p v E)), Nat.add_0_l. destruct q as [|c q].
  - rewrite app_nil_r, E. now destruct v.
  - destruct p as [|c' p]; cbn [nested_view app] in *; [injection E as <-; reflexivity|]. symmetry. exact (from_app (c' :: p) d _ _ v (c :: q) ltac:(discriminate) E).
Qed.
Print Assumptions C04_view_of_view.
Theorem C04_view_other_component : forall v c q, c <> 0 -> view_nested v (c :: q) = None /\ view_sub v (c :: q) = None.
Proof. intros v c q H. unfold view_nested, view_sub. apply Nat.eqb_neq in H. now rewrite H. Qed.
Print Assumptions C04_view_other_component.
(** So it shows a window of the whole map, inside the window of the first view. *)
Theorem C04_view_of_view_window : forall d p v q w, wf d -> nested_view d p = Some v -> view_nested v q = Some w ->
  v_shift_tet v <= v_shift_tet w /\ v_shift_tet w + num_dof_tet (v_base w) <= v_shift_tet v + num_dof_tet (v_base v) /\
  forall i, i < num_dof_tet (v_base w) -> view_local_order w i = local_order d (v_shift_tet w + i).
Proof.
  intros d p v q w Hwf E Ew. destruct q as [|c q]; [discriminate|]. destruct (Nat.eq_dec c 0) as [->|Hc]; [|now rewrite (proj1 (C04_view_other_component v c q Hc)) in Ew].
  pose proof Ew as Ep. rewrite (C04_view_of_view d p v q E) in Ep. split; [|split].
  3: { intros i Hi. now destruct (C04_view_is_window d (p ++ q) w i Hwf Ep Hi). }
  all: unfold view_nested in Ew; rewrite Nat.eqb_refl in Ew; cbn [guard obind] in Ew; cbv zeta in Ew; rewrite Nat.add_0_l in Ew; destruct q as [|c q]; [injection Ew as <-; cbn [v_base v_shift_tet]; lia|].
  all: destruct (from_tet _ _ _ _ _ Ew) as (w0 & E0 & Hb & Hs); [try lia..].
  assert (Hbw : wf (v_base v)) by (now destruct (nested_view_ok d p v Hwf E) as (H & _)).
  destruct (nested_view_ok (v_base v) (c :: q) w0 Hbw E0) as (_ & _ & H & _). rewrite Hb in H. lia.
Qed.
Print Assumptions C04_view_of_view_window.
(** The stored submap is the map shown by the view, present for the same paths. *)
Theorem C04_sub_map : forall d p, sub_map d p = option_map v_base (nested_view d p).
Proof.
  assert (G : forall p d se st, sub_from d p = option_map v_base (nested_from d p se st)).
  { induction p as [|c p IH]; intros d se st; [reflexivity|]. destruct d as [nd sy|k b|l]; cbn [sub_from nested_from]; [reflexivity| |].
    - destruct (c <? k); [|reflexivity]. cbn [guard obind]. cbv zeta. destruct p; [reflexivity|apply IH].
    - destruct (nth_error l c) as [b|]; [|reflexivity]. cbn [obind]. cbv zeta. destruct p; [reflexivity|apply IH]. }
  intros d p. destruct p; [reflexivity|apply G].
Qed.
Print Assumptions C04_sub_map.
Theorem C04_view_sub : forall d p v q, nested_view d p = Some v -> view_sub v (0 :: q) = sub_map d (p ++ q).
Proof.
  intros d p v q E. rewrite C04_sub_map, <- (C04_view_of_view d p v q E). unfold view_sub, view_nested. rewrite Nat.eqb_refl. cbn [guard obind]. cbv zeta.
  destruct q as [|c q]; [reflexivity|]. change (sub_from (v_base v) (c :: q)) with (sub_map (v_base v) (c :: q)). rewrite C04_sub_map. cbn [nested_view].
  set (se := add_shift zero_shift _). clearbody se. destruct (nested_from (v_base v) (c :: q) se (0 + v_shift_tet v)) as [w|] eqn:Ew.
  - destruct (from_tet _ _ _ _ _ Ew) as (w0 & E0 & Hb & _). rewrite E0. cbn [option_map]. now rewrite Hb.
  - destruct (nested_from (v_base v) (c :: q) zero_shift 0) as [w0|] eqn:E0; [|reflexivity]. exfalso.
    assert (K : forall p d se st se' st', nested_from d p se st = None -> nested_from d p se' st' = None).
    { clear. induction p as [|c p IH]; intros d se st se' st' E; [reflexivity|]. destruct d as [nd sy|k b|l]; cbn [nested_from] in *; [reflexivity| |].
      - destruct (c <? k); [|reflexivity]. cbn [guard obind] in *. cbv zeta in *. destruct p; [discriminate|]. exact (IH _ _ _ _ _ E).
      - destruct (nth_error l c) as [b|]; [|reflexivity]. cbn [obind] in *. cbv zeta in *. destruct p; [discriminate|]. exact (IH _ _ _ _ _ E). }
    rewrite (K _ _ _ _ zero_shift 0 Ew) in E0. discriminate.
Qed.
Print Assumptions C04_view_sub.
Example C04_view_ex : exists v w, nested_view (Complex [P1map; stokes]) [1] = Some v /\ view_nested v [0; 0; 2] = Some w /\
  v_base w = P2map /\ v_shift_tet w = 24 /\ sub_map (Complex [P1map; stokes]) [1; 0; 2] = Some P2map /\ sub_map (Complex [P1map; stokes]) [1; 0; 3] = None.
Proof. do 2 eexists. split; [vm_compute; reflexivity|]. split; [vm_compute; reflexivity|]. vm_compute. auto. Qed.
