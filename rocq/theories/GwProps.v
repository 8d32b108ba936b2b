(** C62: walking over degrees of freedom *)
From Verif Require Import Prelude DofModel DofSpec DofProofs EnumModel EnumSpec EnumProofs GwModel GwSpec GwProofs GwProofs2 GwProofs3.

(** The loop over a slice visits every selected dof exactly once, in the order of dimension, element, type, variable,
    component, position, and ends after the last; cut off after some steps it has visited the first ones *)
Theorem C62_walk : forall l m s, wf (Complex l) -> (forall v, s_var s = Some v -> v < length l) -> sound_mask l s ->
  exists L, NoDup L /\ ordered L /\ (forall x, In x L <-> selected l m s x) /\
    forall fuel, walk l m s fuel = Some (firstn fuel L, length L <=? fuel).
Proof.
  intros l m s Hw Hv Hs. exists (places l m s). split; [apply places_nodup|]. split; [apply places_ordered|]. split; [intros x; apply in_places|]. intros fuel. now apply walk_places.
Qed.
Print Assumptions C62_walk.
(** beginByGeom gives the first selected place, or the end if nothing is selected *)
Theorem C62_begin : forall l m s, wf (Complex l) -> (forall v, s_var s = Some v -> v < length l) -> sound_mask l s ->
  exists o, begin_by_geom l m s = Some o /\ match o with
    | None => forall x, ~ selected l m s x
    | Some x => selected l m s x /\ forall y, selected l m s y -> y = x \/ before x y end.
Proof.
  intros l m s Hw Hv Hs. exists (hd_error (places l m s)). split; [now apply begin_places|]. pose proof (in_places l m s) as Q. pose proof (places_ordered l m s) as O. destruct (places l m s) as [|x L]; cbn [hd_error].
  - intros x H. now apply Q in H.
  - split; [apply Q; now left|]. intros y Hy. apply Q in Hy. destruct Hy as [->|Hy]; [now left|right]. destruct (In_nth_error _ _ Hy) as (j & Hj). apply (O 0 (S j)); [lia|reflexivity|exact Hj].
Qed.
Print Assumptions C62_begin.
(** ++ moves from a selected place to the next selected place, or to the end after the last *)
Theorem C62_next : forall l m s x, wf (Complex l) -> (forall v, s_var s = Some v -> v < length l) -> sound_mask l s -> selected l m s x ->
  match next_by_geom l m s x with
  | None => forall y, selected l m s y -> y = x \/ before y x
  | Some z => selected l m s z /\ before x z /\ forall y, selected l m s y -> before x y -> y = z \/ before z y end.
Proof.
  intros l m s x Hw Hv Hs Hx. apply in_places in Hx. apply in_split in Hx. destruct Hx as (pre & post & E). rewrite (next_places l m s Hw Hv Hs pre x post E).
  pose proof (in_places l m s) as Q. pose proof (places_ordered l m s) as O. rewrite E in Q, O.
  assert (Hp : nth_error (pre ++ x :: post) (length pre) = Some x) by (rewrite nth_error_app2, Nat.sub_diag by lia; reflexivity).
  assert (A : forall y, In y pre -> before y x).
  { intros y Hy. destruct (In_nth_error _ _ Hy) as (j & Hj). assert (j < length pre) by (apply nth_error_Some; congruence). apply (O j (length pre)); [assumption| |exact Hp]. now rewrite nth_error_app1. }
  destruct post as [|z post]; cbn [hd_or].
  - intros y Hy. apply Q in Hy. apply in_app_iff in Hy. destruct Hy as [Hy|[->|[]]]; [right; now apply A|now left].
  - assert (Hz : nth_error (pre ++ x :: z :: post) (S (length pre)) = Some z) by (rewrite nth_error_app2 by lia; now replace (S (length pre) - length pre) with 1 by lia).
    split; [apply Q; apply in_app_iff; right; right; now left|]. split; [apply (O (length pre) (S (length pre))); [lia|exact Hp|exact Hz]|].
    intros y Hy Hb. apply Q in Hy. apply in_app_iff in Hy. destruct Hy as [Hy|[->|[->|Hy]]].
    + exfalso. apply A in Hy. unfold before, lex_le in *. lia.
    + exfalso. now apply (before_irrefl y).
    + now left.
    + right. destruct (In_nth_error _ _ Hy) as (j & Hj). apply (O (S (length pre)) (length pre + S (S j))); [lia|exact Hz|]. rewrite nth_error_app2 by lia. now replace (length pre + S (S j) - length pre) with (S (S j)) by lia.
Qed.
Print Assumptions C62_next.
(** Without arguments the loop visits all dofs of the owned elements of the mesh, as many as there are *)
Theorem C62_everything : forall l m, wf (Complex l) -> exists L, NoDup L /\ ordered L /\
  (forall x, In x L <-> p_dim x < 4 /\ p_lid x < length (m (p_dim x)) /\ status m (p_dim x) (p_lid x) = Owned /\ valid_desc l (p_desc x) /\ geom_dim (x_type (p_desc x)) = p_dim x) /\
  length L = list_sum (map (fun d => owned_count m d * list_sum (map (cnt (Complex l)) (types_of_dim d))) [0; 1; 2; 3]) /\
  walk l m everything (length L) = Some (L, true).
Proof.
  intros l m Hw. assert (Hs : sound_mask l everything) by (intros t [->| ->] _; now left).
  exists (places l m everything). split; [apply places_nodup|]. split; [apply places_ordered|]. split; [|split; [now apply places_count|]].
  - intros x. rewrite in_places. unfold selected. cbn [everything s_var s_dim s_dof s_lid fits]. split; [tauto|]. intros (H1 & H2 & H3 & H4 & H5). repeat split; try assumption; try apply H4.
    destruct H4 as (Ht & _). destruct (x_type (p_desc x)) as [|[|[|[|[|[|t]]]]]]; try reflexivity; lia.
  - rewrite walk_places by (try assumption; discriminate). now rewrite firstn_all, Nat.leb_refl.
Qed.
Print Assumptions C62_everything.
(** A variable that does not exist is looked up *)
Theorem C62_no_variable : forall l m s v fuel, s_var s = Some v -> length l <= v -> walk l m s fuel = None.
Proof. intros l m s v fuel E H. unfold walk, begin_by_geom. rewrite E. now rewrite (proj2 (Nat.ltb_ge _ _) H). Qed.
Print Assumptions C62_no_variable.
(** Refuted: when only the oriented dofs of edges or of faces are asked for, the walk starts with an unoriented dof of the
    first owned element, which is not in the slice *)
Theorem C62_mask_refuted : forall l m s t lid x, wf (Complex l) -> (forall v, s_var s = Some v -> v < length l) -> s_lid s = None ->
  t = 1 /\ s_mask s = 4 \/ t = 3 /\ s_mask s = 16 -> lid < length (m (geom_dim t)) -> status m (geom_dim t) lid = Owned ->
  valid_desc l x -> x_type x = t -> fits (s_var s) (x_var x) -> fits (s_dim s) (x_dim x) -> fits (s_dof s) (x_pos x) ->
  exists z, begin_by_geom l m s = Some (Some z) /\ x_type (p_desc z) = t /\ has s t = false /\ ~ selected l m s z.
Proof.
  intros l m s t lid x Hw Hv Hl Hm Hi Ho Hx Et F1 F2 F3.
  assert (Ht : t < 6) by lia. assert (Hin : In x (items l s t)) by (apply in_items; auto).
  assert (Hh : has s t = false) by (unfold has; destruct Hm as [(-> & ->)|(-> & ->)]; reflexivity).
  assert (Hd : begin_dims l m s [0; 1; 2; 3] = hd_error (flat_map (fun i => map (Place (geom_dim t) i) (from_type l s t)) (filter (is_owned m (geom_dim t)) (seq 0 (length (m (geom_dim t)))))) \/
    hd_error (flat_map (fun i => map (Place (geom_dim t) i) (from_type l s t)) (filter (is_owned m (geom_dim t)) (seq 0 (length (m (geom_dim t)))))) = None).
  { destruct Hm as [(-> & Em)|(-> & Em)]; cbn [begin_dims geom_dim nth]; unfold dim_mask at 1 2; unfold has; rewrite Em, Hl; cbn [any_or]; unfold last_lid.
    - cbn [Nat.testbit Nat.odd Nat.even negb Nat.div2 orb dim_mask]. rewrite choose_element_ok by (try assumption; cbn; lia). cbn [first_type nth]. rewrite Nat.sub_0_r.
      destruct (hd_error _); [now left|now right].
    - unfold dim_mask at 1. unfold has. rewrite Em. cbn [Nat.testbit Nat.odd Nat.even negb Nat.div2 orb]. rewrite choose_element_ok by (try assumption; cbn; lia). cbn [first_type nth]. rewrite Nat.sub_0_r.
      destruct (hd_error _); [now left|now right]. }
  assert (Hf : exists y r, from_type l s t = y :: r /\ x_type y = t).
  { unfold from_type. destruct (items l s t) as [|y r] eqn:Ei; [destruct Hin|]. exists y. eexists. split; [reflexivity|]. apply (items_type l s). rewrite Ei. now left. }
  destruct Hf as (y & r & Ef & Ey). rewrite Ef in Hd.
  assert (Hfi : exists i q, filter (is_owned m (geom_dim t)) (seq 0 (length (m (geom_dim t)))) = i :: q).
  { destruct (filter (is_owned m (geom_dim t)) (seq 0 (length (m (geom_dim t))))) as [|i q] eqn:E; [|eauto]. exfalso.
    assert (Hlid : In lid []) by (rewrite <- E; apply filter_In; split; [apply in_seq; lia|]; unfold is_owned; now rewrite Ho). exact Hlid. }
  destruct Hfi as (i & q & Ei). rewrite Ei in Hd. cbn [flat_map map app hd_error] in Hd. destruct Hd as [Hd|Hd]; [|discriminate].
  exists (Place (geom_dim t) i y). split.
  - unfold begin_by_geom. assert (G : match s_var s with None => true | Some v => v <? length l end = true) by (destruct (s_var s) as [v|] eqn:E; [apply Nat.ltb_lt; now apply Hv|reflexivity]). rewrite G. cbn [guard obind]. now rewrite Hd.
  - cbn [p_desc]. split; [exact Ey|]. split; [exact Hh|]. intros H. unfold selected in H. cbn [p_desc] in H. rewrite Ey in H. rewrite Hh in H. intuition discriminate.
Qed.
Print Assumptions C62_mask_refuted.

(** The iterator over the vector of unknowns is an integer: adding a distance and taking it back, and three comparisons *)
Theorem C62_vector_partial : forall i j n, v_diff (v_add i n) i = n /\ v_add i (v_diff j i) = j /\ (v_lt i j = true <-> (i < j)%Z) /\ (v_gt i j = true <-> (i > j)%Z) /\ (v_le i j = true <-> (i <= j)%Z).
Proof. intros i j n. unfold v_diff, v_add, v_lt, v_gt, v_le. rewrite !Z.ltb_lt, Z.leb_le. lia. Qed.
Print Assumptions C62_vector_partial.
(** Refuted: >= is the opposite of what it should be, for all positions *)
Theorem C62_vector_order_refuted : forall i j, v_ge i j = true <-> ~ (i >= j)%Z.
Proof. intros i j. unfold v_ge. rewrite Z.ltb_lt. lia. Qed.
Print Assumptions C62_vector_order_refuted.

(** *** a mesh with a deleted edge and a ghost node; a vector variable on nodes and edges and a scalar with oriented edge dofs *)
Definition wm : mesh := fun d => match d with 0 => [Owned; Ghost; Owned] | 1 => [Deleted; Deleted; Owned; Owned] | 3 => [Owned] | _ => [] end.
Definition wl : list dmap := [Vector 2 (Unite [1; 1; 0; 0; 0; 0] None); Unite [0; 0; 1; 0; 0; 2] None].
Example C62_wl : wf (Complex wl) /\ sound_mask wl everything.
Proof. split; [cbn; tauto|]. intros t [->| ->] _; now left. Qed.
Example C62_all : walk wl wm everything 20 = Some ([
  Place 0 0 (Desc 0 0 0 0); Place 0 0 (Desc 0 0 1 0); Place 0 2 (Desc 0 0 0 0); Place 0 2 (Desc 0 0 1 0);
  Place 1 2 (Desc 1 0 0 0); Place 1 2 (Desc 1 0 1 0); Place 1 2 (Desc 2 1 0 0);
  Place 1 3 (Desc 1 0 0 0); Place 1 3 (Desc 1 0 1 0); Place 1 3 (Desc 2 1 0 0);
  Place 3 0 (Desc 5 1 0 0); Place 3 0 (Desc 5 1 0 1)], true).
Proof. reflexivity. Qed.
Example C62_component : walk wl wm (Slice None (Some 1) None 63 None) 9 = Some ([Place 0 0 (Desc 0 0 1 0); Place 0 2 (Desc 0 0 1 0); Place 1 2 (Desc 1 0 1 0); Place 1 3 (Desc 1 0 1 0)], true).
Proof. reflexivity. Qed.
Example C62_local : walk wl wm (Slice None None None 63 (Some 2)) 9 = Some ([Place 0 2 (Desc 0 0 0 0); Place 0 2 (Desc 0 0 1 0); Place 1 2 (Desc 1 0 0 0); Place 1 2 (Desc 1 0 1 0); Place 1 2 (Desc 2 1 0 0)], true).
Proof. reflexivity. Qed.
Example C62_oriented_of_variable : sound_mask wl (Slice (Some 1) None None 4 None) /\ walk wl wm (Slice (Some 1) None None 4 None) 9 = Some ([Place 1 2 (Desc 2 1 0 0); Place 1 3 (Desc 2 1 0 0)], true).
Proof.
  split; [|reflexivity]. intros t [->| ->] Hh; [|discriminate]. right. intros [t v k p] (_ & b & Eb & _ & Hp) Et Hv _ _. cbn in Et, Hv, Eb, Hp. subst. injection Eb as <-. cbn in Hp. lia.
Qed.
Example C62_oriented_only : walk wl wm (Slice None None None 4 None) 9 = Some ([Place 1 2 (Desc 1 0 0 0); Place 1 2 (Desc 1 0 1 0); Place 1 2 (Desc 2 1 0 0); Place 1 3 (Desc 2 1 0 0)], true).
Proof. reflexivity. Qed.
