(** C66: gathering the values of a variable on a cell. *)
From Coq Require Import Reals.
From Verif Require Import Prelude DofModel DofSpec DofProofs SymModel SymSpec SymProofs SymProofs2 SymProofs3 SymProps OrdModel OrdProofs2 OrdProps SparsityModel SparsitySpec GeomIterSpec GdModel GdSpec GdProofs.

(** The specification gives one value. *)
Theorem C66_value_unique : forall data d p g v v', wf d -> labelled d -> is_perm4 p -> value_of data d p g v -> value_of data d p g v' -> v = v'.
Proof.
  intros data d p g v v' Hwf Hlab Hp (lo & c & l & r & a & s & w & A1 & A2 & A3 & A4 & A5 & A6 & ->) (lo' & c' & l' & r' & a' & s' & w' & B1 & B2 & B3 & B4 & B5 & B6 & ->).
  assert (lo' = lo) by congruence. subst lo'. assert (Q : (c', l') = (c, l)) by congruence. injection Q as -> ->.
  destruct (lo_facts d Hwf Hlab g lo A1) as (_ & _ & _ & _ & C1 & C2 & _).
  assert (r' = r) by (eapply placed_fun; eauto). subst r'. assert (a' = a) by congruence. subst a'.
  assert (w' = w) by congruence. assert (s' = s) by (eapply sign_fun; eauto). now subst.
Qed.
Print Assumptions C66_value_unique.

(** One tag, the whole variable or a component: if the tag holds the values of the whole
    variable on all entities of the cell, then entry i is the value of the dof number i of the
    component and nothing else changes. *)
Theorem C66_gather_partial : forall data d path p out v, wf d -> labelled d -> is_perm4 p -> nested_view d path = Some v ->
  geom_safe (v_base v) -> full_data data d -> num_dof_tet (v_base v) <= length out ->
  exists out', gather false data d path p 0 out = Some out' /\ same_outside 0 (num_dof_tet (v_base v)) out out' /\
    forall i, i < num_dof_tet (v_base v) -> exists x, nth_error out' i = Some x /\ value_of data d p (v_shift_tet v + i) x.
Proof.
  intros data d path p out v Hwf Hlab Hp Ev Hg Hf Hlen.
  assert (Hall : forall i, i < num_dof_tet (v_base v) -> exists x, value_of data d p (v_shift_tet v + i) x).
  { intros i Hi. apply full_value; [assumption..|]. destruct (DofProofs2.nested_view_ok d path v Hwf Ev) as (_ & _ & H & _). lia. }
  destruct (gather_ok false data d path p 0 out v Hwf Hlab Hp Ev Hg Hlen (fun _ => Hall)) as (out' & E & Ho & Hgot).
  exists out'. split; [exact E|]. split; [exact Ho|]. intros i Hi. destruct (Hgot i Hi) as [(x & H1 & H2)|[H _]]; [exists x; auto|].
  destruct (Hall i Hi) as [x Hx]. now destruct (H x).
Qed.
Print Assumptions C66_gather_partial.
(** With OnlyIfDataAvailable, for any contents of the tag: the stored values are gathered,
    the other entries keep what they had. *)
Theorem C66_available_partial : forall data d path p out v, wf d -> labelled d -> is_perm4 p -> nested_view d path = Some v ->
  geom_safe (v_base v) -> num_dof_tet (v_base v) <= length out ->
  exists out', gather true data d path p 0 out = Some out' /\ same_outside 0 (num_dof_tet (v_base v)) out out' /\
    forall i, i < num_dof_tet (v_base v) -> got data d p (v_shift_tet v + i) out i out'.
Proof. intros data d path p out v Hwf Hlab Hp Ev Hg Hlen. apply gather_ok; auto. discriminate. Qed.
Print Assumptions C66_available_partial.
(** A tag per component: the values of the components one after another. *)
Theorem C66_tags_partial : forall datas d p out, wf d -> labelled d -> is_perm4 p -> Forall geom_safe (components d) ->
  length (components d) <= length datas -> dofs_before d (length (components d)) <= length out ->
  (forall v b data, nth_error (components d) v = Some b -> nth_error datas v = Some data -> full_data data b) ->
  exists out', gather_tags false datas d [] p out = Some out' /\ same_outside 0 (dofs_before d (length (components d))) out out' /\
    forall v b data j, nth_error (components d) v = Some b -> nth_error datas v = Some data -> j < num_dof_tet b ->
      exists x, nth_error out' (dofs_before d v + j) = Some x /\ value_of data b p j x.
Proof.
  intros datas d p out Hwf Hlab Hp Hg Hn Hlen Hf. destruct (tags_ok false datas d p out Hwf Hlab Hp Hg Hn Hlen (fun _ => Hf)) as (out' & E & Ho & Hgot).
  exists out'. split; [exact E|]. split; [exact Ho|]. intros v b data j Eb Ed Hj. destruct (Hgot v b data j Eb Ed Hj) as [(x & H1 & H2)|[H _]]; [exists x; auto|].
  destruct (comp_view d v b Eb) as [se Ev]. assert (Hwb : wf b) by apply (DofProofs2.nested_view_ok d [v] _ Hwf Ev).
  destruct (full_value data b p j Hwb (labelled_view d [v] _ Hwf Hlab Ev) Hp (Hf v b data Eb Ed) Hj) as [x Hx]. now destruct (H x).
Qed.
Print Assumptions C66_tags_partial.
Theorem C66_tags_available_partial : forall datas d p out, wf d -> labelled d -> is_perm4 p -> Forall geom_safe (components d) ->
  length (components d) <= length datas -> dofs_before d (length (components d)) <= length out ->
  exists out', gather_tags true datas d [] p out = Some out' /\ same_outside 0 (dofs_before d (length (components d))) out out' /\
    forall v b data j, nth_error (components d) v = Some b -> nth_error datas v = Some data -> j < num_dof_tet b -> got data b p j out (dofs_before d v + j) out'.
Proof. intros datas d p out Hwf Hlab Hp Hg Hn Hlen. apply tags_ok; auto. discriminate. Qed.
Print Assumptions C66_tags_available_partial.
(** Too few tags: an exception. *)
Theorem C66_tags_count : forall avail datas d p out, length datas < length (components d) -> gather_tags avail datas d [] p out = None.
Proof.
  intros avail datas d p out H. cbv beta iota zeta delta [gather_tags]. rewrite comp_count.
  assert (Q : (length (components d) <=? length datas) = false) by (apply Nat.leb_gt; exact H). unfold stored in *. now rewrite Q.
Qed.
Print Assumptions C66_tags_count.

(** Two cells with a common entity, seen with the orders of their vertex numbers: the same
    geometric dof gives the same value; for oriented edges up to the direction in which the
    two cells list the edge. *)
Theorem C66_shared_partial : forall d g g' p p' data data' i i' lo lo' c l l' v v', wf d -> labelled d ->
  length g = 4 -> NoDup g -> length g' = 4 -> NoDup g' -> order_permutation g = Some p -> order_permutation g' = Some p' ->
  local_order d i = Some lo -> local_order d i' = Some lo' -> lo_type lo' = lo_type lo -> lo_sym lo = Some (c, l) -> lo_sym lo' = Some (c, l') ->
  lo_leid lo - l = lo_leid lo' - l' ->
  same_entity g (lo_elem lo) g' (lo_elem lo') (lo_type lo) -> same_point g (lo_elem lo) l g' (lo_elem lo') l' (lo_type lo) c ->
  data (geom_dim (lo_type lo)) (lo_elem lo) = data' (geom_dim (lo_type lo)) (lo_elem lo') ->
  value_of data d p i v -> value_of data' d p' i' v' ->
  (lo_type lo <> 2 -> lo_type lo <> 4 -> v = v') /\
  (lo_type lo = 2 -> gids g 2 (lo_elem lo) = gids g' 2 (lo_elem lo') -> v = v') /\
  (lo_type lo = 2 -> gids g 2 (lo_elem lo) = rev (gids g' 2 (lo_elem lo')) -> v = (- v')%R).
Proof.
  intros d g g' p p' data data' i i' lo lo' c l l' v v' Hwf Hlab Hg Hn Hg' Hn' Ep Ep' El El' Ht Es Es' Hst Hse Hsp Hd
    (lo1 & c1 & l1 & r & a & s & w & A1 & A2 & A3 & A4 & A5 & A6 & ->) (lo2 & c2 & l2 & r' & a' & s' & w' & B1 & B2 & B3 & B4 & B5 & B6 & ->).
  assert (lo1 = lo) by congruence. assert (lo2 = lo') by congruence. subst lo1 lo2.
  assert (Q : (c1, l1) = (c, l)) by congruence. injection Q as -> ->. assert (Q : (c2, l2) = (c, l')) by congruence. injection Q as -> ->.
  destruct (lo_facts d Hwf Hlab i lo El) as (_ & _ & _ & _ & C1 & C2 & _). destruct (lo_facts d Hwf Hlab i' lo' El') as (_ & _ & _ & _ & D1 & D2 & _).
  rewrite Ht in *. pose proof Ep as Ep0. pose proof Ep' as Ep0'. rewrite order_permutation_ok in Ep0, Ep0' by assumption. injection Ep0 as E0. injection Ep0' as E0'.
  assert (r = r').
  { rewrite <- E0 in A3. rewrite <- E0' in B3. exact (placed_conform g g' (lo_type lo) c (lo_elem lo) (lo_elem lo') l l' r r' Hg Hn Hg' Hn' C1 C2 D2 Hse Hsp A3 B3). }
  subst r'. assert (a' = a) by congruence. subst a'. rewrite <- Hst in B6. assert (w' = w) by congruence. subst w'.
  assert (Hp : is_perm4 p) by (rewrite <- E0; now apply gperm_perm). assert (Hp' : is_perm4 p') by (rewrite <- E0'; now apply gperm_perm).
  split; [|split].
  - intros N2 N4. unfold sign_is in A4, B4. destruct (lo_type lo) as [|[|[|[|[|t]]]]]; congruence.
  - intros T Eg. rewrite T in *. destruct (C23_edge_shared g g' p p' (lo_elem lo) (lo_elem lo') Hg Hn Hg' Hn' Ep Ep' C2 D2) as [H _]. specialize (H Eg).
    destruct (sign_ok 2 (lo_elem lo) p ltac:(lia) C2 Hp) as (x & X1 & X2). destruct (sign_ok 2 (lo_elem lo') p' ltac:(lia) D2 Hp') as (y & Y1 & Y2).
    unfold locus_sign in X1, Y1. cbn [oriented Nat.eqb orb] in X1, Y1. rewrite H in X1. assert (x = y) by congruence.
    pose proof (sign_fun _ _ _ _ _ A4 X2). pose proof (sign_fun _ _ _ _ _ B4 Y2). congruence.
  - intros T Eg. rewrite T in *. destruct (C23_edge_shared g g' p p' (lo_elem lo) (lo_elem lo') Hg Hn Hg' Hn' Ep Ep' C2 D2) as [_ H]. destruct (H Eg) as (b & H1 & H2).
    destruct (sign_ok 2 (lo_elem lo) p ltac:(lia) C2 Hp) as (x & X1 & X2). destruct (sign_ok 2 (lo_elem lo') p' ltac:(lia) D2 Hp') as (y & Y1 & Y2).
    unfold locus_sign in X1, Y1. cbn [oriented Nat.eqb orb] in X1, Y1. rewrite H1 in X1. rewrite H2 in Y1. cbn [obind] in X1, Y1.
    pose proof (sign_fun _ _ _ _ _ A4 X2). pose proof (sign_fun _ _ _ _ _ B4 Y2). apply Some_inj in X1, Y1. subst s s' x y. destruct b; cbn [negb]; ring.
Qed.
Print Assumptions C66_shared_partial.

(** A tag with ones everywhere: every value is 1 or -1. *)
Definition ones (n : nat) : stored := fun _ _ => Some (repeat 1%R n).
Lemma ones_value : forall n d p g v, value_of (ones n) d p g v -> v <> 0%R.
Proof.
  intros n d p g v (lo & c & l & r & a & s & w & _ & _ & _ & A4 & A5 & A6 & ->). unfold ones in A5. injection A5 as <-.
  apply nth_error_In, repeat_spec in A6. subst w. rewrite Rmult_1_r. unfold sign_is in A4.
  assert (s = 1%Z \/ s = (-1)%Z) as [->| ->]; [|apply R1_neq_R0|apply IZR_neq; lia].
  destruct (lo_type lo) as [|[|[|[|[|t]]]]]; auto; match type of A4 with context [if ?b then _ else _] => destruct b; auto end.
Qed.
Lemma labelled_dec : forall d, forallb (fun x => match d_sym x with Some _ => true | None => false end) (layout d) = true -> labelled d.
Proof. intros d H x Hx. rewrite forallb_forall in H. specialize (H x Hx). now destruct (d_sym x). Qed.
Definition edge_or : dmap := unite_of_sym [0; 0; 0; 1; 0; 0; 0; 0; 0; 0; 0; 0; 0; 0; 0; 0].
Definition edge_un : dmap := unite_of_sym [0; 1; 0; 0; 0; 0; 0; 0; 0; 0; 0; 0; 0; 0; 0; 0].
(** A composition of a space with oriented and one with unoriented edge dofs: values are lost. *)
Theorem C66_gather_refuted : exists data d p out out' g, wf d /\ labelled d /\ is_perm4 p /\ full_data data d /\ length out = num_dof_tet d /\ g < num_dof_tet d /\
  gather false data d [] p 0 out = Some out' /\ forall v, value_of data d p g v -> nth_error out' g <> Some v.
Proof.
  exists (ones 2), (Complex [edge_or; edge_un]), [0; 1; 2; 3], (repeat 0%R 12). eexists. exists 0.
  split; [repeat split|]. split; [apply labelled_dec; vm_compute; reflexivity|]. split; [repeat split; repeat constructor; cbn; intuition lia|].
  split; [intros q e [H1 H2]; eexists; split; [reflexivity|]; rewrite repeat_length; destruct q as [|[|[|[|q]]]]; vm_compute; lia|].
  split; [reflexivity|]. split; [vm_compute; lia|]. split; [vm_compute; reflexivity|].
  intros v Hv E. apply ones_value in Hv. apply Hv. symmetry. now injection E.
Qed.
Print Assumptions C66_gather_refuted.

(** A tag per component and one component asked: the single-tag function writes the values
    at the beginning of the array, this one after the places of the components before, past
    the end of an array of the size of the component. *)
Definition nodes1 : dmap := unite_of_sym [1; 0; 0; 0; 0; 0; 0; 0; 0; 0; 0; 0; 0; 0; 0; 0].
Theorem C66_tags_component_refuted : exists data d c b p out, wf d /\ labelled d /\ is_perm4 p /\ full_data data d /\
  nth_error (components d) c = Some b /\ length out = num_dof_tet b /\
  gather false data d [c] p 0 out <> None /\ gather_tags false [data; data] d [c] p out = None.
Proof.
  exists (ones 2), (Complex [nodes1; nodes1]), 1, nodes1, [0; 1; 2; 3], (repeat 0%R 4).
  split; [repeat split|]. split; [apply labelled_dec; vm_compute; reflexivity|]. split; [repeat split; repeat constructor; cbn; intuition lia|].
  split; [intros q e [H1 H2]; eexists; split; [reflexivity|]; rewrite repeat_length; destruct q as [|[|[|[|q]]]]; vm_compute; lia|].
  split; [reflexivity|]. split; [reflexivity|]. split; [vm_compute; discriminate|vm_compute; reflexivity].
Qed.
Print Assumptions C66_tags_component_refuted.
(** In general the values of the component [c] appear at its place in the whole variable. *)
Theorem C66_tags_component_partial : forall datas data d c b rest p out v, wf d -> labelled d -> is_perm4 p ->
  nth_error (components d) c = Some b -> nth_error datas c = Some data -> nested_view b rest = Some v -> geom_safe (v_base v) -> full_data data b ->
  dofs_before d c + num_dof_tet (v_base v) <= length out ->
  exists out', gather_tags false datas d (c :: rest) p out = Some out' /\ same_outside (dofs_before d c) (num_dof_tet (v_base v)) out out' /\
    forall i, i < num_dof_tet (v_base v) -> exists x, nth_error out' (dofs_before d c + i) = Some x /\ value_of data b p (v_shift_tet v + i) x.
Proof.
  intros datas data d c b rest p out v Hwf Hlab Hp Eb Ed Ev Hg Hf Hlen. destruct (comp_view d c b Eb) as [se Ew].
  assert (Hwb : wf b) by apply (DofProofs2.nested_view_ok d [c] _ Hwf Ew). assert (Hlb : labelled b) by exact (labelled_view d [c] _ Hwf Hlab Ew).
  assert (Hall : forall i, i < num_dof_tet (v_base v) -> exists x, value_of data b p (v_shift_tet v + i) x).
  { intros i Hi. apply full_value; [assumption..|]. destruct (DofProofs2.nested_view_ok b rest v Hwb Ev) as (_ & _ & H & _). lia. }
  destruct (gather_ok false data b rest p (dofs_before d c) out v Hwb Hlb Hp Ev Hg Hlen (fun _ => Hall)) as (out' & E & Ho & Hgot).
  exists out'. split.
  - cbv beta iota zeta delta [gather_tags]. assert (Hc : c < length datas) by (apply nth_error_Some; congruence).
    assert (Q : (c + 1 <=? length datas) = true) by (apply Nat.leb_le; lia). unfold stored in *. rewrite Q. cbn [guard obind].
    replace (c + 1 - c) with 1 by lia. cbn [for_range]. rewrite Ew. cbn [obind v_base v_shift_tet]. unfold rd. rewrite Ed. cbn [obind]. now rewrite E.
  - split; [exact Ho|]. intros i Hi. destruct (Hgot i Hi) as [(x & H1 & H2)|[H _]]; [exists x; auto|]. destruct (Hall i Hi) as [x Hx]. now destruct (H x).
Qed.
Print Assumptions C66_tags_component_partial.
(** A variable without components, given as a list of one tag: nothing is gathered. *)
Theorem C66_tags_leaf_refuted : exists data d p out g, wf d /\ labelled d /\ is_perm4 p /\ full_data data d /\ length out = num_dof_tet d /\ g < num_dof_tet d /\
  gather_tags false [data] d [] p out = Some out /\ forall v, value_of data d p g v -> nth_error out g <> Some v.
Proof.
  exists (ones 1), nodes1, [0; 1; 2; 3], (repeat 0%R 4), 0.
  split; [repeat split|]. split; [apply labelled_dec; vm_compute; reflexivity|]. split; [repeat split; repeat constructor; cbn; intuition lia|].
  split; [intros q e [H1 H2]; eexists; split; [reflexivity|]; rewrite repeat_length; destruct q as [|[|[|[|q]]]]; vm_compute; lia|].
  split; [reflexivity|]. split; [vm_compute; lia|]. split; [reflexivity|]. intros v Hv E. apply ones_value in Hv. apply Hv. symmetry. now injection E.
Qed.
Print Assumptions C66_tags_leaf_refuted.

(** P3 edges and an oriented face: two copies of the space (two points per edge) and a
    space with one oriented dof on each face, on a cell whose vertices are ordered 2 0 3 1. *)
Definition ex66 : dmap := Complex [Vector 2 (unite_of_sym [1; 0; 1; 0; 0; 0; 0; 0; 0; 0; 0; 0; 0; 0; 0; 0]); unite_of_sym [0; 0; 0; 0; 0; 0; 0; 0; 1; 0; 0; 0; 0; 0; 0; 0]].
Definition ex66_data : stored := fun q e => Some (map (fun k => IZR (Z.of_nat (100 * q + 10 * e + k))) (seq 0 4)).
Example C66_ex : wf ex66 /\ labelled ex66 /\ geom_safe ex66 /\ Forall geom_safe (components ex66) /\ is_perm4 [2; 0; 3; 1] /\ full_data ex66_data ex66 /\
  num_dof_tet ex66 = 36 /\
  exists out, gather false ex66_data ex66 [] [2; 0; 3; 1] 0 (repeat 0%R 36) = Some out /\
    nth_error out 1 = Some (IZR 1 * IZR 10)%R /\ nth_error out 4 = Some (IZR 1 * IZR 101)%R /\ nth_error out 5 = Some (IZR 1 * IZR 100)%R /\
    nth_error out 20 = Some (IZR 1 * IZR 103)%R /\ nth_error out 32 = Some (IZR (-1) * IZR 200)%R.
Proof.
  split; [repeat split|]. split; [apply labelled_dec; vm_compute; reflexivity|]. split; [cbn; repeat split; auto|]. split; [repeat constructor|].
  split; [repeat split; repeat constructor; cbn; intuition lia|].
  split; [intros q e [H1 H2]; eexists; split; [reflexivity|]; rewrite map_length, seq_length; destruct q as [|[|[|[|q]]]]; vm_compute; lia|].
  split; [reflexivity|]. eexists. split; [vm_compute; reflexivity|]. repeat split.
Qed.
