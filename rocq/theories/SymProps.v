(** Properties C08 (symmetric dofs under renumbering), C22 (sorting permutation)
    and C44 (assembler and data access address the same dof). *)
From Verif Require Import Prelude DofModel DofSpec DofProofs DofProofs2 DofProps SymModel SymSpec SymProofs SymProofs2 SymProofs3.

(** ** C22 *)
(** The result lists, for each vertex, how many of the four ids are smaller:
    the place of the vertex in the sorted order. *)
Theorem C22_order_permutation : forall g, length g = 4 -> NoDup g ->
  order_permutation g = Some (map (fun x => length (filter (fun y => (y <? x)%Z) g)) g).
Proof. exact order_permutation_ok. Qed.
Print Assumptions C22_order_permutation.
(** Hence it is one of the 24 permutations and orders any two vertices as their ids. *)
Theorem C22_sorts : forall g, length g = 4 -> NoDup g -> exists p, order_permutation g = Some p /\ is_perm4 p /\
  forall v w, v < 4 -> w < 4 -> (app4 p v < app4 p w <-> (gid g v < gid g w)%Z).
Proof.
  intros g Hl Hn. exists (gperm g). split; [now apply order_permutation_ok|]. split; [now apply gperm_perm|].
  intros v w Hv Hw. rewrite !app4_gperm by assumption.
  rewrite <- Nat.ltb_lt, rankZ_iff by (apply gid_in; assumption). apply Z.ltb_lt.
Qed.
Print Assumptions C22_sorts.
(** Two cells sharing some vertices order them identically. *)
Theorem C22_shared : forall g g' p p' v w v' w', length g = 4 -> NoDup g -> length g' = 4 -> NoDup g' ->
  order_permutation g = Some p -> order_permutation g' = Some p' -> v < 4 -> w < 4 -> v' < 4 -> w' < 4 ->
  gid g v = gid g' v' -> gid g w = gid g' w' -> (app4 p v < app4 p w <-> app4 p' v' < app4 p' w').
Proof.
  intros g g' p p' v w v' w' Hl Hn Hl' Hn' E E' Hv Hw Hv' Hw' E1 E2.
  destruct (C22_sorts g Hl Hn) as (q & Eq & _ & H). destruct (C22_sorts g' Hl' Hn') as (q' & Eq' & _ & H').
  assert (q = p) by congruence. assert (q' = p') by congruence. subst q q'. rewrite H, H', E1, E2 by assumption. tauto.
Qed.
Print Assumptions C22_shared.
Ltac ord_solve := cbn [length Nat.sub repeat app]; unfold order_permutation; cbn [for_range rd nth_error obind];
  repeat (match goal with
  | |- context [(?x <? ?x)%Z] => rewrite (Z.ltb_irrefl x)
  | |- context [(?x <? ?y)%Z] => first [rewrite (proj2 (Z.ltb_lt x y)) by lia | rewrite (proj2 (Z.ltb_ge x y)) by lia]
  end; cbn [for_range rd nth_error obind]); cbn -[Z.ltb]; repeat match goal with
  | |- context [(?x <? ?x)%Z] => rewrite (Z.ltb_irrefl x)
  | |- context [(?x <? ?y)%Z] => first [rewrite (proj2 (Z.ltb_lt x y)) by lia | rewrite (proj2 (Z.ltb_ge x y)) by lia]
  end; reflexivity.
(** Entities with fewer vertices are padded with one huge id: the result is still a
    permutation and sorts the real vertices. *)
Theorem C22_padded : forall xs big, 1 <= length xs <= 4 -> NoDup xs -> (forall x, In x xs -> (x < big)%Z) ->
  exists p, order_permutation (xs ++ repeat big (4 - length xs)) = Some p /\ is_perm4 p /\
    forall v x, nth_error xs v = Some x -> nth_error p v = Some (length (filter (fun y => (y <? x)%Z) xs)).
Proof.
  intros xs big Hl Hn Hb.
  destruct (Nat.le_gt_cases 3 (length xs)) as [H3|H3].
  - set (g := xs ++ repeat big (4 - length xs)).
    assert (Hg : length g = 4) by (unfold g; rewrite app_length, repeat_length; lia).
    assert (Hng : NoDup g).
    { apply NoDup_app'; [exact Hn| |].
      - destruct (4 - length xs) as [|[|]] eqn:E; [constructor|repeat constructor; intros []|lia].
      - intros x Hx Hr. apply repeat_spec in Hr. subst. specialize (Hb _ Hx). lia. }
    exists (gperm g). split; [now apply order_permutation_ok|]. split; [now apply gperm_perm|].
    intros v x Ev. unfold gperm, g. rewrite nth_error_map, nth_error_app1 by (apply nth_error_Some; congruence). rewrite Ev. cbn [option_map].
    f_equal. unfold rankZ. rewrite filter_app, app_length.
    assert (E0 : filter (fun y => (y <? x)%Z) (repeat big (4 - length xs)) = []).
    { apply nth_error_In in Ev. specialize (Hb x Ev). clear Hng Hg g. induction (4 - length xs) as [|m IH]; [reflexivity|]. cbn [repeat filter].
      destruct (Z.ltb_spec big x); [lia|exact IH]. }
    rewrite E0. cbn. lia.
  - destruct xs as [|a [|b [|]]]; cbn in Hl, H3; try lia.
    + assert (Ha := Hb a (or_introl eq_refl)).
      exists [0; 3; 2; 1]. split.
      * ord_solve.
      * split; [split; [reflexivity|]; split; repeat constructor; cbn; intuition lia|].
        intros [|[|v]] x E; cbn in E; try discriminate E. injection E as <-. cbn. now rewrite Z.ltb_irrefl.
    + assert (Ha := Hb a (or_introl eq_refl)). assert (Hb' := Hb b (or_intror (or_introl eq_refl))).
      assert (a <> b) by (intros ->; inversion Hn as [|? ? H1 _]; apply H1; now left).
      destruct (Z.ltb_spec a b) as [Hab|Hab]; [exists [0; 1; 3; 2]|exists [1; 0; 3; 2]].
      all: split; [ord_solve|].
      all: split; [split; [reflexivity|]; split; repeat constructor; cbn; intuition lia|].
      all: intros [|[|[|v]]] x E; cbn in E; try discriminate E; injection E as <-; cbn; rewrite Z.ltb_irrefl.
      all: destruct (Z.ltb_spec a b), (Z.ltb_spec b a); try lia; reflexivity.
Qed.
Print Assumptions C22_padded.
Example C22_ex : order_permutation [17; 4; 99; 5]%Z = Some [2; 0; 3; 1].
Proof. reflexivity. Qed.

(** ** C08 *)
(** Every point of every class on every entity is sent where the renumbering
    sends its marks. *)
Theorem C08_place : forall t e c l p, t < 6 -> e < tet_elems t -> l < npoints t c -> is_perm4 p ->
  exists r, index_on t e c l p = Some r /\ placed t e c l p r.
Proof. exact index_placed. Qed.
Print Assumptions C08_place.
Theorem C08_bijection : forall t e c p, t < 6 -> e < tet_elems t -> is_perm4 p ->
  (forall l l' r, l < npoints t c -> l' < npoints t c -> index_on t e c l p = Some r -> index_on t e c l' p = Some r -> l = l') /\
  (forall r, r < npoints t c -> exists l, l < npoints t c /\ index_on t e c l p = Some r).
Proof.
  intros t e c p Ht He Hp. split.
  - intros l l' r Hl Hl' E E'. destruct (index_placed t e c l p Ht He Hl Hp) as (x & Ex & Px).
    destruct (index_placed t e c l' p Ht He Hl' Hp) as (y & Ey & Py).
    assert (x = r) by congruence. assert (y = r) by congruence. subst x y. eapply placed_inj; eassumption.
  - intros r Hr. now apply index_onto.
Qed.
Print Assumptions C08_bijection.
(** Two cells that share an entity give the same place to the same geometric dof,
    whatever the global vertex identifiers. *)
Theorem C08_conform : forall g g' p p' t c e e' l l' r r',
  length g = 4 -> NoDup g -> length g' = 4 -> NoDup g' ->
  order_permutation g = Some p -> order_permutation g' = Some p' ->
  t < 6 -> e < tet_elems t -> e' < tet_elems t -> l < npoints t c -> l' < npoints t c ->
  same_entity g e g' e' t -> same_point g e l g' e' l' t c ->
  index_on t e c l p = Some r -> index_on t e' c l' p' = Some r' -> r = r'.
Proof.
  intros g g' p p' t c e e' l l' r r' Hl Hn Hl' Hn' Ep Ep' Ht He He' Hll Hll' Hse Hsp Er Er'.
  rewrite order_permutation_ok in Ep, Ep' by assumption. injection Ep as <-. injection Ep' as <-.
  fold (gperm g) in Er. fold (gperm g') in Er'.
  destruct (index_placed t e c l _ Ht He Hll (gperm_perm g Hl Hn)) as (x & Ex & Px).
  destruct (index_placed t e' c l' _ Ht He' Hll' (gperm_perm g' Hl' Hn')) as (y & Ey & Py).
  assert (x = r) by congruence. assert (y = r') by congruence. subst x y.
  exact (placed_conform g g' t c e e' l l' r r' Hl Hn Hl' Hn' Ht He He' Hse Hsp Px Py).
Qed.
Print Assumptions C08_conform.
(** Renumbering moves entities to the entities with the image vertices. *)
Theorem C08_entity_image : forall t e p, t < 6 -> e < tet_elems t -> is_perm4 p ->
  exists e', remap_elem t e p = Some e' /\ e' < tet_elems t /\
    forall v, In v (corners t e') <-> In v (map (app4 p) (corners t e)).
Proof. exact remap_elem_ok. Qed.
Print Assumptions C08_entity_image.
(** Identity and composition: everywhere except the classes s3 and s6 of faces 2
    and 3, whose corners the cell lists cyclically and not in increasing order. *)
Theorem C08_identity_partial : forall t e c l, t < 6 -> e < tet_elems t -> l < npoints t c ->
  (t <> 3 /\ t <> 4) \/ e < 2 \/ c = 0 -> index_on t e c l [0; 1; 2; 3] = Some l.
Proof.
  intros t e c l Ht He Hl H. apply index_identity; [assumption..|]. unfold sorted_entity.
  destruct (Nat.eqb_spec t 3), (Nat.eqb_spec t 4), (Nat.ltb_spec e 2), (Nat.eqb_spec c 0); try reflexivity; lia.
Qed.
Print Assumptions C08_identity_partial.
Theorem C08_composition_partial : forall t e c l p q e' r, t < 6 -> e < tet_elems t -> l < npoints t c ->
  is_perm4 p -> is_perm4 q -> remap_elem t e p = Some e' -> index_on t e c l p = Some r ->
  (t <> 3 /\ t <> 4) \/ e' < 2 \/ c = 0 ->
  index_on t e' c r q = index_on t e c l (map (app4 q) p).
Proof.
  intros t e c l p q e' r Ht He Hl Hp Hq Ee Er H. apply (index_compose t e c l p q Ht He Hl Hp Hq e' r Ee Er). unfold sorted_entity.
  destruct (Nat.eqb_spec t 3), (Nat.eqb_spec t 4), (Nat.ltb_spec e' 2), (Nat.eqb_spec c 0); try reflexivity; lia.
Qed.
Print Assumptions C08_composition_partial.
(** On face 2 the identity renumbering turns the three s3 points cyclically. *)
Theorem C08_identity_refuted : exists t e c l, t < 6 /\ e < tet_elems t /\ l < npoints t c /\
  index_on t e c l [0; 1; 2; 3] <> Some l.
Proof. exists 3, 2, 1, 0. vm_compute. repeat split; try lia. discriminate. Qed.
Print Assumptions C08_identity_refuted.
Theorem C08_composition_refuted : exists t e c l p q e' r, t < 6 /\ e < tet_elems t /\ l < npoints t c /\
  is_perm4 p /\ is_perm4 q /\ remap_elem t e p = Some e' /\ index_on t e c l p = Some r /\
  index_on t e' c r q <> index_on t e c l (map (app4 q) p).
Proof.
  exists 3, 2, 1, 0, [0; 1; 2; 3], [0; 1; 2; 3], 2, 1.
  repeat split; try (vm_compute; lia); try (repeat constructor; cbn; intuition lia); try reflexivity. discriminate.
Qed.
Print Assumptions C08_composition_refuted.
Example C08_ex : is_perm4 [2; 0; 3; 1] /\ index_on 5 0 4 7 [2; 0; 3; 1] = Some 2 /\ npoints 5 4 = 24 /\
  index_on 3 1 2 3 [2; 0; 3; 1] = Some 0 /\
  same_entity [7; 3; 9; 5]%Z 0 [9; 7; 3; 8]%Z 0 3 /\ same_point [7; 3; 9; 5]%Z 0 0 [9; 7; 3; 8]%Z 0 1 3 1.
Proof.
  split; [split; [reflexivity|]; split; repeat constructor; cbn; intuition lia|]. do 3 (split; [reflexivity|]). split.
  - intros x. cbn. intuition.
  - intros k k' v v' H H' E. destruct k as [|[|[|k]]]; try (destruct k; discriminate H);
      destruct k' as [|[|[|k']]]; try (destruct k'; discriminate H'); injection H as <-; injection H' as <-;
      try discriminate E; reflexivity.
Qed.

(** The dof permutation matrix S4::build_dof_permutation.  For a map with at most
    one orbit per class every column has exactly one non-zero entry, +1 or -1,
    placed at the dof on the image entity, of the same class, at the image place;
    different columns hit different rows. *)
Theorem C08_matrix_partial : forall s p, single_orbits s -> is_perm4 p ->
  let d := unite_of_sym s in let n := num_dof_tet d in
  exists P (to : nat -> nat), build_perm d p = Some P /\ length P = n * n /\
    (forall j j', j < n -> j' < n -> to j = to j' -> j = j') /\
    forall j, j < n -> to j < n /\
      (exists lo lo' c l r, local_order d j = Some lo /\ local_order d (to j) = Some lo' /\
         lo_type lo' = lo_type lo /\ remap_elem (lo_type lo) (lo_elem lo) p = Some (lo_elem lo') /\
         lo_sym lo = Some (c, l) /\ lo_sym lo' = Some (c, r) /\ placed (lo_type lo) (lo_elem lo) c l p r) /\
      exists a, (a = 1 \/ a = -1)%Z /\ forall i, i < n -> nth_error P (i + j * n) = Some (if i =? to j then a else 0%Z).
Proof.
  intros s p [Hs Hm] Hp d n. assert (Hwf : wf d) by now apply wf_unite_of_sym.
  destruct (build_perm_ok s p Hs Hm Hp) as (P & E & Hl & H). fold d n in E, Hl, H.
  exists P, (fun j => match perm_column d p j with Some (Some (nj, _)) => nj | _ => 0 end).
  split; [exact E|]. split; [exact Hl|].
  assert (Hcol : forall j, j < n -> exists y x nj z a, nth_error (layout d) j = Some y /\ remap_label (lab y) p = Some x /\
     nth_error (layout d) nj = Some z /\ lab z = x /\ (a = 1 \/ a = -1)%Z /\ perm_column d p j = Some (Some (nj, a))).
  { intros j Hj. unfold n in Hj. rewrite length_layout_num in Hj by assumption.
    destruct (nth_error (layout d) j) as [y|] eqn:Ej; [|apply nth_error_None in Ej; lia].
    destruct (perm_column_ok s p j y Hs Hm Hp Ej) as (x & nj & z & a & H1 & H2 & H3 & H4 & H5 & H6).
    exists y, x, nj, z, a. auto 10. }
  split.
  - intros j j' Hj Hj' Et. destruct (Hcol j Hj) as (y & x & nj & z & a & Ey & Ex & Ez & El & _ & Ec).
    destruct (Hcol j' Hj') as (y' & x' & nj' & z' & a' & Ey' & Ex' & Ez' & El' & _ & Ec').
    rewrite Ec, Ec' in Et. subst nj'. assert (z' = z) by congruence. subst z'. assert (x' = x) by congruence. subst x'.
    apply (labels_inj s j j' y y' Hs Hm Ey Ey').
    assert (Hv : valid_label s (lab y)) by (apply (in_labels s _ Hs), in_map; eapply nth_error_In, Ey).
    assert (Hv' : valid_label s (lab y')) by (apply (in_labels s _ Hs), in_map; eapply nth_error_In, Ey').
    destruct (remap_label_valid s (lab y) p Hv Hp) as (t & e & c & l & e1 & r & E1 & Ht & He & Hll & Ee & He' & Er & Pr & Ey1 & _).
    destruct (remap_label_valid s (lab y') p Hv' Hp) as (t' & e' & c' & l' & e1' & r' & E1' & Ht' & He1 & Hll' & Ee' & He1' & Er' & Pr' & Ey1' & _).
    assert (Hlab : (t, e1, Some (c, r)) = (t', e1', Some (c', r'))) by congruence. injection Hlab as <- <- <- <-. rewrite E1, E1'.
    assert (e = e').
    { destruct (remap_elem_ok t e p Ht He Hp) as (f & Ef & Hf & Hi). destruct (remap_elem_ok t e' p Ht He1 Hp) as (f' & Ef' & Hf' & Hi').
      assert (f = e1) by congruence. assert (f' = e1) by congruence. subst f f'.
      assert (Hinj : forallb (fun t => forallb (fun p => forallb (fun a => forallb (fun b =>
         (a =? b) || negb (match remap_elem t a p, remap_elem t b p with Some u, Some v => u =? v | _, _ => false end))
         (seq 0 (tet_elems t))) (seq 0 (tet_elems t))) perms4) (seq 0 6) = true) by (vm_compute; reflexivity).
      apply forall_seq with (x := t) in Hinj; [|exact Ht]. eapply forall_perms in Hinj; [|exact Hp]. cbv beta in Hinj.
      apply forall_seq with (x := e) in Hinj; [|exact He]. apply forall_seq with (x := e') in Hinj; [|exact He1].
      rewrite Ef, Ef', Nat.eqb_refl in Hinj. cbn [negb] in Hinj. rewrite orb_false_r in Hinj. now apply Nat.eqb_eq. }
    subst e'. assert (l = l') by (eapply (placed_inj t e c l l' p r); eassumption). now subst.
  - intros j Hj. destruct (H j Hj) as (nj & a & Ec & Hnj & Ha & HP).
    rewrite Ec. split; [exact Hnj|]. split; [|exists a; auto].
    destruct (Hcol j Hj) as (y & x & nj' & z & a' & Ey & Ex & Ez & El & _ & Ec'). assert (nj' = nj) by congruence. subst nj'.
    assert (Hv : valid_label s (lab y)) by (apply (in_labels s _ Hs), in_map; eapply nth_error_In, Ey).
    destruct (remap_label_valid s (lab y) p Hv Hp) as (t & e & c & l & e1 & r & E1 & Ht & He & Hll & Ee & He' & Er & Pr & Ey1 & _).
    rewrite !local_order_layout, Ey, Ez by assumption. do 2 eexists. exists c, l, r.
    split; [reflexivity|]. split; [reflexivity|]. cbn [lo_type lo_elem lo_sym].
    assert (El' : lab z = (t, e1, Some (c, r))) by congruence. unfold lab in E1, El'.
    assert (d_type y = t) by congruence. assert (d_elem y = e) by congruence. assert (d_sym y = Some (c, l)) by congruence.
    assert (d_type z = t) by congruence. assert (d_elem z = e1) by congruence. assert (d_sym z = Some (c, r)) by congruence.
    destruct y as [ty ey py sy], z as [tz ez pz sz]. cbn [d_type d_elem d_sym] in *. subst. auto 10.
Qed.
Print Assumptions C08_matrix_partial.
(** On maps that also have no s3/s6 orbits on faces the matrices represent the
    group: applying p and then q sends column j where the composed renumbering
    sends it, signs multiply, and the identity renumbering gives the identity. *)
Theorem C08_matrix_action_partial : forall s p q j, single_orbits s -> no_s3_s6_on_faces s -> is_perm4 p -> is_perm4 q ->
  j < num_dof_tet (unite_of_sym s) ->
  exists nj a nk b, perm_column (unite_of_sym s) p j = Some (Some (nj, a)) /\
    perm_column (unite_of_sym s) q nj = Some (Some (nk, b)) /\
    perm_column (unite_of_sym s) (map (app4 q) p) j = Some (Some (nk, b * a)%Z) /\
    perm_column (unite_of_sym s) [0; 1; 2; 3] j = Some (Some (j, 1%Z)).
Proof.
  intros s p q j [Hs Hm] Hf Hp Hq Hj. assert (Hwf := wf_unite_of_sym s Hs). rewrite length_layout_num in Hj by assumption.
  destruct (nth_error (layout (unite_of_sym s)) j) as [y|] eqn:Ej; [|apply nth_error_None in Ej; lia].
  assert (Hv : valid_label s (lab y)) by (apply (in_labels s _ Hs), in_map; eapply nth_error_In, Ej).
  destruct (remap_label_valid s (lab y) p Hv Hp) as (t & e & c & l & e1 & r & E1 & Ht & He & Hll & Ee & He' & Er & Pr & Ey1 & Hv1).
  destruct (perm_column_ok s p j y Hs Hm Hp Ej) as (x & nj & z & a & Ex & Ez & El & Ea & Ha & Ec).
  destruct (perm_column_ok s q nj z Hs Hm Hq Ez) as (x2 & nk & w & b & Ex2 & Ew & Elw & Eb & Hb & Ec2).
  destruct (perm_column_ok s (compose4 q p) j y Hs Hm (compose_perm p q Hp Hq) Ej) as (x3 & nk3 & w3 & b3 & Ex3 & Ew3 & Elw3 & Eb3 & Hb3 & Ec3).
  destruct (perm_column_ok s id4 j y Hs Hm id_perm Ej) as (x4 & nj4 & w4 & b4 & Ex4 & Ew4 & Elw4 & Eb4 & Hb4 & Ec4).
  rewrite (remap_id s (lab y) Hf Hv) in Ex4. injection Ex4 as <-.
  assert (nj4 = j) by (eapply labels_inj; [exact Hs|exact Hm|exact Ew4|exact Ej|exact Elw4]). subst nj4.
  assert (Hcmp := remap_compose s (lab y) x p q Hf Hv Hp Hq Ex). rewrite El, Ex3 in *.
  rewrite Ex2 in Hcmp. injection Hcmp as Hcmp. subst x3.
  assert (nk3 = nk) by (eapply labels_inj; [exact Hs|exact Hm|exact Ew3|exact Ew|congruence]). subst nk3.
  assert (Hy : d_type y = t /\ d_elem y = e) by (unfold lab in E1; split; congruence). destruct Hy as [Hy1 Hy2].
  assert (Hz : d_type z = t /\ d_elem z = e1) by (unfold lab in *; split; congruence). destruct Hz as [Hz1 Hz2].
  rewrite Hy1, Hy2 in *. rewrite Hz1, Hz2 in *.
  destruct (sign_compose t e p q Ht He Hp Hq e1 Ee) as (a' & b' & Sa & Sb & Sc & _).
  assert (a' = a) by congruence. assert (b' = b) by congruence. subst a' b'.
  assert (b3 = (b * a)%Z) by congruence. subst b3.
  rewrite sign_id in Eb4 by assumption. injection Eb4 as <-.
  exists nj, a, nk, b. auto.
Qed.
Print Assumptions C08_matrix_action_partial.
(** With two orbits of one class, or for a vector space, the matrix is not a
    permutation: two columns hit the same row. *)
Definition column_clash (d : dmap) (p : list nat) : Prop :=
  exists i j r a b, i <> j /\ i < num_dof_tet d /\ j < num_dof_tet d /\
    perm_column d p i = Some (Some (r, a)) /\ perm_column d p j = Some (Some (r, b)).
Theorem C08_matrix_orbits_refuted : exists s p, length s = 16 /\ is_perm4 p /\ column_clash (unite_of_sym s) p.
Proof.
  exists [2;0;0;0;0;0;0;0;0;0;0;0;0;0;0;0], [0; 1; 2; 3]. split; [reflexivity|]. split; [exact id_perm|].
  exists 0, 1, 0, 1%Z, 1%Z. vm_compute. repeat split; try lia; discriminate.
Qed.
Print Assumptions C08_matrix_orbits_refuted.
Theorem C08_matrix_vector_refuted : exists d p, wf d /\ is_perm4 p /\ column_clash d p.
Proof.
  exists (Vector 3 P1map), [1; 0; 2; 3]. split; [cbn; auto|]. split.
  { split; [reflexivity|]. split; repeat constructor; cbn; intuition lia. }
  exists 0, 4, 1, 1%Z, 1%Z. vm_compute. repeat split; try lia; discriminate.
Qed.
Print Assumptions C08_matrix_vector_refuted.
Example C08_matrix_ex : single_orbits [1;0;1;0;0;1;0;0;0;0;0;1;1;0;0;0] /\ no_s3_s6_on_faces [1;0;1;0;0;1;0;0;0;0;0;1;1;0;0;0] /\
  num_dof_tet (unite_of_sym [1;0;1;0;0;1;0;0;0;0;0;1;1;0;0;0]) = 25.
Proof. repeat split; repeat constructor. Qed.

(** The representative permutation S4::perm_vertex_to_repr takes entity 0 to the target. *)
Theorem C08_representative : forall t e, t < 6 -> e < tet_elems t -> exists p, perm_to_repr t e = Some p /\ is_perm4 p /\
  remap_elem t 0 p = Some e.
Proof.
  intros t e Ht He.
  assert (H : forallb (fun t => forallb (fun e => match perm_to_repr t e with
     | Some p => existsb (fun x => if list_eq_dec Nat.eq_dec x p then true else false) perms4 &&
                 match remap_elem t 0 p with Some x => x =? e | None => false end
     | None => false end) (seq 0 (tet_elems t))) (seq 0 6) = true) by (vm_compute; reflexivity).
  apply forall_seq with (x := t) in H; [|exact Ht]. apply forall_seq with (x := e) in H; [|exact He].
  destruct (perm_to_repr t e) as [p|]; [|discriminate]. exists p. apply andb_true_iff in H as [H1 H2]. split; [reflexivity|]. split.
  - apply existsb_exists in H1 as (x & Hx & E). destruct (list_eq_dec Nat.eq_dec x p); [|discriminate]. subst. now apply in_perms4.
  - destruct (remap_elem t 0 p) as [x|]; [|discriminate]. apply Nat.eqb_eq in H2. now subst.
Qed.
Print Assumptions C08_representative.

(** The generators S4::stabilizer_data of a node, edge or face generate exactly
    the renumberings that keep it; those of the cell do not generate all 24. *)
Fixpoint words (n : nat) (gens : list (list nat)) : list (list nat) :=
  match n with O => [id4] | S m => id4 :: flat_map (fun w => map (fun g => compose4 g w) gens) (words m gens) end.
Lemma words_generated : forall n gens w, In w (words n gens) -> generated gens w.
Proof.
  induction n as [|n IH]; intros gens w H; cbn [words] in H.
  - destruct H as [<-|[]]. constructor.
  - destruct H as [<-|H]; [constructor|]. apply in_flat_map in H as (u & Hu & H). apply in_map_iff in H as (g & <- & Hg).
    constructor; [exact Hg|]. now apply IH.
Qed.
Definition fixesb (t e : nat) (p : list nat) : bool :=
  match remap_elem t e p with Some x => x =? e | None => false end.
Lemma fixesb_iff : forall t e p, t < 6 -> e < tet_elems t -> is_perm4 p -> fixes t e p <-> fixesb t e p = true.
Proof.
  intros t e p Ht He Hp. unfold fixesb. destruct (remap_elem_ok t e p Ht He Hp) as (e' & E & He' & H). rewrite E. split.
  - intros Hf. apply Nat.eqb_eq.
    assert (Hd : forallb (fun t => forallb (fun a => forallb (fun b => (a =? b) ||
        negb (forallb (fun v => Bool.eqb (existsb (Nat.eqb v) (corners t a)) (existsb (Nat.eqb v) (corners t b))) (seq 0 4)))
        (seq 0 (tet_elems t))) (seq 0 (tet_elems t))) (seq 0 6) = true) by (vm_compute; reflexivity).
    apply forall_seq with (x := t) in Hd; [|exact Ht]. apply forall_seq with (x := e') in Hd; [|exact He'].
    apply forall_seq with (x := e) in Hd; [|exact He]. apply orb_true_iff in Hd as [Hd|Hd]; [now apply Nat.eqb_eq|].
    exfalso. apply negb_true_iff in Hd.
    assert (forallb (fun v => Bool.eqb (existsb (Nat.eqb v) (corners t e')) (existsb (Nat.eqb v) (corners t e))) (seq 0 4) = true); [|congruence].
    apply forallb_forall. intros v _. apply eqb_true_iff.
    assert (Hvv : In v (corners t e') <-> In v (corners t e)) by (rewrite (H v), (Hf v); tauto).
    destruct (existsb (Nat.eqb v) (corners t e')) eqn:E1, (existsb (Nat.eqb v) (corners t e)) eqn:E2; try reflexivity.
    + apply existsb_in in E1. apply Hvv, existsb_in in E1. congruence.
    + apply existsb_in in E2. apply Hvv, existsb_in in E2. congruence.
  - intros Hb. apply Nat.eqb_eq in Hb. subst e'. exact H.
Qed.
Theorem C08_stabilizer_partial : forall t e, t < 5 -> e < tet_elems t -> exists gens, stab_gens t e = Some gens /\
  (forall p, is_perm4 p -> fixes t e p -> generated gens p) /\
  (forall p, generated gens p -> is_perm4 p /\ fixes t e p).
Proof.
  intros t e Ht He.
  assert (H : forallb (fun t => forallb (fun e => match stab_gens t e with
     | Some gens =>
         forallb (fun p => negb (fixesb t e p) || existsb (fun w => if list_eq_dec Nat.eq_dec w p then true else false) (words 4 gens)) perms4 &&
         forallb (fun g => existsb (fun x => if list_eq_dec Nat.eq_dec x g then true else false) perms4) gens &&
         forallb (fun g => forallb (fun p => negb (fixesb t e p) || fixesb t e (compose4 g p)) perms4) gens && fixesb t e id4
     | None => false end) (seq 0 (tet_elems t))) (seq 0 5) = true) by (vm_compute; reflexivity).
  apply forall_seq with (x := t) in H; [|exact Ht]. apply forall_seq with (x := e) in H; [|exact He].
  destruct (stab_gens t e) as [gens|]; [|discriminate]. exists gens. split; [reflexivity|].
  apply andb_true_iff in H as [H H4]. apply andb_true_iff in H as [H H3]. apply andb_true_iff in H as [H1 H2]. split.
  - intros p Hp Hf. eapply forall_perms in H1; [|exact Hp]. cbv beta in H1.
    apply fixesb_iff in Hf; [|lia|assumption..]. rewrite Hf in H1. cbn [negb orb] in H1.
    apply existsb_exists in H1 as (w & Hw & E). destruct (list_eq_dec Nat.eq_dec w p); [|discriminate]. subst.
    eapply words_generated, Hw.
  - intros p Hg. assert (is_perm4 p /\ fixesb t e p = true) as [Hp Hb].
    { induction Hg as [|g p Hg Hgen [Hp Hb]]; [split; [exact id_perm|exact H4]|]. rewrite forallb_forall in H2, H3.
      specialize (H2 g Hg). apply existsb_exists in H2 as (x & Hx & E). destruct (list_eq_dec Nat.eq_dec x g); [|discriminate]. subst x.
      apply in_perms4 in Hx. split; [now apply compose_perm|]. specialize (H3 g Hg).
      eapply forall_perms in H3; [|exact Hp]. cbv beta in H3. rewrite Hb in H3. exact H3. }
    split; [exact Hp|]. apply fixesb_iff; [lia|assumption..].
Qed.
Print Assumptions C08_stabilizer_partial.
Theorem C08_stabilizer_refuted : exists p gens, stab_gens 5 0 = Some gens /\ is_perm4 p /\ fixes 5 0 p /\ ~ generated gens p.
Proof.
  exists [0; 1; 3; 2], [[1; 0; 2; 3]; [0; 2; 1; 3]]. split; [reflexivity|]. split.
  { split; [reflexivity|]. split; repeat constructor; cbn; intuition lia. }
  split; [intros v; cbn; intuition lia|]. intros H.
  assert (Hinv : forall p, generated [[1; 0; 2; 3]; [0; 2; 1; 3]] p -> nth 3 p 0 = 3 /\ length p = 4).
  { clear H. intros p H. induction H as [|g p Hg _ [IH Hl]]; [split; reflexivity|].
    destruct p as [|a [|b [|c [|d [|]]]]]; try discriminate Hl. cbn in IH. subst d. split; [|reflexivity].
    destruct Hg as [<-|[<-|[]]]; reflexivity. }
  destruct (Hinv _ H) as [H1 _]. discriminate H1.
Qed.
Print Assumptions C08_stabilizer_refuted.
(** On the stabiliser the character is the sign used in the matrix. *)
Theorem C08_character : forall t e p, t < 6 -> e < tet_elems t -> is_perm4 p -> fixes t e p ->
  exists a, stab_char p t e = Some a /\ perm_sign t e p = Some a.
Proof.
  intros t e p Ht He Hp Hf. apply fixesb_iff in Hf; [|assumption..].
  assert (H : forallb (fun t => forallb (fun e => forallb (fun p => negb (fixesb t e p) ||
     match stab_char p t e, perm_sign t e p with Some a, Some b => (a =? b)%Z | _, _ => false end) perms4)
     (seq 0 (tet_elems t))) (seq 0 6) = true) by (vm_compute; reflexivity).
  apply forall_seq with (x := t) in H; [|exact Ht]. apply forall_seq with (x := e) in H; [|exact He].
  eapply forall_perms in H; [|exact Hp]. cbv beta in H. rewrite Hf in H. cbn [negb orb] in H.
  destruct (stab_char p t e) as [a|], (perm_sign t e p) as [b|]; try discriminate. apply Z.eqb_eq in H. subst. eauto.
Qed.
Print Assumptions C08_character.

(** ** C44 *)
(** What the index table of the assembler contains: slot i - l + r, where r is
    the place of dof i = (orbit start) + l, holds the number of dof i; every slot
    is written. *)
Theorem C44_table : forall (N : Type) d p (numb : LocalOrder -> N), wf d -> labelled d -> is_perm4 p ->
  exists tab, asm_table d p numb = Some tab /\ length tab = num_dof_tet d /\
    forall i lo c l r, local_order d i = Some lo -> lo_sym lo = Some (c, l) ->
      index_on (lo_type lo) (lo_elem lo) c l p = Some r -> nth_error tab (i - l + r) = Some (Some (numb lo)).
Proof. exact @asm_table_ok. Qed.
Print Assumptions C44_table.
(** The number used for local dof i is that of the dof stored at the position from
    which data access reads dof i -- when all orbits are node, edge or
    single-point orbits (which covers every built-in space). *)
Theorem C44_agrees_partial : forall (N : Type) d p (numb : LocalOrder -> N) tab i lo c l,
  wf d -> labelled d -> is_perm4 p -> asm_table d p numb = Some tab ->
  local_order d i = Some lo -> lo_sym lo = Some (c, l) -> lo_type lo < 3 \/ c = 0 ->
  exists k lo', local_order d k = Some lo' /\ lo_type lo' = lo_type lo /\ lo_elem lo' = lo_elem lo /\
    locus_index d lo p = Some ((if oriented (lo_type lo) then num_dof d (lo_type lo - 1) else 0) + lo_leid lo') /\
    nth_error tab i = Some (Some (numb lo')).
Proof.
  intros N d p numb tab i lo c l Hwf Hlab Hp Et Elo Es Hinv.
  destruct (C44_table N d p numb Hwf Hlab Hp) as (tab' & Et' & _ & H). assert (tab' = tab) by congruence. subst tab'. clear Et'.
  destruct (local_order_inv d i lo Hwf Elo) as (Hi & En & _). destruct lo as [gi t e q s]. cbn [lo_sym lo_type lo_elem lo_leid] in *. subst s.
  unfold dof_of_lo in En. cbn [lo_sym lo_type lo_elem lo_leid] in En.
  destruct (dof_facts d i t e q c l Hwf En) as (Ht & He & Hq & Hl & Hli & Hlq).
  destruct (index_placed t e c l p Ht He Hl Hp) as (r & Er & [Hr _]).
  destruct (oclosed_layout d Hwf _ _ _ _ _ _ En) as (_ & _ & _ & Horb).
  assert (Hiv : involutive t c = true).
  { unfold involutive. destruct Hinv as [Hc|Hc]; [apply Nat.ltb_lt in Hc; now rewrite Hc|]. subst. now rewrite orb_true_r. }
  pose proof (index_involutive t e c l p r Ht He Hl Hp Hiv Er) as Er'.
  set (k := i - l + r).
  assert (Ek : local_order d k = Some (LO k t e (q - l + r) (Some (c, r)))).
  { rewrite local_order_layout by assumption. unfold k. rewrite (Horb r Hr). reflexivity. }
  exists k, (LO k t e (q - l + r) (Some (c, r))). cbn [lo_type lo_elem lo_leid]. repeat split; [exact Ek| |].
  - unfold locus_index. cbn [lo_sym lo_type lo_elem lo_leid obind fst snd]. rewrite Er. cbn [obind]. f_equal. lia.
  - specialize (H k _ c r l Ek eq_refl Er'). rewrite <- H. f_equal. unfold k. lia.
Qed.
Print Assumptions C44_agrees_partial.
(** For three points on a face (s3) the table holds the inverse placement: the
    number used for local dof 0 of face 0 is that of element position 2 while data
    access reads dof 0 at element position 1. *)
Definition s3_faces : dmap := unite_of_sym [0;0;0;0;0;0;1;0;0;0;0;0;0;0;0;0].
Theorem C44_agrees_refuted : exists d p tab i lo k, wf d /\ is_perm4 p /\ asm_table d p lo_leid = Some tab /\
  local_order d i = Some lo /\ oriented (lo_type lo) = false /\ locus_index d lo p = Some k /\
  nth_error tab i <> Some (Some k).
Proof.
  exists s3_faces, [1; 2; 0; 3], [Some 2; Some 0; Some 1; Some 1; Some 0; Some 2; Some 0; Some 2; Some 1; Some 1; Some 2; Some 0], 0, (LO 0 3 0 0 (Some (1, 0))), 1.
  split; [cbn; auto|]. split; [split; [reflexivity|]; split; repeat constructor; cbn; intuition lia|].
  repeat split; try (vm_compute; reflexivity). discriminate.
Qed.
Print Assumptions C44_agrees_refuted.
(** As a result two cells sharing a face use different numbers for one dof: cells
    with vertex ids (1,2,0,5) and (0,1,2,6) share face {0,1,2}; the point next to
    vertex 1 is dof 0 of the first and dof 1 of the second; the element position
    used by the first is 2, by the second 1. *)
Theorem C44_shared_refuted : exists g g' p p' tab tab' l l',
  order_permutation g = Some p /\ order_permutation g' = Some p' /\
  same_entity g 0 g' 0 3 /\ same_point g 0 l g' 0 l' 3 1 /\
  asm_table s3_faces p lo_leid = Some tab /\ asm_table s3_faces p' lo_leid = Some tab' /\
  nth_error tab l <> nth_error tab' l'.
Proof.
  exists [1; 2; 0; 5]%Z, [0; 1; 2; 6]%Z, [1; 2; 0; 3], [0; 1; 2; 3],
    [Some 2; Some 0; Some 1; Some 1; Some 0; Some 2; Some 0; Some 2; Some 1; Some 1; Some 2; Some 0],
    [Some 0; Some 1; Some 2; Some 0; Some 1; Some 2; Some 2; Some 0; Some 1; Some 1; Some 2; Some 0], 0, 1.
  split; [reflexivity|]. split; [reflexivity|]. split; [intros x; cbn; intuition|]. split.
  - intros k k' v v' H H' E. destruct k as [|[|[|k]]]; try (destruct k; discriminate H);
      destruct k' as [|[|[|k']]]; try (destruct k'; discriminate H'); injection H as <-; injection H' as <-;
      try discriminate E; reflexivity.
  - repeat split; try (vm_compute; reflexivity). discriminate.
Qed.
Print Assumptions C44_shared_refuted.
Example C44_ex : wf stokes /\ labelled stokes /\ (forall x, In x (layout stokes) -> d_type x < 3 \/ exists l, d_sym x = Some (0, l)).
Proof.
  split; [exact stokes_wf|]. split.
  - intros x H. assert (Hb : forallb (fun x => match d_sym x with None => false | _ => true end) (layout stokes) = true) by reflexivity.
    rewrite forallb_forall in Hb. specialize (Hb x H). now destruct (d_sym x).
  - intros x H. left. assert (Hb : forallb (fun x => d_type x <? 3) (layout stokes) = true) by reflexivity.
    rewrite forallb_forall in Hb. now apply Nat.ltb_lt, Hb.
Qed.
