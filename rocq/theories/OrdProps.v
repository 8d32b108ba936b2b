(** C21, C23, C24, C45: numbering of the edges and faces of a cell, orientation signs,
    node order, renumbering of stored dofs. *)
From Verif Require Import Prelude DofModel DofSpec DofProofs DofProofs2 SymModel SymSpec SymProofs SymProofs2 SymProofs3 SymProps OrdModel OrdSpec OrdProofs OrdProofs2.
From Coq Require Import Permutation Reals Lra.

(** *** C21 *)
(** Whatever the order in which the mesh lists faces, edges of faces and nodes of edges, and
    whatever the output arrays contained: edge number m of the result joins the nodes
    edge_ends m of the chosen order, face number f has the nodes face_nodes f. *)
Theorem C21_numbering : forall nodes lc fe en E F e0 f0, tet_cell nodes lc fe en E F -> length e0 = 6 -> length f0 = 4 ->
  exists edges faces, collect nodes lc fe en e0 f0 = Some (edges, faces) /\ length edges = 6 /\ length faces = 4 /\
    (forall m, m < 6 -> nth_error edges m = Some (E m)) /\ (forall f, f < 4 -> nth_error faces f = Some (F f)).
Proof.
  intros nodes lc fe en E F e0 f0 H He Hf. exists (map E (seq 0 6)), (map F (seq 0 4)). split; [now apply collect_ok|]. split; [reflexivity|]. split; [reflexivity|]. split.
  - intros m Hm. now apply nth_error_map_seq.
  - intros f Hm. now apply nth_error_map_seq.
Qed.
Print Assumptions C21_numbering.

(** The numbering does not depend on the mesh order. *)
Theorem C21_order_free : forall nodes lc fe en lc' fe' en' E F e0 f0 e1 f1, tet_cell nodes lc fe en E F -> tet_cell nodes lc' fe' en' E F ->
  length e0 = 6 -> length f0 = 4 -> length e1 = 6 -> length f1 = 4 -> collect nodes lc fe en e0 f0 = collect nodes lc' fe' en' e1 f1.
Proof.
  intros. rewrite (collect_ok _ _ _ _ _ _ _ _ H), (collect_ok _ _ _ _ _ _ _ _ H0) by assumption. reflexivity.
Qed.
Print Assumptions C21_order_free.

(* a cell with nodes 50, 20, 40, 30, edges 100 + m, faces 200 + f, listed in mixed order *)
Definition ex_nodes := [50; 20; 40; 30].
Definition ex_E (m : nat) := 100 + m.
Definition ex_F (f : nat) := 200 + f.
Definition ex_lc := [202; 200; 203; 201].
Definition ex_fe (f : nat) : list nat :=
  match f - 200 with 0 => [103; 100; 101] | 1 => [105; 103; 104] | 2 => [102; 105; 101] | _ => [104; 100; 102] end.
Definition ex_en (m : nat) : nat * nat :=
  match m - 100 with 0 => (20, 50) | 1 => (50, 40) | 2 => (30, 50) | 3 => (20, 40) | 4 => (30, 20) | _ => (40, 30) end.
Example C21_ex_cell : tet_cell ex_nodes ex_lc ex_fe ex_en ex_E ex_F.
Proof.
  constructor.
  - reflexivity.
  - unfold ex_nodes. repeat constructor; cbn; intuition discriminate.
  - apply NoDup_Permutation; [unfold ex_lc; repeat constructor; cbn; intuition discriminate|vm_compute; repeat constructor; cbn; intuition discriminate|].
    intros x. vm_compute. intuition.
  - intros f Hf. destruct f as [|[|[|[|f]]]]; [..|lia]; (apply NoDup_Permutation; [vm_compute; repeat constructor; cbn; intuition discriminate|vm_compute; repeat constructor; cbn; intuition discriminate|intros x; vm_compute; intuition]).
  - intros m Hm. destruct m as [|[|[|[|[|[|m]]]]]]; [..|lia]; vm_compute; auto.
Qed.
Example C21_ex : collect ex_nodes ex_lc ex_fe ex_en (repeat 0 6) (repeat 0 4) = Some ([100; 101; 102; 103; 104; 105], [200; 201; 202; 203]).
Proof. reflexivity. Qed.

(** The variant that fills Node, Edge and Face objects converts only four of the six edges. *)
Theorem C21_objects_partial : forall nodes lc fe en E F e0 f0, tet_cell nodes lc fe en E F -> length e0 = 6 -> length f0 = 4 ->
  exists edges faces, collect_elems nodes lc fe en e0 f0 = Some (edges, faces) /\
    (forall m, m < 4 -> nth_error edges m = Some (Some (E m))) /\ (forall f, f < 4 -> nth_error faces f = Some (Some (F f))).
Proof.
  intros nodes lc fe en E F e0 f0 H He Hf. unfold collect_elems. rewrite (collect_ok _ _ _ _ _ _ _ _ H) by assumption. cbn [obind fst snd seq map firstn skipn app].
  eexists _, _. split; [reflexivity|]. split; intros m Hm; destruct m as [|[|[|[|m]]]]; try lia; reflexivity.
Qed.
Print Assumptions C21_objects_partial.
Theorem C21_objects_refuted : exists nodes lc fe en E F e0 f0, tet_cell nodes lc fe en E F /\ length e0 = 6 /\ length f0 = 4 /\
  exists edges faces m, collect_elems nodes lc fe en e0 f0 = Some (edges, faces) /\ m < 6 /\ nth_error edges m <> Some (Some (E m)).
Proof.
  exists ex_nodes, ex_lc, ex_fe, ex_en, ex_E, ex_F, (repeat 0 6), (repeat 0 4). split; [exact C21_ex_cell|]. split; [reflexivity|]. split; [reflexivity|].
  eexists _, _, 5. split; [vm_compute; reflexivity|]. split; [lia|]. discriminate.
Qed.
Print Assumptions C21_objects_refuted.

(** *** C23 *)
Theorem C23_edge : forall g p t e, length g = 4 -> NoDup g -> order_permutation g = Some p -> t = 1 \/ t = 2 -> e < 6 ->
  positive_orient t e p = Some (Nat.even (inversions (gids g t e))).
Proof.
  intros g p t e Hg Hn Ep Ht He. destruct (C22_sorts g Hg Hn) as (p' & Ep' & Hp & Hs). rewrite Ep in Ep'. injection Ep' as <-.
  assert (E1 : positive_orient t e p = positive_orient 1 e p /\ gids g t e = gids g 1 e) by (destruct Ht as [-> | ->]; split; reflexivity).
  destruct E1 as [-> ->]. pose proof (forall_perms _ (forall_seq _ _ edge_sign_check e He) p Hp) as H. cbv beta in H.
  destruct (positive_orient 1 e p) as [b|]; [|discriminate]. apply Bool.eqb_prop in H. subst b. f_equal.
  unfold gids. rewrite edge_corners by assumption. cbn [map inversions filter length].
  assert (H1 : fst (edge_ends e) < 4) by (destruct e as [|[|[|[|[|[|e]]]]]]; cbn; lia).
  assert (H2 : snd (edge_ends e) < 4) by (destruct e as [|[|[|[|[|[|e]]]]]]; cbn; lia).
  assert (Hne : fst (edge_ends e) <> snd (edge_ends e)) by (destruct e as [|[|[|[|[|[|e]]]]]]; cbn; lia).
  pose proof (Hs _ _ H1 H2) as A. destruct (Z.ltb_spec (gid g (snd (edge_ends e))) (gid g (fst (edge_ends e)))) as [L|L]; cbn [length Nat.add Nat.even].
  - apply Nat.ltb_ge. destruct (Nat.lt_ge_cases (app4 p (fst (edge_ends e))) (app4 p (snd (edge_ends e)))) as [Q|Q]; [apply A in Q; lia|exact Q].
  - apply Nat.ltb_lt, A. assert (gid g (fst (edge_ends e)) <> gid g (snd (edge_ends e))) by (intros Q; apply Hne; now apply (gid_inj g)). lia.
Qed.
Print Assumptions C23_edge.
(** Two cells that share an edge report the same sign if they traverse it in the same
    direction and opposite signs if not. *)
Theorem C23_edge_shared : forall g g' p p' e e', length g = 4 -> NoDup g -> length g' = 4 -> NoDup g' ->
  order_permutation g = Some p -> order_permutation g' = Some p' -> e < 6 -> e' < 6 ->
  (gids g 2 e = gids g' 2 e' -> positive_orient 2 e p = positive_orient 2 e' p') /\
  (gids g 2 e = rev (gids g' 2 e') -> exists b, positive_orient 2 e p = Some b /\ positive_orient 2 e' p' = Some (negb b)).
Proof.
  intros g g' p p' e e' Hg Hn Hg' Hn' Ep Ep' He He'. rewrite (C23_edge g p 2 e), (C23_edge g' p' 2 e') by auto. split.
  - intros ->. reflexivity.
  - intros E. eexists. split; [reflexivity|]. f_equal. rewrite E. unfold gids. change (corners 2 e') with (corners 1 e'). rewrite edge_corners by assumption. cbn [map rev app inversions filter length].
    assert (H1 : fst (edge_ends e') < 4) by (destruct e' as [|[|[|[|[|[|e']]]]]]; cbn; lia).
    assert (H2 : snd (edge_ends e') < 4) by (destruct e' as [|[|[|[|[|[|e']]]]]]; cbn; lia).
    assert (Hne : gid g' (fst (edge_ends e')) <> gid g' (snd (edge_ends e'))).
    { intros Q. apply gid_inj in Q; try assumption. clear - He' Q. destruct e' as [|[|[|[|[|[|e']]]]]]; cbn in Q; lia. }
    destruct (Z.ltb_spec (gid g' (snd (edge_ends e'))) (gid g' (fst (edge_ends e')))), (Z.ltb_spec (gid g' (fst (edge_ends e'))) (gid g' (snd (edge_ends e')))); cbn; try reflexivity; lia.
Qed.
Print Assumptions C23_edge_shared.

(** Faces: the comparison that should close the cycle uses the vertex opposite to the face
    instead of its first vertex.  Exactly when these two comparisons agree, or the four
    identifiers decrease, the sign is the parity of the face. *)
Definition opp_agrees (g : list Z) (e : nat) : Prop :=
  (gid g ((e + 3) mod 4) < gid g ((e + 2) mod 4))%Z <-> (gid g e < gid g ((e + 2) mod 4))%Z.
Definition decreasing (g : list Z) (e : nat) : Prop :=
  (gid g e > gid g ((e + 1) mod 4))%Z /\ (gid g ((e + 1) mod 4) > gid g ((e + 2) mod 4))%Z /\ (gid g ((e + 2) mod 4) > gid g ((e + 3) mod 4))%Z.
Theorem C23_face_partial : forall g p t e, length g = 4 -> NoDup g -> order_permutation g = Some p -> t = 3 \/ t = 4 -> e < 4 ->
  (positive_orient t e p = Some (Nat.even (inversions (gids g t e))) <-> opp_agrees g e \/ decreasing g e).
Proof.
  intros g p t e Hg Hn Ep Ht He. destruct (C22_sorts g Hg Hn) as (p' & Ep' & Hp & Hs). rewrite Ep in Ep'. injection Ep' as <-.
  assert (E1 : positive_orient t e p = positive_orient 3 e p /\ gids g t e = gids g 3 e) by (destruct Ht as [-> | ->]; split; reflexivity).
  destruct E1 as [-> ->]. pose proof (forall_perms _ (forall_seq _ _ face_sign_check e He) p Hp) as H. cbv beta in H.
  destruct (positive_orient 3 e p) as [b|]; [|discriminate]. apply Bool.eqb_prop in H.
  assert (Hlt : forall v w, v < 4 -> w < 4 -> (app4 p v <? app4 p w) = (gid g v <? gid g w)%Z).
  { intros v w Hv Hw. apply Bool.eq_true_iff_eq. rewrite Nat.ltb_lt, Z.ltb_lt. now apply Hs. }
  assert (M1 : (e + 1) mod 4 < 4) by (apply Nat.mod_upper_bound; lia). assert (M2 : (e + 2) mod 4 < 4) by (apply Nat.mod_upper_bound; lia). assert (M3 : (e + 3) mod 4 < 4) by (apply Nat.mod_upper_bound; lia).
  assert (Ht3 : face_true p e = Nat.even (inversions (gids g 3 e))).
  { unfold face_true, gids. change (corners 3 e) with [e; (e + 1) mod 4; (e + 2) mod 4]. cbn [map inversions]. rewrite !Hlt by assumption. f_equal. cbn [filter].
    destruct (gid g ((e + 1) mod 4) <? gid g e)%Z, (gid g ((e + 2) mod 4) <? gid g e)%Z, (gid g ((e + 2) mod 4) <? gid g ((e + 1) mod 4))%Z; reflexivity. }
  rewrite Ht3 in H. unfold face_third_ok, face_decreasing in H. rewrite !Hlt in H by assumption.
  unfold opp_agrees, decreasing. split.
  - intros Q. apply Some_inj in Q. rewrite Q, Bool.eqb_reflx in H. symmetry in H. apply Bool.orb_true_iff in H. destruct H as [H|H].
    + left. apply Bool.eqb_prop in H. rewrite <- !Z.ltb_lt, H. reflexivity.
    + right. apply Bool.andb_true_iff in H. destruct H as [H H3]. apply Bool.andb_true_iff in H. destruct H as [H1 H2]. apply Z.ltb_lt in H1, H2, H3. lia.
  - intros Q. f_equal. apply Bool.eqb_prop. rewrite H. apply Bool.orb_true_iff. destruct Q as [Q|Q].
    + left. rewrite <- !Z.ltb_lt in Q. apply Bool.eq_true_iff_eq in Q. rewrite Q. apply Bool.eqb_reflx.
    + right. rewrite !Bool.andb_true_iff, !Z.ltb_lt. lia.
Qed.
Print Assumptions C23_face_partial.
Example C23_face_ex : opp_agrees [1; 5; 7; 3]%Z 0 /\ decreasing [9; 8; 7; 6]%Z 0.
Proof. unfold opp_agrees, decreasing. cbn. lia. Qed.
(** Two neighbouring cells that list the shared face 10, 20, 30 in the same order report
    different signs: the opposite vertex of one is above, of the other below. *)
Theorem C23_face_refuted : exists g g' p p', length g = 4 /\ NoDup g /\ length g' = 4 /\ NoDup g' /\
  order_permutation g = Some p /\ order_permutation g' = Some p' /\ gids g 4 0 = gids g' 4 0 /\ positive_orient 4 0 p <> positive_orient 4 0 p'.
Proof.
  exists [10; 20; 30; 40]%Z, [10; 20; 30; 5]%Z, [0; 1; 2; 3], [1; 2; 3; 0].
  split; [reflexivity|]. split; [repeat constructor; cbn; intuition discriminate|]. split; [reflexivity|]. split; [repeat constructor; cbn; intuition discriminate|].
  split; [reflexivity|]. split; [reflexivity|]. split; [reflexivity|]. vm_compute. discriminate.
Qed.
Print Assumptions C23_face_refuted.

(** *** C24 *)
Lemma tet_det_triple : forall a b c d, tet_det a b c d = (- triple a b c d)%R.
Proof. intros. unfold tet_det, triple. cbv zeta beta. cbv iota. ring. Qed.
(** The result lists the same nodes, only the last two may be exchanged, and the signed
    volume (b - a).((c - a) x (d - a)) of the result is never positive: the positive
    determinant of the code is the one with rows a - d, b - d, c - d. *)
Theorem C24_nodes : forall {A} (crd : A -> nat -> R) a b c d a' b' c' d', reorder_nodes crd (a, b, c, d) = (a', b', c', d') ->
  Permutation [a'; b'; c'; d'] [a; b; c; d] /\ a' = a /\ b' = b.
Proof.
  intros A crd a b c d a' b' c' d' H. unfold reorder_nodes in H. destruct (Rlt_dec _ 0) in H; injection H as <- <- <- <-; split; auto.
  do 2 apply perm_skip. apply perm_swap.
Qed.
Print Assumptions C24_nodes.
Theorem C24_orientation : forall {A} (crd : A -> nat -> R) a b c d a' b' c' d', reorder_nodes crd (a, b, c, d) = (a', b', c', d') ->
  (triple (crd a') (crd b') (crd c') (crd d') = - Rabs (triple (crd a) (crd b) (crd c) (crd d)))%R.
Proof.
  intros A crd a b c d a' b' c' d' H. unfold reorder_nodes in H. destruct (Rlt_dec _ 0) as [L|L] in H; injection H as <- <- <- <-; rewrite tet_det_triple in L.
  - rewrite Rabs_right by lra. unfold triple. cbv zeta beta. ring.
  - rewrite Rabs_left1 by lra. ring.
Qed.
Print Assumptions C24_orientation.
(** Reordering twice changes nothing. *)
Theorem C24_idempotent : forall {A} (crd : A -> nat -> R) n, reorder_nodes crd (reorder_nodes crd n) = reorder_nodes crd n.
Proof.
  intros A crd [[[a b] c] d]. unfold reorder_nodes at 2 3. destruct (Rlt_dec (tet_det (crd a) (crd b) (crd c) (crd d)) 0) as [L|L].
  - unfold reorder_nodes. destruct (Rlt_dec (tet_det (crd a) (crd b) (crd d) (crd c)) 0) as [L'|L']; [|reflexivity].
    exfalso. rewrite tet_det_triple in L, L'. assert (triple (crd a) (crd b) (crd d) (crd c) = - triple (crd a) (crd b) (crd c) (crd d))%R by (unfold triple; cbv zeta beta; ring). lra.
  - unfold reorder_nodes. destruct (Rlt_dec (tet_det (crd a) (crd b) (crd c) (crd d)) 0); [contradiction|reflexivity].
Qed.
Print Assumptions C24_idempotent.
(* the reference tetrahedron 0, e1, e2, e3 has triple product 1 and gets reordered *)
Example C24_ex : reorder_nodes (fun n j => if n =? S j then 1%R else 0%R) (0, 1, 2, 3) = (0, 1, 3, 2).
Proof. unfold reorder_nodes. destruct (Rlt_dec _ 0) as [L|L]; [reflexivity|]. exfalso. apply L. unfold tet_det. cbn. lra. Qed.

(** *** C45 *)
(** After the data of an element (vertices vs of some cell, in the order of the mesh) were
    renumbered, every local dof of every cell, addressed with the new identifiers, has the
    value it had with the old identifiers. *)
Theorem C45_renumber : forall {A} d g h pg ph big t e vs (tv : list A), wf d -> labelled d ->
  length g = 4 -> NoDup g -> length h = 4 -> NoDup h -> (forall x, In x g -> (x < big)%Z) -> (forall x, In x h -> (x < big)%Z) ->
  order_permutation g = Some pg -> order_permutation h = Some ph ->
  t < 6 -> e < tet_elems t -> Permutation vs (corners t e) ->
  length tv = match geom_dim t with 0 => cnt d 0 | 1 => cnt d 1 + cnt d 2 | 2 => cnt d 3 + cnt d 4 | _ => cnt d 5 end ->
  exists tv', renumber d (geom_dim t) big (map (gid g) vs) (map (gid h) vs) tv = Some tv' /\ length tv' = length tv /\
    forall i lo, local_order d i = Some lo -> lo_type lo = t -> lo_elem lo = e ->
      exists a b v, locus_index d lo ph = Some a /\ locus_index d lo pg = Some b /\ nth_error tv' a = Some v /\ nth_error tv b = Some v.
Proof.
  intros A d g h pg ph big t e vs tv Hwf Hlab Hg Hng Hh Hnh Hbg Hbh Epg Eph Ht He Hvs Hlen.
  rewrite C22_order_permutation in Epg, Eph by assumption. apply Some_inj in Epg, Eph.
  assert (Ep1 : pg = gperm g) by (symmetry; exact Epg). assert (Ep2 : ph = gperm h) by (symmetry; exact Eph). clear Epg Eph. subst pg ph.
  assert (Hn : ndata d (geom_dim t) = length tv).
  { rewrite Hlen. unfold ndata. rewrite !num_dof_cnt by (assumption || lia). reflexivity. }
  destruct (renumber_ok d g h big t e vs tv Hwf Hlab Hg Hng Hh Hnh Hbg Hbh Ht He Hvs ltac:(lia)) as (tv' & E & Hl & Hall).
  exists tv'. split; [exact E|]. split; [exact Hl|]. intros i lo El Hty Hel.
  destruct (lo_facts d Hwf Hlab i lo El) as (c & l & Es & En & A1 & A2 & A3 & A4 & A5 & A6).
  assert (Hloc : forall q, length q = 4 -> NoDup q -> exists b, locus_index d lo (gperm q) = Some b /\ b < length tv).
  { intros q Hq Hnq. destruct (index_placed (lo_type lo) (lo_elem lo) c l (gperm q) A1 A2 A4 (gperm_perm q Hq Hnq)) as (r & Er & Hr & _).
    exists (slot_of d (lo_type lo) (lo_leid lo - l + r)). split.
    - unfold locus_index. rewrite Es. cbn [obind fst snd]. rewrite Er. cbn [obind]. unfold slot_of. now rewrite Nat.add_assoc.
    - rewrite <- Hn, <- Hty. apply slot_lt; [assumption|]. destruct (oclosed_layout d Hwf i _ _ _ _ _ En) as (_ & _ & _ & H). specialize (H r Hr).
      destruct (dof_facts d _ _ _ _ _ _ Hwf H) as (_ & _ & B & _). now rewrite num_dof_cnt by assumption. }
  destruct (Hloc g Hg Hng) as (b & Eb & Hb). destruct (Hloc h Hh Hnh) as (a & Ea & Ha).
  destruct (nth_error tv b) as [v|] eqn:Ev; [|apply nth_error_None in Ev; lia]. exists a, b, v. split; [exact Ea|]. split; [exact Eb|]. split; [|exact Ev].
  rewrite <- Ev. exact (Hall i lo a b El Hty Hel Ea Eb).
Qed.
Print Assumptions C45_renumber.
(* P3-like map: edge (0, 2) of a cell, identifiers 7, 9 before and 9, 7 after *)
Definition ex_map := Unite [1; 2; 0; 1; 0; 0] (Some [1; 0; 1; 0; 0; 1; 0; 0; 0; 0; 0; 0; 0; 0; 0; 0]).
Example C45_ex_wf : wf ex_map /\ labelled ex_map.
Proof. split; [repeat constructor|]. intros x Hx. vm_compute in Hx. repeat (destruct Hx as [<-|Hx]; [discriminate|]). destruct Hx. Qed.
Example C45_ex : renumber ex_map 1 100 [7; 9]%Z [9; 7]%Z [11; 12] = Some [12; 11] /\
  renumber ex_map 1 100 [9; 7]%Z [7; 9]%Z [11; 12] = Some [12; 11] /\ renumber ex_map 1 100 [5; 7]%Z [7; 9]%Z [11; 12] = Some [11; 12].
Proof. repeat split; reflexivity. Qed.

(** Oriented dofs: the stored value should change sign when the orientation of the edge
    changes; the statement that negates has no effect. *)
Theorem C45_oriented_refuted : exists d g h pg ph big e lo v v' tv', wf d /\ labelled d /\ length g = 4 /\ NoDup g /\ length h = 4 /\ NoDup h /\
  order_permutation g = Some pg /\ order_permutation h = Some ph /\ local_order d e = Some lo /\ lo_type lo = 2 /\
  renumber d 1 big (map (gid g) (corners 2 (lo_elem lo))) (map (gid h) (corners 2 (lo_elem lo))) [v] = Some tv' /\
  rd tv' 0 = Some v' /\
  exists s s', locus_sign 2 (lo_elem lo) pg = Some s /\ locus_sign 2 (lo_elem lo) ph = Some s' /\ (s * v <> s' * v')%Z.
Proof.
  exists (Unite [0; 0; 1; 0; 0; 0] (Some [0; 0; 0; 1; 0; 0; 0; 0; 0; 0; 0; 0; 0; 0; 0; 0])), [1; 2; 3; 4]%Z, [2; 1; 3; 4]%Z, [0; 1; 2; 3], [1; 0; 2; 3], 100%Z, 0, (LO 0 2 0 0 (Some (0, 0))), 1%Z, 1%Z, [1%Z].
  split; [repeat constructor|]. split; [intros x Hx; vm_compute in Hx; repeat (destruct Hx as [<-|Hx]; [discriminate|]); destruct Hx|].
  split; [reflexivity|]. split; [repeat constructor; cbn; intuition discriminate|]. split; [reflexivity|]. split; [repeat constructor; cbn; intuition discriminate|].
  do 6 (split; [reflexivity|]). exists 1%Z, (-1)%Z. split; [reflexivity|]. split; [reflexivity|]. lia.
Qed.
Print Assumptions C45_oriented_refuted.
