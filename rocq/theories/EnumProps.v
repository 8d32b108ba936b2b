(** C17, C18, C20 and the arrangement part of C19: global numbering. *)
From Verif Require Import Prelude DofModel DofSpec DofProofs EnumModel EnumSpec EnumProofs EnumProofs2.
From Coq Require Import Permutation.

(** ** C20: the position of a dof within an entity.
    [descs l d] lists, in the documented order, every description of a dof living on one
    entity of dimension d. *)
Theorem C20_count : forall l d, wf (Complex l) -> length (descs l d) = i_nd l d.
Proof. intros. now apply length_descs. Qed.
Print Assumptions C20_count.
Theorem C20_descs_complete : forall l d x, d < 4 -> In x (descs l d) <-> valid_desc l x /\ geom_dim (x_type x) = d.
Proof. intros. now apply in_descs. Qed.
Print Assumptions C20_descs_complete.
Theorem C20_descs_distinct : forall l d, wf (Complex l) -> d < 4 -> NoDup (descs l d).
Proof.
  intros l d Hw Hd. apply NoDup_nth_error. intros i j Hi E. destruct (nth_error (descs l d) i) as [x|] eqn:Ei.
  - destruct (descs_nth l d i x Hw Hd Ei) as (_ & _ & <-). symmetry in E. destruct (descs_nth l d j x Hw Hd E) as (_ & _ & <-). reflexivity.
  - apply nth_error_None in Ei. lia.
Qed.
Print Assumptions C20_descs_distinct.
(** From a description to its position: getFullIndex(NaturalIndex).GetElemDofId(). *)
Theorem C20_position : forall l x, wf (Complex l) -> valid_desc l x ->
  exists e, full_desc l x = Some e /\ e_desc e = x /\
    nth_error (descs l (geom_dim (x_type x))) (elem_dof_id e) = Some x /\
    nth_error (descs_var l (x_var x) (geom_dim (x_type x))) (single_dof_id e) = Some x.
Proof.
  intros l x Hw Hx. exists (ext_of l x). split; [now apply full_desc_ok|]. split; [reflexivity|]. rewrite elem_id_tpos, single_id_vpos.
  split; [now apply descs_at|now apply descs_var_at].
Qed.
Print Assumptions C20_position.
Theorem C20_position_injective : forall l x y e f, wf (Complex l) -> valid_desc l x -> valid_desc l y -> geom_dim (x_type x) = geom_dim (x_type y) ->
  full_desc l x = Some e -> full_desc l y = Some f -> elem_dof_id e = elem_dof_id f -> x = y.
Proof.
  intros l x y e f Hw Hx Hy Hg Ee Ef E. rewrite full_desc_ok in Ee, Ef by assumption. apply Some_inj in Ee, Ef. subst e f.
  rewrite !elem_id_tpos in E. now apply (local_inj l).
Qed.
Print Assumptions C20_position_injective.
(** From a position to the description, getFullIndex(elem, k).  Missing: the position of
    the first oriented dof of an edge or a face (see the refutation below). *)
Theorem C20_description_partial : forall l d k x, wf (Complex l) -> d < 4 -> nth_error (descs l d) k = Some x ->
  ~ (is_oriented (x_type x) = true /\ k = cnt (Complex l) (x_type x - 1)) ->
  exists e, full_index l d k = Some e /\ e_desc e = x /\ elem_dof_id e = k /\ full_desc l x = Some e.
Proof.
  intros l d k x Hw Hd E Hn. destruct (descs_nth l d k x Hw Hd E) as (Hx & Hg & El). exists (ext_of l x).
  split; [|split; [reflexivity|split]].
  - apply full_index_desc; try assumption. intros Ho H0. apply Hn. split; [exact Ho|]. rewrite <- El. unfold local_id, tshift_of.
    unfold is_oriented in Ho. rewrite Ho. lia.
  - rewrite elem_id_tpos. exact El.
  - now apply full_desc_ok.
Qed.
Print Assumptions C20_description_partial.
Theorem C20_description_var_partial : forall l x, wf (Complex l) -> valid_desc l x ->
  ~ (is_oriented (x_type x) = true /\ x_dim x = 0 /\ x_pos x = 0) ->
  exists e, full_index_var l (geom_dim (x_type x)) (x_var x) (single_dof_id (ext_of l x)) = Some e /\ e_desc e = x /\ full_desc l x = Some e.
Proof.
  intros l x Hw Hx Hn. exists (ext_of l x). rewrite single_id_vpos. split; [|split; [reflexivity|now apply full_desc_ok]].
  apply full_index_var_ok; try assumption. intros Ho. destruct (Nat.eq_dec (x_dim x) 0); [|auto]. destruct (Nat.eq_dec (x_pos x) 0); [|auto]. tauto.
Qed.
Print Assumptions C20_description_var_partial.
(** With the first oriented dof of every edge (face) the query fails for every variable
    list, although the position is one of the i_nd positions of the entity. *)
Theorem C20_first_oriented_refuted : forall l d, wf (Complex l) -> d = 1 /\ 0 < cnt (Complex l) 2 \/ d = 2 /\ 0 < cnt (Complex l) 4 ->
  exists k, k < i_nd l d /\ full_index l d k = None.
Proof.
  intros l d Hw H. exists (num_dof (Complex l) (first_type d)). split.
  - destruct H as [[-> H]|[-> H]]; cbn [first_type nth i_nd]; rewrite <- total_cnt in H by (assumption || lia); lia.
  - apply full_index_first; [assumption|]. destruct H as [[-> _]|[-> _]]; auto.
Qed.
Print Assumptions C20_first_oriented_refuted.
(** The single-variable query returns a wrong description there: one unoriented and one
    oriented dof per edge, position 1 is described as an unoriented dof number 1. *)
Definition ned1 := Unite [0; 1; 1; 0; 0; 0] None.
Theorem C20_first_oriented_var_refuted :
  exists l d v k e x, wf (Complex l) /\ nth_error (descs_var l v d) k = Some x /\ full_index_var l d v k = Some e /\ e_desc e <> x /\ ~ valid_desc l (e_desc e).
Proof.
  exists [ned1], 1, 0, 1, (DescExt (Desc 1 0 0 1) 0 0 0 0), (Desc 2 0 0 0). split; [repeat constructor|]. split; [reflexivity|]. split; [reflexivity|].
  split; [discriminate|]. intros (_ & b & E & _ & H). cbn in E. injection E as <-. cbn in H. lia.
Qed.
Print Assumptions C20_first_oriented_var_refuted.

Definition vars3 : list dmap := [Vector 3 (Unite [1; 1; 0; 0; 0; 0] None); Unite [1; 0; 2; 1; 0; 1] None; Unite [0; 2; 1; 0; 2; 0] None].
Example C20_vars3_wf : wf (Complex vars3).
Proof. repeat constructor. Qed.
Example C20_vars3_edge : i_nd vars3 1 = 8 /\ map (full_index vars3 1) (seq 0 8) =
  map (fun x => if (x_type x =? 2) && (x_var x =? 1) && (x_pos x =? 0) then None else full_desc vars3 x) (descs vars3 1) /\
  nth_error (descs vars3 1) 6 = Some (Desc 2 1 0 1).
Proof. repeat split. Qed.

(** ** C17: the numbering of one process. *)
Section C17.
  Variables (l : list dmap) (total : nat -> nat) (gids : nat -> list nat).
  Let r := setup_rank l total gids.
  (** owned elements have consecutive GlobalIDs: [owned r d g] is membership in the range *)
  Lemma owned_gids : (forall d, d < 4 -> exists s, Permutation (gids d) (seq s (length (gids d)))) ->
    forall d g, d < 4 -> In g (gids d) <-> owned r d g.
  Proof.
    intros Hc d g Hd. destruct (Hc d Hd) as [s Hp]. unfold owned, r. cbn [setup_rank r_beg r_num]. rewrite (beg_elem_spec _ s (length (gids d))) by exact Hp.
    destruct (gids d) as [|a gs] eqn:E.
    - cbn [length Nat.eqb]. split; [intros []|]. intros [_ H]. lia.
    - rewrite <- E in *. destruct (Nat.eqb_spec (length (gids d)) 0) as [H0|_]; [rewrite E in H0; discriminate|]. split.
      + intros H. split; [exact Hd|]. eapply Permutation_in in H; [|exact Hp]. apply in_seq in H. exact H.
      + intros [_ H]. eapply Permutation_in; [apply Permutation_sym; exact Hp|]. apply in_seq. exact H.
  Qed.
End C17.
(** an arrangement of consecutive GlobalIDs, in any order *)
Definition consecutive (gids : nat -> list nat) : Prop := forall d, d < 4 -> exists s, Permutation (gids d) (seq s (length (gids d))).

Theorem C17_anitype_in_range : forall l total gids g x, wf (Complex l) -> consecutive gids -> valid_desc l x -> In g (gids (geom_dim (x_type x))) ->
  let r := setup_rank l total gids in
  exists n, simple_index ANITYPE l r (geom_dim (x_type x)) g x = Some n /\ r_begind r <= n < r_endind r.
Proof.
  intros l total gids g x Hw Hc Hx Hg r. assert (Hd : geom_dim (x_type x) < 4) by (destruct Hx as [Ht _]; unfold geom_dim; destruct (x_type x) as [|[|[|[|[|[|t]]]]]]; cbn; lia).
  apply (owned_gids l total gids Hc _ g Hd) in Hg. fold r in Hg. eexists. split; [now apply any_index|].
  pose proof (any_index l r g x Hw Hx Hg) as E. apply any_index_range in E; try assumption.
  rewrite <- (init_0 l r). unfold r. rewrite <- init_4. fold r. pose proof (init_mono l r 0 (geom_dim (x_type x)) ltac:(lia)). pose proof (init_mono l r (S (geom_dim (x_type x))) 4 ltac:(lia)). lia.
Qed.
Print Assumptions C17_anitype_in_range.
Lemma dim_lt4 : forall l x, valid_desc l x -> geom_dim (x_type x) < 4.
Proof. intros l x [Ht _]. unfold geom_dim. destruct (x_type x) as [|[|[|[|[|[|t]]]]]]; cbn; lia. Qed.
Theorem C17_anitype_injective : forall l total gids g x g' x' n, wf (Complex l) -> consecutive gids -> valid_desc l x -> valid_desc l x' ->
  In g (gids (geom_dim (x_type x))) -> In g' (gids (geom_dim (x_type x'))) -> let r := setup_rank l total gids in
  simple_index ANITYPE l r (geom_dim (x_type x)) g x = Some n -> simple_index ANITYPE l r (geom_dim (x_type x')) g' x' = Some n -> g = g' /\ x = x'.
Proof.
  intros l total gids g x g' x' n Hw Hc Hx Hx' Hg Hg' r E E'. pose proof (dim_lt4 l x Hx). pose proof (dim_lt4 l x' Hx').
  apply (owned_gids l total gids Hc) in Hg; [|assumption]. apply (owned_gids l total gids Hc) in Hg'; [|assumption].
  apply (any_inj l r g x g' x' n); assumption.
Qed.
Print Assumptions C17_anitype_injective.
Theorem C17_anitype_surjective : forall l total gids n, wf (Complex l) -> consecutive gids -> let r := setup_rank l total gids in
  r_begind r <= n < r_endind r ->
  exists g x, valid_desc l x /\ In g (gids (geom_dim (x_type x))) /\ simple_index ANITYPE l r (geom_dim (x_type x)) g x = Some n.
Proof.
  intros l total gids n Hw Hc r Hn. destruct (any_onto l r n Hw) as (g & x & Hx & Ho & E).
  { rewrite init_0. unfold r. rewrite init_4. exact Hn. }
  exists g, x. split; [exact Hx|]. split; [|exact E]. apply (owned_gids l total gids Hc); [now apply (dim_lt4 l)|exact Ho].
Qed.
Print Assumptions C17_anitype_surjective.
(** The inverse query; missing: the first oriented dof of edges and faces. *)
Theorem C17_anitype_inverse_partial : forall l total gids g x n, wf (Complex l) -> consecutive gids -> valid_desc l x -> In g (gids (geom_dim (x_type x))) ->
  let r := setup_rank l total gids in
  (is_oriented (x_type x) = true -> exists y, valid_desc l y /\ x_type y = x_type x /\ nth_error (descs l (geom_dim (x_type x))) (cnt (Complex l) (x_type x - 1)) = Some y /\ y <> x) ->
  simple_index ANITYPE l r (geom_dim (x_type x)) g x = Some n -> simple_inverse ANITYPE l r n = Some (geom_dim (x_type x), g, x).
Proof.
  intros l total gids g x n Hw Hc Hx Hg r Hor E. pose proof (dim_lt4 l x Hx) as Hd. apply (owned_gids l total gids Hc) in Hg; [|assumption].
  apply any_inverse; try assumption. intros Ho H0. destruct (Hor Ho) as (y & Hy & _ & Ey & Hne). pose proof (descs_at l x Hw Hx) as Ex.
  unfold local_id, tshift_of in Ex. unfold is_oriented in Ho. rewrite Ho, H0, Nat.add_0_r, Ey in Ex. congruence.
Qed.
Print Assumptions C17_anitype_inverse_partial.
(** The stored tag used by OrderC agrees with the formula when no oriented dofs exist. *)
Theorem C17_tag_partial : forall m l total gids g x, m = ANITYPE -> wf (Complex l) -> no_oriented l -> consecutive gids -> valid_desc l x -> In g (gids (geom_dim (x_type x))) ->
  let r := setup_rank l total gids in
  simple_order m l r (geom_dim (x_type x)) g x = simple_index m l r (geom_dim (x_type x)) g x /\ simple_order m l r (geom_dim (x_type x)) g x <> None.
Proof.
  intros m l total gids g x -> Hw Hno Hc Hx Hg r. pose proof (dim_lt4 l x Hx) as Hd. apply (owned_gids l total gids Hc) in Hg; [|assumption]. fold r in Hg.
  destruct (tag_row_ok l r (geom_dim (x_type x)) g Hw Hno Hg) as (row & Er & _ & Hrow). unfold simple_order. rewrite Er, full_desc_ok by assumption. cbn [obind].
  rewrite elem_id_tpos. fold (local_id l x). rewrite (Hrow x Hx eq_refl). split; [reflexivity|]. rewrite any_index by assumption. discriminate.
Qed.
Print Assumptions C17_tag_partial.
(** With oriented edge or face dofs filling the tag fails for every element. *)
Theorem C17_setup_oriented_refuted : forall m l r d g, wf (Complex l) -> (d = 1 /\ 0 < cnt (Complex l) 2 \/ d = 2 /\ 0 < cnt (Complex l) 4) -> tag_row m l r d g = None.
Proof. intros. now apply tag_row_fail. Qed.
Print Assumptions C17_setup_oriented_refuted.
(** MINIBLOCKS agrees with ANITYPE for a dimension with at most one dof per entity or at
    most one owned element ... *)
Theorem C17_miniblocks_partial : forall l r g x, wf (Complex l) -> valid_desc l x -> owned r (geom_dim (x_type x)) g ->
  i_nd l (geom_dim (x_type x)) <= 1 \/ r_num r (geom_dim (x_type x)) <= 1 ->
  simple_index MINIBLOCKS l r (geom_dim (x_type x)) g x = simple_index ANITYPE l r (geom_dim (x_type x)) g x.
Proof.
  intros l r g x Hw Hx Ho H. rewrite any_index by assumption. unfold simple_index. rewrite full_desc_ok by assumption. cbn [obind].
  destruct Ho as [_ Ho]. rewrite guard_true by (apply Nat.leb_le; lia). cbn [obind]. rewrite elem_id_tpos. fold (local_id l x).
  pose proof (local_lt l x Hw Hx). f_equal. set (d := geom_dim (x_type x)) in *. destruct H as [H|H].
  - assert (local_id l x = 0) by lia. assert (i_nd l d = 1) by lia. rewrite H1, H2. lia.
  - assert (g = r_beg r d) by lia. rewrite H1. lia.
Qed.
Print Assumptions C17_miniblocks_partial.
(** ... and otherwise it leaves the block of that dimension: the last dof of the last
    owned element gets an index of the next dimension, or, for cells, of the next process. *)
Theorem C17_miniblocks_range_refuted : forall l r d, wf (Complex l) -> d < 4 -> 2 <= i_nd l d -> 2 <= r_num r d ->
  exists g x n, owned r d g /\ valid_desc l x /\ geom_dim (x_type x) = d /\ simple_index MINIBLOCKS l r d g x = Some n /\ init_index l r (S d) <= n.
Proof.
  intros l r d Hw Hd Hn Hm. destruct (nth_error (descs l d) (i_nd l d - 1)) as [x|] eqn:Ex.
  2: { apply nth_error_None in Ex. rewrite length_descs in Ex by assumption. lia. }
  destruct (descs_nth l d _ x Hw Hd Ex) as (Hx & Hg & El). exists (r_beg r d + r_num r d - 1), x. eexists.
  split; [split; [exact Hd|lia]|]. split; [exact Hx|]. split; [exact Hg|]. unfold simple_index. rewrite full_desc_ok by assumption. cbn [obind].
  rewrite guard_true by (apply Nat.leb_le; lia). cbn [obind]. split; [reflexivity|]. rewrite elem_id_tpos. fold (local_id l x). rewrite El, init_S.
  destruct (r_num r d) as [|m]; [lia|]. destruct (i_nd l d) as [|k]; [lia|]. replace (r_beg r d + S m - 1 - r_beg r d) with m by lia. replace (S k - 1) with k by lia. nia.
Qed.
Print Assumptions C17_miniblocks_range_refuted.
(** It is not injective either: two variables on nodes, two nodes. *)
Definition two_nodes (d : nat) : list nat := match d with 0 => [1; 0] | _ => [] end.
Definition p1p1 : list dmap := [Unite [1; 0; 0; 0; 0; 0] None; Unite [1; 0; 0; 0; 0; 0] None].
Theorem C17_miniblocks_refuted : exists l total gids g x g' x' n, let r := setup_rank l total gids in
  wf (Complex l) /\ consecutive gids /\ valid_desc l x /\ valid_desc l x' /\ In g (gids (geom_dim (x_type x))) /\ In g' (gids (geom_dim (x_type x'))) /\
  simple_index MINIBLOCKS l r (geom_dim (x_type x)) g x = Some n /\ simple_index MINIBLOCKS l r (geom_dim (x_type x')) g' x' = Some n /\ (g, x) <> (g', x').
Proof.
  exists p1p1, (fun d => length (two_nodes d)), two_nodes, 0, (Desc 0 1 0 0), 1, (Desc 0 0 0 0), 2. cbn [x_type].
  split; [repeat constructor|]. split.
  { intros d Hd. exists 0. destruct d as [|d]; [|apply Permutation_refl]. cbn. apply perm_swap. }
  split; [split; [cbn; lia|]; eexists; split; [reflexivity|cbn; lia]|]. split; [split; [cbn; lia|]; eexists; split; [reflexivity|cbn; lia]|].
  split; [cbn; auto|]. split; [cbn; auto|]. split; [reflexivity|]. split; [reflexivity|]. discriminate.
Qed.
Print Assumptions C17_miniblocks_refuted.
(** The ANITYPE numbering of a small mesh: variables [vars3], 4 nodes, 6 edges, 4 faces, 1
    cell, GlobalIDs starting at 10, 20, 30, 40. *)
Definition one_tet (d : nat) : list nat := match d with 0 => [13; 10; 11; 12] | 1 => [20; 21; 22; 23; 24; 25] | 2 => [30; 31; 32; 33] | 3 => [40] | _ => [] end.
Example C17_one_tet_consecutive : consecutive one_tet.
Proof.
  intros d Hd. destruct d as [|[|[|[|d]]]]; [exists 10|exists 20|exists 30|exists 40|lia]; cbn; try apply Permutation_refl.
  apply (Permutation_cons_append [10; 11; 12] 13).
Qed.
Example C17_one_tet : let r := setup_rank vars3 (fun d => 100) one_tet in
  simple_index ANITYPE vars3 r 1 22 (Desc 2 1 0 1) = Some (r_begind r + 4 * i_nd vars3 0 + 2 + 6 * 6) /\
  simple_inverse ANITYPE vars3 r (r_begind r + 4 * i_nd vars3 0 + 2 + 6 * 6) = Some (1, 22, Desc 2 1 0 1).
Proof. vm_compute. auto. Qed.

(** ** C18: intervals of the processes.
    [counts d] gives the number of elements of dimension d owned by each process; process p
    owns the GlobalIDs off .. off + count. *)
Theorem C18_partition_partial : forall l counts gids P,
  (forall d, d < 4 -> length (counts d) = P) ->
  (forall p d, d < 4 -> Permutation (gids p d) (seq (off (counts d) p) (nth p (counts d) 0))) ->
  (* missing: a process owning no elements of some dimension in front of one that does *)
  (forall d p q, d < 4 -> 0 < i_nd l d -> p <= q -> nth p (counts d) 0 = 0 -> nth q (counts d) 0 = 0) ->
  let rk p := setup_rank l (fun d => list_sum (counts d)) (gids p) in
  r_begind (rk 0) = 0 /\ (forall p, r_endind (rk p) = r_begind (rk (S p))) /\ (forall p, p < P -> r_matr (rk p) = r_begind (rk P)) /\
  forall n, n < r_matr (rk 0) -> exists p, p < P /\ r_begind (rk p) <= n < r_endind (rk p) /\
    forall q, q < P -> r_begind (rk q) <= n < r_endind (rk q) -> q = p.
Proof.
  intros l counts gids P HP Hc Hrun rk. assert (Hnext : forall p, r_endind (rk p) = r_begind (rk (S p))) by exact (rk_next l counts gids Hc Hrun).
  assert (H0 : r_begind (rk 0) = 0) by exact (rk_first l counts gids Hc Hrun).
  assert (Hl : forall p, r_begind (rk P) = r_matr (rk p)) by (intros p; exact (rk_last l counts gids Hc Hrun P p HP)).
  split; [exact H0|]. split; [exact Hnext|]. split; [intros p _; symmetry; apply Hl|].
  assert (Hmono : forall a b, a <= b -> r_begind (rk a) <= r_begind (rk b)).
  { intros a b H. induction H as [|b H IH]; [lia|]. rewrite <- Hnext. pose proof (rk_endind l counts gids b) as He. cbv beta in He. fold (rk b) in He. lia. }
  intros n Hn. rewrite <- Hl in Hn.
  assert (Hex : exists p, p < P /\ r_begind (rk p) <= n < r_begind (rk (S p))).
  { clear Hl Hc HP Hrun Hnext Hmono. induction P as [|P IH]; [lia|]. destruct (Nat.lt_ge_cases n (r_begind (rk P))) as [H|H].
    - destruct (IH H) as (p & Hp & H1). exists p. split; [lia|exact H1].
    - exists P. split; [lia|lia]. }
  destruct Hex as (p & Hp & H1). exists p. split; [exact Hp|]. rewrite Hnext. split; [exact H1|].
  intros q Hq H2. rewrite Hnext in H2. now apply (same_block (fun p => r_begind (rk p)) q p n).
Qed.
Print Assumptions C18_partition_partial.
(** Three processes, the middle one owns no node of its own: its interval starts at the
    end of the matrix and is followed by row 1. *)
Definition mid_counts (d : nat) : list nat := match d with 0 => [2; 0; 3] | 3 => [1; 1; 1] | _ => [0; 0; 0] end.
Definition mid_vars : list dmap := [Unite [1; 0; 0; 0; 0; 1] None].
Theorem C18_empty_rank_refuted : exists l counts gids, let rk p := setup_rank l (fun d => list_sum (counts d)) (gids p) in
  wf (Complex l) /\ (forall d, d < 4 -> length (counts d) = 3) /\
  (forall p d, d < 4 -> Permutation (gids p d) (seq (off (counts d) p) (nth p (counts d) 0))) /\
  r_endind (rk 0) <> r_begind (rk 1) /\ exists n, r_begind (rk 1) <= n < r_endind (rk 1) /\ r_begind (rk 2) <= n < r_endind (rk 2).
Proof.
  exists mid_vars, mid_counts, (fun p d => seq (off (mid_counts d) p) (nth p (mid_counts d) 0)).
  split; [repeat constructor|]. split; [intros d Hd; destruct d as [|[|[|[|d]]]]; reflexivity || lia|]. split; [intros; apply Permutation_refl|].
  split; [vm_compute; discriminate|]. exists 6. vm_compute. lia.
Qed.
Print Assumptions C18_empty_rank_refuted.
Example C18_witness : let counts d := match d with 0 => [2; 1; 0] | 3 => [1; 1; 2] | _ => [0; 0; 0] end in
  let rk p := setup_rank mid_vars (fun d => list_sum (counts d)) (fun d => seq (off (counts d) p) (nth p (counts d) 0)) in
  map (fun p => (r_begind (rk p), r_endind (rk p))) [0; 1; 2] = [(0, 3); (3, 5); (5, 7)] /\ r_matr (rk 0) = 7.
Proof. vm_compute. auto. Qed.

(** ** C19: arrangements. *)
Fixpoint lists_below (n k : nat) : list (list nat) := match n with O => [[]] | S n => flat_map (fun t => map (fun a => a :: t) (seq 0 k)) (lists_below n k) end.
Lemma in_lists_below : forall n k x, length x = n -> Forall (fun a => a < k) x -> In x (lists_below n k).
Proof.
  induction n as [|n IH]; intros k x Hl Hx; [destruct x; [now left|discriminate]|]. destruct x as [|a x]; [discriminate|]. cbn [lists_below].
  inversion Hx as [|? ? Ha Hx']; subst. apply in_flat_map. exists x. split; [apply IH; [now injection Hl|assumption]|]. apply in_map_iff. exists a. split; [reflexivity|apply in_seq; lia].
Qed.
Fixpoint nodupb (x : list nat) : bool := match x with [] => true | a :: x => negb (existsb (Nat.eqb a) x) && nodupb x end.
Lemma nodupb_spec : forall x, nodupb x = true <-> NoDup x.
Proof.
  induction x as [|a x IH]; cbn [nodupb]; [split; [constructor|reflexivity]|]. rewrite Bool.andb_true_iff, IH, Bool.negb_true_iff. split.
  - intros [H H1]. constructor; [|assumption]. intros Hin. assert (existsb (Nat.eqb a) x = true) by (apply existsb_exists; exists a; split; [assumption|apply Nat.eqb_refl]). congruence.
  - intros H. inversion H as [|? ? Hn Hd]; subst. split; [|assumption]. destruct (existsb (Nat.eqb a) x) eqn:E; [|reflexivity].
    apply existsb_exists in E. destruct E as (b & Hb & Eb). apply Nat.eqb_eq in Eb. subst. contradiction.
Qed.
Definition opt_list_eqb (o : list (option nat)) (x : list nat) : bool :=
  (length o =? length x) && forallb (fun p => match fst p with Some a => a =? snd p | None => false end) (combine o x).
Lemma opt_list_eqb_sound : forall o x, opt_list_eqb o x = true -> o = map Some x.
Proof.
  induction o as [|a o IH]; intros x H; unfold opt_list_eqb in H; apply Bool.andb_true_iff in H; destruct H as [Hl H]; apply Nat.eqb_eq in Hl; destruct x as [|b x]; try discriminate; [reflexivity|].
  cbn [combine forallb fst snd] in H. apply Bool.andb_true_iff in H. destruct H as [Ha H]. destruct a as [a|]; [|discriminate]. apply Nat.eqb_eq in Ha. subst a. cbn [map]. f_equal.
  apply IH. unfold opt_list_eqb. rewrite H. injection Hl as ->. now rewrite Nat.eqb_refl.
Qed.
Definition arr_check (x : list nat) : bool :=
  match set_arrangement x with
  | Some p => nodupb x && match get_arrangement p with Some (o, b) => b && opt_list_eqb o x | _ => false end
  | None => negb (nodupb x)
  end.
Lemma arr_check_all : forallb arr_check (lists_below 5 5) = true.
Proof. vm_compute. reflexivity. Qed.

Lemma for_inv_strong5 : forall order (p : list (option nat)), for_ (length order) (fun i p => do j <- rd order i; wr p j (Some i)) (repeat None 5) = Some p ->
  forall i a, i < length order -> nth_error order i = Some a -> a < 5.
Proof.
  intros order p E i a Hi Ea. unfold for_ in E.
  assert (H : forall n lo (q q' : list (option nat)), length q = 5 -> for_range lo n (fun i p => do j <- rd order i; wr p j (Some i)) q = Some q' -> lo <= i < lo + n -> a < 5).
  { induction n as [|n IH]; intros lo q q' Hq Eq Hb; [lia|]. cbn [for_range] in Eq. destruct (rd order lo) as [j|] eqn:Ej; [|discriminate]. cbn [obind] in Eq.
    destruct (Nat.lt_ge_cases j (length q)) as [Hj|Hj]; [|rewrite wr_none in Eq by assumption; discriminate].
    destruct (wr_some q j (Some lo) Hj) as (q1 & E1 & L1 & _). rewrite E1 in Eq. cbn [obind] in Eq. destruct (Nat.eq_dec i lo) as [->|Hne].
    - unfold rd in Ej. rewrite Ea in Ej. injection Ej as ->. lia.
    - apply (IH (S lo) q1 q'); [congruence|exact Eq|lia]. }
  apply (H (length order) 0 (repeat None 5) p); [reflexivity|exact E|lia].
Qed.
(** setArrangment accepts exactly the permutations of the five keys, and getArrangement
    then returns the accepted order and reports success. *)
Theorem C19_arrangement : forall order, length order = 5 ->
  (Permutation order (seq 0 5) -> exists p, set_arrangement order = Some p /\ get_arrangement p = Some (map Some order, true)) /\
  (~ Permutation order (seq 0 5) -> set_arrangement order = None).
Proof.
  intros order Hl. destruct (Forall_dec (fun a => a < 5) (fun a => lt_dec a 5) order) as [Hb|Hb].
  - pose proof (proj1 (forallb_forall arr_check _) arr_check_all order (in_lists_below 5 5 order Hl Hb)) as H. unfold arr_check in H. split.
    + intros HP. assert (Hnd : NoDup order) by (eapply Permutation_NoDup; [apply Permutation_sym; exact HP|apply seq_NoDup]).
      apply nodupb_spec in Hnd. rewrite Hnd in H. destruct (set_arrangement order) as [p|]; [|discriminate]. exists p. split; [reflexivity|].
      destruct (get_arrangement p) as [[o b]|]; try discriminate. apply Bool.andb_true_iff in H. destruct H as [_ H]. apply Bool.andb_true_iff in H. destruct H as [-> H].
      now rewrite (opt_list_eqb_sound o order H).
    + intros HP. destruct (set_arrangement order) as [p|]; [|reflexivity]. exfalso. apply HP. apply Bool.andb_true_iff in H. destruct H as [H _]. apply nodupb_spec in H.
      apply NoDup_Permutation_bis; [assumption|rewrite seq_length; lia|]. intros a Ha. rewrite Forall_forall in Hb. apply in_seq. specialize (Hb a Ha). lia.
  - split.
    + intros HP. exfalso. apply Hb. apply Forall_forall. intros a Ha. eapply Permutation_in in Ha; [|exact HP]. apply in_seq in Ha. lia.
    + intros _. unfold set_arrangement.
      destruct (for_ (length order) (fun i p => do j <- rd order i; wr p j (Some i)) (repeat None 5)) as [p|] eqn:E; [|reflexivity]. exfalso. apply Hb.
      apply Forall_forall. intros a Ha. apply In_nth_error in Ha. destruct Ha as [i Hi]. assert (Hil : i < length order) by (apply nth_error_Some; congruence).
      pose proof (for_inv_strong5 order p E) as Hall. apply (Hall i a Hil Hi).
Qed.
Print Assumptions C19_arrangement.
Example C19_arrangement_example : set_arrangement [2; 0; 3; 4; 1] = Some [1; 4; 0; 2; 3] /\ get_arrangement [1; 4; 0; 2; 3] = Some (map Some [2; 0; 3; 4; 1], true) /\ set_arrangement [2; 0; 3; 4; 2] = None /\ set_arrangement [2; 0; 5; 4; 1] = None.
Proof. repeat split. Qed.
