From Coq Require Import NArith Reals.
From Verif Require Import Prelude DofModel DofSpec DofProofs DofProofs2 SymModel SymSpec SymProofs SymProofs2 SymProofs3 OrdModel OrdProofs2 SparsityModel SparsitySpec GeomIterSpec GeomIterProofs GdModel GdSpec GdProofs TsModel TsSpec.

Lemma bit_shift : forall i c, N.testbit (N.shiftl 1 (N.of_nat i)) (N.of_nat c) = (i =? c).
Proof.
  intros i c. rewrite N.shiftl_1_l, N.pow2_bits_eqb. destruct (Nat.eqb_spec i c) as [->|H]; [apply N.eqb_refl|apply N.eqb_neq; lia].
Qed.
Lemma fold_bit : forall (f : nat -> bool) l m c, N.testbit (fold_left (fun m i => if f i then N.lor m (N.shiftl 1 (N.of_nat i)) else m) l m) (N.of_nat c) =
  N.testbit m (N.of_nat c) || existsb (fun i => (i =? c) && f i) l.
Proof.
  intros f l. induction l as [|x l IH]; intros m c; cbn [fold_left existsb]; [now rewrite orb_false_r|]. rewrite IH. destruct (f x).
  - rewrite N.lor_spec, bit_shift, andb_true_r. now rewrite orb_assoc.
  - now rewrite andb_false_r.
Qed.
Lemma lor_bit : forall (f : dmap -> N) l m c, N.testbit (fold_left (fun m b => N.lor m (f b)) l m) c = N.testbit m c || existsb (fun b => N.testbit (f b) c) l.
Proof. intros f l. induction l as [|x l IH]; intros m c; cbn [fold_left existsb]; [now rewrite orb_false_r|]. now rewrite IH, N.lor_spec, orb_assoc. Qed.
Lemma leaf_bit : forall s t c, N.testbit (leaf_mask (Some s) t) (N.of_nat c) = true <->
  c < nth (t + 1) sym_offs 0 - nth t sym_offs 0 /\ 0 < nth (nth t sym_offs 0 + c) s 0.
Proof.
  intros s t c. unfold leaf_mask. rewrite (fold_bit (fun i => 0 <? nth (nth t sym_offs 0 + i) s 0)), N.bits_0. cbn [orb]. rewrite existsb_exists. split.
  - intros (i & Hi & H). apply in_seq in Hi. apply andb_true_iff in H as [H1 H2]. apply Nat.eqb_eq in H1. subst i. apply Nat.ltb_lt in H2. lia.
  - intros [H1 H2]. exists c. split; [apply in_seq; lia|]. apply Nat.ltb_lt in H2. now rewrite Nat.eqb_refl, H2.
Qed.
Lemma in_sl : forall s t c l, In (c, l) (sym_list s t) -> c < nth (t + 1) sym_offs 0 - nth t sym_offs 0 /\ 0 < nth (nth t sym_offs 0 + c) s 0 /\ l < nth (nth t sym_offs 0 + c) sym_vols 0.
Proof.
  intros s t c l H. unfold sym_list in H. apply in_flat_map in H as (c' & Hc & H). cbv zeta in H. apply in_concat in H as (x & Hx & H).
  assert (Hpos : 0 < nth (nth t sym_offs 0 + c') s 0) by (destruct (nth (nth t sym_offs 0 + c') s 0); [destruct Hx|lia]).
  apply repeat_spec in Hx. subst x. apply in_map_iff in H as (j & E & Hj). injection E as -> ->. apply in_seq in Hc, Hj. lia.
Qed.
(** Bits of the mask and classes of the dofs. *)
Definition class_bit (x : dof) : nat := match d_sym x with Some (c, _) => c | None => 5 end.
Lemma mask_dof : forall d x, wf d -> In x (layout d) -> N.testbit (sym_components d (d_type x)) (N.of_nat (class_bit x)) = true.
Proof.
  intros d. induction d as [nd sy|k b IH|l IH] using dmap_ind'; intros x Hwf Hx.
  - cbn [layout] in Hx. apply in_flat_map in Hx as (t & Ht & Hx). apply in_flat_map in Hx as (e & He & Hx). apply in_map_iff in Hx as (p & <- & Hp).
    cbn [sym_components d_type]. unfold class_bit. cbn [d_sym]. destruct sy as [s|]; cbn [sym_at]; [|reflexivity].
    destruct (nth_error (sym_list s t) p) as [[c l]|] eqn:E.
    + apply nth_error_In, in_sl in E. apply leaf_bit. tauto.
    + exfalso. destruct Hwf as [_ [Hls Hnd]]. apply nth_error_None in E. apply in_seq in Hp. apply in_seq in Ht. unfold ngeom in Ht.
      rewrite length_sym_counts in E by (assumption || lia). rewrite <- Hnd in E. lia.
  - cbn [layout] in Hx. apply in_flat_map in Hx as (c & Hc & Hx). unfold shift_pos in Hx. apply in_map_iff in Hx as (y & <- & Hy). cbn [sym_components d_type]. exact (IH y Hwf Hy).
  - rewrite layout_complex in Hx. apply in_flat_map in Hx as (v & Hv & Hx). unfold comp_block, shift_pos in Hx. apply in_map_iff in Hx as (y & <- & Hy). cbn [sym_components d_type].
    change (class_bit _) with (class_bit y). rewrite lor_bit, N.bits_0. cbn [orb]. apply existsb_exists. apply in_seq in Hv.
    assert (Hb : In (nth v l (Complex [])) l) by (apply nth_In; lia). exists (nth v l (Complex [])). split; [exact Hb|].
    rewrite Forall_forall in IH. apply IH; [exact Hb| |exact Hy]. apply wf_complex in Hwf. rewrite Forall_forall in Hwf. now apply Hwf.
Qed.

Lemma type_num : forall d x, wf d -> In x (layout d) -> d_type x < 6 /\ 0 < num_dof d (d_type x).
Proof.
  intros d x Hwf Hx. pose proof (type_lt d x Hx) as Ht. split; [exact Ht|]. apply (in_map locus) in Hx. destruct x as [t e p s]. fold (loci d) in Hx. unfold locus in Hx. cbn [d_type d_elem d_pos] in *. apply in_loci in Hx as (_ & _ & Hp).
  rewrite num_dof_cnt by assumption. lia.
Qed.
Lemma shiftr_bit : forall m c, N.shiftr m 1 = 0%N -> N.testbit m (N.of_nat (S c)) = false.
Proof. intros m c H. replace (N.of_nat (S c)) with (N.of_nat c + 1)%N by lia. rewrite <- N.shiftr_spec'. rewrite H. apply N.bits_0. Qed.
Lemma trivial_classes : forall d, wf d -> trivially_symmetric d = true -> forall x, In x (layout d) -> d_sym x = Some (0, 0).
Proof.
  intros d Hwf H x Hx. pose proof (mask_dof d x Hwf Hx) as Hm. destruct (type_num d x Hwf Hx) as [Ht Hn].
  unfold trivially_symmetric in H. pose proof (forall_seq _ _ H (d_type x) Ht) as Q. cbv beta zeta in Q. apply Nat.ltb_lt in Hn. rewrite Hn in Q.
  apply negb_true_iff, orb_false_iff in Q as [Q1 Q2]. apply negb_false_iff, N.eqb_eq in Q2.
  assert (Hc : class_bit x = 0) by (destruct (class_bit x) as [|c]; [reflexivity|rewrite (shiftr_bit _ c Q2) in Hm; discriminate]).
  unfold class_bit in Hc. destruct (d_sym x) as [[c l]|] eqn:Es; [|discriminate]. subst c.
  apply In_nth_error in Hx as [i Hi]. destruct x as [t e p s]. cbn in Es. subst s. destruct (dof_facts d i _ _ _ _ _ Hwf Hi) as (_ & _ & _ & Hl & _).
  assert (npoints t 0 <= 1) by (clear; unfold npoints, points; destruct (geom_dim t) as [|[|[|[|q]]]]; cbn; lia). do 2 f_equal. lia.
Qed.
Lemma free_dof : forall d, wf d -> comp_node_perm d = false -> forall x, In x (layout d) -> order_free x.
Proof.
  intros d Hwf H x Hx. unfold comp_node_perm in H. apply orb_false_iff in H as [H1 H2]. apply negb_false_iff in H1. apply orb_false_iff in H2 as [H2 H3]. apply Nat.ltb_ge in H2, H3.
  split; [now apply (trivial_classes d)|]. destruct (type_num d x Hwf Hx) as [_ Hn]. split; intros E; rewrite E in Hn; lia.
Qed.
Lemma free_lo : forall d i lo, wf d -> comp_node_perm d = false -> local_order d i = Some lo -> lo_sym lo = Some (0, 0) /\ oriented (lo_type lo) = false.
Proof.
  intros d i lo Hwf H E. destruct (local_order_inv d i lo Hwf E) as (_ & En & _). apply nth_error_In in En. apply (free_dof d Hwf H) in En. destruct En as (H1 & H2 & H3).
  unfold dof_of_lo in *. cbn in *. split; [exact H1|]. unfold oriented. apply Nat.eqb_neq in H2, H3. now rewrite H2, H3.
Qed.
Lemma free_locus : forall d i lo p, wf d -> comp_node_perm d = false -> local_order d i = Some lo ->
  locus_index d lo p = Some (lo_leid lo) /\ locus_sign (lo_type lo) (lo_elem lo) p = Some 1%Z.
Proof.
  intros d i lo p Hwf H E. destruct (free_lo d i lo Hwf H E) as [H1 H2]. unfold locus_index, locus_sign. rewrite H1, H2. cbn. split; [f_equal; lia|reflexivity].
Qed.
Lemma each_ext : forall {A S} (f g : A -> S -> option S) l s, (forall x s, In x l -> f x s = g x s) -> each f l s = each g l s.
Proof. intros A S f g l. induction l as [|x l IH]; intros s H; [reflexivity|]. cbn. rewrite H by now left. destruct (g x s); [|reflexivity]. cbn. apply IH. intros y s' Hy. apply H. now right. Qed.
Lemma free_gather : forall avail data d path p q off out v, wf d -> comp_node_perm d = false -> nested_view d path = Some v -> geom_safe (v_base v) ->
  gather avail data d path p off out = gather avail data d path q off out.
Proof.
  intros avail data d path p q off out v Hwf H Ev Hg. unfold gather. rewrite Ev. cbn [obind]. assert (Hwb : wf (v_base v)) by apply (nested_view_ok d path v Hwf Ev).
  rewrite !four_dims by assumption. apply each_ext. intros lo o Hl. cbv zeta. destruct (all_dofs (v_base v) Hwb) as [_ Hin]. apply Hin in Hl.
  assert (Hlo : local_order d (v_shift_tet v + lo_gid lo) = Some (view_lo v lo)).
  { rewrite (view_local_order_spec d path v Hwf Ev); [unfold view_local_order; rewrite Hl; reflexivity|]. rewrite length_layout_num by assumption. now apply (local_order_inv (v_base v) (lo_gid lo) lo). }
  destruct (free_locus d _ _ p Hwf H Hlo) as [P1 P2]. destruct (free_locus d _ _ q Hwf H Hlo) as [Q1 Q2]. unfold put_dof, take_avail, take_dof. now rewrite P1, P2, Q1, Q2.
Qed.
Lemma for_ext : forall {S} n a (f g : nat -> S -> option S) s, (forall i s, f i s = g i s) -> for_range a n f s = for_range a n g s.
Proof. intros S n. induction n as [|n IH]; intros a f g s H; [reflexivity|]. cbn. rewrite H. destruct (g a s); [|reflexivity]. cbn. now apply IH. Qed.
Lemma free_table : forall {A} d p q (numb : LocalOrder -> A), wf d -> comp_node_perm d = false -> asm_table d p numb = asm_table d q numb.
Proof.
  intros A d p q numb Hwf H. unfold asm_table, for_. apply for_ext. intros i tab. destruct (local_order d i) as [lo|] eqn:E; [|reflexivity]. cbn [obind].
  unfold asm_slot. destruct (free_lo d i lo Hwf H E) as [H1 _]. rewrite H1. reflexivity.
Qed.
(** The order is computed only when it matters. *)
Lemma bit_dof : forall d t c, wf d -> tabled d -> t < 6 -> N.testbit (sym_components d t) (N.of_nat c) = true -> exists x l, In x (layout d) /\ d_type x = t /\ d_sym x = Some (c, l).
Proof.
  intros d. induction d as [nd sy|k b IH|l IH] using dmap_ind'; intros t c Hwf Ht Hlt H.
  - destruct sy as [s|]; [|now destruct Ht]. cbn [sym_components] in H. apply leaf_bit in H as [H1 H2].
    assert (Hin : In (c, 0) (sym_list s t)).
    { apply in_sym_list. unfold nclass, vol. split; [exact H1|]. split; [|exact H2]. clear -H1 Hlt. destruct t as [|[|[|[|[|[|t]]]]]]; try lia; cbn in H1; (destruct c as [|[|[|[|[|c]]]]]; try lia; cbn; lia). }
    apply In_nth_error in Hin as [p Hp]. exists (Dof t 0 p (Some (c, 0))), 0. split; [|split; reflexivity].
    cbn [layout]. apply in_flat_map. exists t. split; [apply in_seq; unfold ngeom; lia|]. apply in_flat_map. exists 0. split; [apply in_seq; split; [lia|]; pose proof (elems_pos t Hlt); lia|].
    apply in_map_iff. exists p. cbn [sym_at]. rewrite Hp. split; [reflexivity|]. apply in_seq. split; [lia|]. destruct Hwf as [_ [Hls ->]]. rewrite <- length_sym_counts by assumption. apply nth_error_Some. congruence.
  - destruct Ht as [Hk Ht]. cbn [sym_components] in H. destruct (IH t c Hwf Ht Hlt H) as (x & l & Hx & Hxt & Hs). cbn [layout].
    exists (Dof (d_type x) (d_elem x) (0 * cnt b (d_type x) + d_pos x) (d_sym x)), l. split; [|split; assumption].
    apply in_flat_map. exists 0. split; [apply in_seq; lia|]. unfold shift_pos. apply in_map_iff. exists x. auto.
  - cbn [sym_components] in H. rewrite lor_bit, N.bits_0 in H. cbn [orb] in H. apply existsb_exists in H as (b & Hb & H).
    assert (Htb : tabled b). { cbn [tabled] in Ht. clear -Ht Hb. induction l as [|y l IHl]; [destruct Hb|]. cbn in Ht. destruct Hb as [->|Hb]; [tauto|apply IHl; tauto]. }
    rewrite Forall_forall in IH. pose proof Hwf as Hw. apply wf_complex in Hw. rewrite Forall_forall in Hw.
    destruct (IH b Hb t c (Hw b Hb) Htb Hlt H) as (x & l' & Hx & Hxt & Hs). apply In_nth_error in Hb as [v Hv].
    rewrite layout_complex. assert (Hvl : v < length l) by (apply nth_error_Some; congruence).
    unfold comp_block, shift_pos. exists (Dof (d_type x) (d_elem x) (comp_shift l v (d_type x) + d_pos x) (d_sym x)), l'. split; [|split; assumption].
    apply in_flat_map. exists v. split; [apply in_seq; lia|]. apply in_map_iff. exists x. split; [reflexivity|]. now rewrite (nth_error_nth l v (Complex []) Hv).
Qed.
