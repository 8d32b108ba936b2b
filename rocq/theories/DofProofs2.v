(** Further proofs about the dof maps: lookup, types, component views, algebra. *)
From Verif Require Import Prelude DofModel DofSpec DofProofs.

Lemma valid_locus_iff : forall d t e p, wf d ->
  valid_locus d t e p = true <-> t < 6 /\ e < tet_elems t /\ p < cnt d t.
Proof.
  intros d t e p Hwf. unfold valid_locus, ngeom. rewrite !andb_true_iff, !Nat.ltb_lt.
  split; [intros [[H1 H2] H3]|intros [H1 [H2 H3]]]; rewrite num_dof_cnt in *; auto.
Qed.

Lemma chk_locus_ok : forall {B} chk d t e p (f : unit -> option B), wf d ->
  t < 6 /\ e < tet_elems t /\ p < cnt d t -> obind (chk_locus chk d t e p) f = f tt.
Proof.
  intros B chk d t e p f Hwf H. unfold chk_locus. apply guard_true.
  apply (valid_locus_iff d t e p Hwf) in H. rewrite H. now rewrite orb_true_r.
Qed.

Lemma comp_prefix_block : forall l v, v <= length l -> wf (Complex l) ->
  nth v (prefix (map num_dof_tet l)) 0 = list_sum (map (fun x => length (comp_block l x)) (seq 0 v)).
Proof.
  intros l v Hv Hwf. apply wf_complex in Hwf. rewrite Forall_forall in Hwf.
  rewrite nth_prefix by (rewrite map_length; lia). f_equal.
  apply nth_ext with (d := 0) (d' := 0).
  - rewrite firstn_length, !map_length, seq_length. lia.
  - intros n Hn. rewrite firstn_length, map_length in Hn.
    rewrite (nth_map_seq (fun x => length (comp_block l x))) by lia.
    unfold comp_block. rewrite length_shift_pos, <- length_layout_num.
    + rewrite nth_firstn_lt by lia. change 0 with (num_dof_tet (Complex [])). apply map_nth.
    + apply Hwf, nth_In. lia.
Qed.

(** The v-th block of a composition sits at the v-th offset. *)
Lemma nth_error_complex : forall l v r, wf (Complex l) -> v < length l -> r < length (layout (nth v l (Complex []))) ->
  nth_error (layout (Complex l)) (nth v (prefix (map num_dof_tet l)) 0 + r) = nth_error (comp_block l v) r.
Proof.
  intros l v r Hwf Hv Hr. rewrite layout_complex, comp_prefix_block by (assumption || lia).
  apply nth_error_flat_map; [assumption|]. unfold comp_block. now rewrite length_shift_pos.
Qed.
Lemma nth_error_vector : forall k b c r, c < k -> r < length (layout b) ->
  nth_error (layout (Vector k b)) (c * length (layout b) + r) =
  nth_error (shift_pos (fun t => c * cnt b t) (layout b)) r.
Proof.
  intros k b c r Hc Hr. cbn [layout]. rewrite (nth_error_flat_map_unif _ _ (length (layout b))); auto.
  intros; apply length_shift_pos.
Qed.

Lemma tet_dof_id_layout : forall chk d, wf d -> lookup_safe d -> forall t e p,
  t < 6 /\ e < tet_elems t /\ p < cnt d t ->
  exists i s, tet_dof_id chk d t e p = Some (i, s) /\ nth_error (layout d) i = Some (Dof t e p s).
Proof.
  intros chk. induction d as [nd sy|k b IH|l IH] using dmap_ind'; intros Hwf Hsafe t e p Hv.
  - cbn [tet_dof_id]. rewrite chk_locus_ok by assumption. destruct Hv as (Ht & He & Hp).
    do 2 eexists. split; [reflexivity|]. destruct Hwf as [Hl Hsy]. unfold shiftDof.
    rewrite nth_prefix_diff by lia. cbn [cnt] in Hp. set (c := nth t nd 0) in *.
    unfold shiftTetDof. rewrite nth_prefix by (rewrite length_tetCounts; lia). cbn [layout].
    set (g := fun t => flat_map (fun e => map (fun p => Dof t e p (sym_at sy t p)) (seq 0 (nth t nd 0))) (seq 0 (tet_elems t))).
    assert (HB : list_sum (firstn t (tetCounts nd)) = list_sum (map (fun x => length (g x)) (seq 0 t))).
    { unfold tetCounts. rewrite firstn_map, firstn_map_seq. unfold ngeom. replace (min t 6) with t by lia.
      apply list_sum_map_ext_in. intros x _. unfold g. rewrite length_flat_map', (list_sum_const _ (nth x nd 0)); [now rewrite seq_length|].
      intros y _. now rewrite map_length, seq_length. }
    assert (Hlen : length (g t) = tet_elems t * c).
    { unfold g. rewrite length_flat_map', (list_sum_const _ c); [now rewrite seq_length|].
      intros y _. now rewrite map_length, seq_length. }
    rewrite HB, <- Nat.add_assoc, nth_error_flat_map; [|unfold ngeom; lia|rewrite Hlen; nia].
    unfold g. fold c. rewrite (nth_error_flat_map_unif _ _ c); [|lia|lia|intros x _; now rewrite map_length, seq_length].
    rewrite nth_error_map_seq by assumption. do 2 f_equal.
    destruct sy as [s|]; [|reflexivity]. destruct Hsy as [Hs Hnd]. symmetry.
    apply loc_sym_at; [assumption..|]. rewrite <- Hnd. exact Hp.
  - cbn [tet_dof_id]. rewrite chk_locus_ok by assumption. destruct Hv as (Ht & He & Hp).
    assert (Hwf' : wf b) by exact Hwf. destruct Hsafe as [Hsb Hk]. cbn [cnt] in Hp.
    assert (Hc : cnt b t <> 0) by (intros E; rewrite E in Hp; lia).
    rewrite num_dof_tet_t_cnt by assumption.
    assert (HE : 0 < tet_elems t * cnt b t) by nia.
    rewrite guard_true by (apply Nat.ltb_lt; assumption).
    set (L := tet_elems t * cnt b t) in *.
    assert (Hcase : p mod L < cnt b t /\ p / L < k /\ p = (p / L) * cnt b t + p mod L).
    { destruct Hk as [Hk|Hk].
      - assert (k = 1) by nia. subst k.
        assert (Hpl : p < L) by (unfold L; nia). rewrite Nat.mod_small, Nat.div_small by assumption. nia.
      - assert (t = 5) by (destruct (Nat.lt_ge_cases t 5) as [H5|H5]; [apply Hk in H5; contradiction|lia]). subst t.
        assert (L = cnt b 5) by (unfold L, tet_elems; cbn [nth]; lia). rewrite H in *.
        split; [now apply Nat.mod_upper_bound|]. split; [apply Nat.div_lt_upper_bound; lia|].
        pose proof (Nat.div_mod p (cnt b 5) Hc). lia. }
    destruct Hcase as (H1 & H2 & H3).
    destruct (IH Hwf' Hsb t e (p mod L)) as (i & s & E & Hn); [auto|].
    rewrite E. cbn [obind fst snd]. do 2 eexists. split; [reflexivity|].
    rewrite (length_layout_num b) by assumption.
    rewrite nth_error_vector; [|assumption|now apply nth_error_Some; rewrite Hn].
    unfold shift_pos. rewrite nth_error_map, Hn. cbn [option_map d_type d_elem d_pos d_sym]. do 2 f_equal. lia.
  - cbn [tet_dof_id]. rewrite chk_locus_ok by assumption. destruct Hv as (Ht & He & Hp).
    assert (Hwf' := Hwf). apply wf_complex in Hwf'. apply safe_complex in Hsafe. rewrite Forall_forall in *.
    assert (Hmap : map (fun b => num_dof b t) l = map (fun b => cnt b t) l)
      by (apply map_ext_in; intros; apply num_dof_cnt; auto).
    rewrite Hmap. cbn [cnt] in Hp.
    destruct (upper_bound_prefix _ _ Hp) as (v & E & Hvl & H1 & H2). rewrite E.
    replace (S v - 1) with v by lia. rewrite nth_prefix by lia. rewrite map_length in Hvl.
    change 0 with (cnt (Complex []) t) in H2. rewrite (map_nth (fun b => cnt b t) l (Complex []) v) in H2.
    set (b := nth v l (Complex [])) in *. assert (Hb : In b l) by (apply nth_In; assumption).
    cbn zeta. rewrite nth_error_map, (nth_error_nth' l (Complex [])) by assumption. fold b. cbn [option_map obind].
    fold (comp_shift l v t) in *.
    destruct (IH b Hb (Hwf' b Hb) (Hsafe b Hb) t e (p - comp_shift l v t)) as (i & s & E' & Hn); [repeat split; [assumption..|lia]|].
    rewrite E'. cbn [obind fst snd]. do 2 eexists. split; [reflexivity|].
    rewrite nth_error_complex; [|assumption|assumption|fold b; apply nth_error_Some; congruence].
    unfold comp_block. fold b. unfold shift_pos. rewrite nth_error_map, Hn. cbn [option_map d_type d_elem d_pos d_sym].
    do 2 f_equal. lia.
Qed.
Lemma tet_dof_id_invalid : forall d t e p, wf d -> ~ (t < 6 /\ e < tet_elems t /\ p < cnt d t) ->
  tet_dof_id true d t e p = None.
Proof.
  intros d t e p Hwf H.
  assert (E : valid_locus d t e p = false).
  { destruct (valid_locus d t e p) eqn:E; [|reflexivity]. apply valid_locus_iff in E; [contradiction|assumption]. }
  destruct d; cbn [tet_dof_id]; unfold chk_locus; rewrite E; reflexivity.
Qed.

(** *** TypeOnTet *)
Lemma type_on_tet_layout : forall d, wf d -> forall i, i < num_dof_tet d ->
  type_on_tet d i = option_map d_type (nth_error (layout d) i).
Proof.
  induction d as [nd sy|k b IH|l IH] using dmap_ind'; intros Hwf i Hi.
  - assert (Hlo := local_order_layout _ Hwf i). cbn [type_on_tet local_order] in *.
    rewrite guard_true in * by (apply Nat.ltb_lt; assumption). cbn zeta in Hlo.
    destruct (nth_error (layout (Unite nd sy)) i) as [x|] eqn:E.
    + cbn [option_map] in *.
      repeat (match type of Hlo with context [guard ?g] => destruct g end; cbn [guard obind] in Hlo; [|discriminate]).
      apply (f_equal (option_map lo_type)) in Hlo. exact Hlo.
    + apply nth_error_None in E. rewrite <- length_layout_num in E by assumption. lia.
  - cbn [type_on_tet num_dof_tet] in *. assert (Hwf' : wf b) by exact Hwf.
    rewrite guard_true by (apply Nat.ltb_lt; nia). set (n := num_dof_tet b) in *.
    assert (n <> 0) by nia. rewrite guard_true by (apply Nat.ltb_lt; lia).
    rewrite IH; [|assumption|now apply Nat.mod_upper_bound].
    replace i with (i / n * n + i mod n) at 2 by (pose proof (Nat.div_mod i n H); lia).
    assert (Hln : n = length (layout b)) by (now apply length_layout_num).
    rewrite Hln, nth_error_vector, <- Hln.
    + unfold shift_pos. rewrite nth_error_map. now destruct (nth_error (layout b) (i mod n)).
    + apply Nat.div_lt_upper_bound; lia.
    + rewrite <- Hln. now apply Nat.mod_upper_bound.
  - cbn [type_on_tet]. rewrite guard_true by (apply Nat.ltb_lt; assumption).
    rewrite num_dof_tet_complex in Hi by assumption. assert (Hwf' := Hwf). apply wf_complex in Hwf'. rewrite Forall_forall in *.
    destruct (upper_bound_prefix _ _ Hi) as (v & E & Hv & H1 & H2). rewrite E. cbn zeta.
    replace (S v - 1) with v by lia. rewrite map_length in Hv.
    change 0 with (num_dof_tet (Complex [])) in H2 at 1. rewrite map_nth in H2.
    set (b := nth v l (Complex [])) in *. assert (Hb : In b l) by (apply nth_In; assumption).
    rewrite nth_error_map, (nth_error_nth' l (Complex [])) by assumption. fold b. cbn [option_map obind].
    rewrite <- nth_prefix in H1, H2 by (rewrite map_length; lia).
    set (B := nth v (prefix (map num_dof_tet l)) 0) in *.
    rewrite IH; [|assumption|auto|lia].
    replace i with (B + (i - B)) at 2 by lia. unfold B at 2.
    rewrite nth_error_complex; [|assumption|assumption|fold b; rewrite <- length_layout_num by auto; lia].
    unfold comp_block, shift_pos. fold b. rewrite nth_error_map. now destruct (nth_error (layout b) (i - B)).
Qed.

(** *** Component views *)
Definition view_ok (d : dmap) (v : view) : Prop :=
  wf (v_base v) /\ length (v_shift_elem v) = 6 /\
  v_shift_tet v + num_dof_tet (v_base v) <= num_dof_tet d /\
  forall i, i < num_dof_tet (v_base v) ->
    nth_error (layout d) (v_shift_tet v + i) =
    nth_error (shift_pos (fun t => nth t (v_shift_elem v) 0) (layout (v_base v))) i.

Lemma shift_pos_shift : forall f g l, shift_pos f (shift_pos g l) = shift_pos (fun t => f t + g t) l.
Proof. intros. unfold shift_pos. rewrite map_map. apply map_ext. intros x. cbn. f_equal. lia. Qed.
Lemma shift_pos_ext_in : forall f g l, (forall x, In x l -> f (d_type x) = g (d_type x)) -> shift_pos f l = shift_pos g l.
Proof. intros. apply map_ext_in. intros. now rewrite H. Qed.
Lemma type_lt : forall d x, In x (layout d) -> d_type x < 6.
Proof. intros d x H. apply (in_map locus) in H. apply in_loci in H. apply H. Qed.
Lemma nth_add_shift : forall s f t, t < 6 -> nth t (add_shift s f) 0 = nth t s 0 + f t.
Proof. intros. unfold add_shift, ngeom. now rewrite nth_map_seq. Qed.

Lemma view_child : forall D d b se st se' st' f,
  view_ok D (View d se st) -> wf b -> length se' = 6 ->
  (forall t, t < 6 -> nth t se' 0 = nth t se 0 + f t) ->
  st' + num_dof_tet b <= st + num_dof_tet d -> st <= st' ->
  (forall i, i < num_dof_tet b -> nth_error (layout d) (st' - st + i) = nth_error (shift_pos f (layout b)) i) ->
  view_ok D (View b se' st').
Proof.
  intros D d b se st se' st' f (Hw & Hl & Hb & Hn) Hwb Hl' Hse Hst1 Hst2 Hch.
  cbn [v_base v_shift_elem v_shift_tet] in *. split; [assumption|]. split; [assumption|].
  cbn [v_base v_shift_elem v_shift_tet]. split; [lia|].
  intros i Hi. replace (st' + i) with (st + (st' - st + i)) by lia. rewrite Hn by lia.
  assert (E := Hch i Hi). unfold shift_pos in *. rewrite !nth_error_map in *. rewrite E.
  destruct (nth_error (layout b) i) as [x|] eqn:Ex; [|reflexivity]. cbn [option_map d_type d_elem d_pos d_sym].
  do 2 f_equal. rewrite Hse by (apply type_lt with b; now apply nth_error_In in Ex). lia.
Qed.

Lemma view_vector : forall k b c, wf b -> c < k -> forall i, i < num_dof_tet b ->
  nth_error (layout (Vector k b)) (c * num_dof_tet b + i) = nth_error (shift_pos (fun t => c * num_dof b t) (layout b)) i.
Proof.
  intros k b c Hwf Hc i Hi. rewrite length_layout_num in * by assumption.
  rewrite nth_error_vector by assumption. f_equal. apply shift_pos_ext_in. intros x Hx.
  f_equal. symmetry. apply num_dof_cnt; [assumption|]. now apply type_lt with b.
Qed.
Lemma view_complex : forall l c b, wf (Complex l) -> nth_error l c = Some b -> forall i, i < num_dof_tet b ->
  nth_error (layout (Complex l)) (nth c (prefix (map num_dof_tet l)) 0 + i) =
  nth_error (shift_pos (fun t => nth c (prefix (map (fun x => num_dof x t) l)) 0) (layout b)) i.
Proof.
  intros l c b Hwf Hc i Hi. assert (Hcl : c < length l) by (apply nth_error_Some; congruence).
  assert (Hb := nth_error_nth l c (Complex []) Hc).
  assert (Hwf' := Hwf). apply wf_complex in Hwf'. rewrite Forall_forall in Hwf'.
  assert (Hwb : wf b) by (apply Hwf'; now apply nth_error_In in Hc).
  rewrite nth_error_complex; [|assumption|assumption|rewrite Hb, <- length_layout_num; assumption].
  unfold comp_block. rewrite Hb. f_equal. apply shift_pos_ext_in. intros x Hx.
  assert (Ht := type_lt _ _ Hx). rewrite nth_prefix by (rewrite map_length; lia). unfold comp_shift. f_equal. f_equal.
  apply map_ext_in. intros y Hy. symmetry. apply num_dof_cnt; auto.
Qed.
Lemma complex_end : forall l c b, wf (Complex l) -> nth_error l c = Some b ->
  nth c (prefix (map num_dof_tet l)) 0 + num_dof_tet b <= num_dof_tet (Complex l).
Proof.
  intros l c b Hwf Hc. assert (Hcl : c < length l) by (apply nth_error_Some; congruence).
  rewrite num_dof_tet_complex by assumption. rewrite nth_prefix by (rewrite map_length; lia).
  assert (H := list_sum_firstn_le (map num_dof_tet l) (S c) (length (map num_dof_tet l))).
  rewrite firstn_all, map_length in H. rewrite list_sum_firstn_S in H by (rewrite map_length; lia).
  rewrite (nth_error_nth (map num_dof_tet l) c 0 (map_nth_error num_dof_tet c l Hc)) in H. lia.
Qed.

Lemma nested_from_ok : forall path D d se st v, view_ok D (View d se st) ->
  nested_from d path se st = Some v -> view_ok D v.
Proof.
  induction path as [|c rest IH]; intros D d se st v Hd E; [discriminate|].
  assert (Hwd : wf d) by apply Hd.
  destruct d as [nd sy|k b|l]; cbn [nested_from] in E; [discriminate| |].
  - destruct (Nat.ltb_spec c k) as [Hc|Hc]; [|discriminate]. cbn [guard obind] in E.
    assert (Hch : view_ok D (View b (add_shift se (fun t => c * num_dof b t)) (st + c * num_dof_tet b))).
    { eapply view_child with (f := fun t => c * num_dof b t); [exact Hd|exact Hwd|reflexivity|..].
      - intros t Ht. now rewrite nth_add_shift.
      - cbn [num_dof_tet]. nia.
      - lia.
      - intros i Hi. replace (st + c * num_dof_tet b - st + i) with (c * num_dof_tet b + i) by lia.
        apply view_vector; assumption. }
    destruct rest as [|c' rest]; [now injection E as <-|]. eapply IH; eassumption.
  - destruct (nth_error l c) as [b|] eqn:Ec; [|discriminate]. cbn [obind] in E.
    rewrite nth_prefix_0 in E.
    assert (Hch : view_ok D (View b (add_shift se (fun t => nth c (prefix (map (fun x => num_dof x t) l)) 0 - nth 0 (prefix (map (fun x => num_dof x t) l)) 0))
                                    (st + (nth c (prefix (map num_dof_tet l)) 0 - 0)))).
    { eapply view_child with (f := fun t => nth c (prefix (map (fun x => num_dof x t) l)) 0); [exact Hd| |reflexivity|..].
      - assert (H := Hwd). apply wf_complex in H. rewrite Forall_forall in H. apply H. now apply nth_error_In in Ec.
      - intros t Ht. rewrite nth_add_shift by assumption. rewrite nth_prefix_0. lia.
      - assert (H := complex_end l c b Hwd Ec). lia.
      - lia.
      - intros i Hi. rewrite Nat.sub_0_r.
        replace (st + nth c (prefix (map num_dof_tet l)) 0 - st + i) with (nth c (prefix (map num_dof_tet l)) 0 + i) by lia.
        now apply view_complex. }
    destruct rest as [|c' rest]; [now injection E as <-|]. eapply IH; eassumption.
Qed.
Lemma view_root_ok : forall d, wf d -> view_ok d (View d zero_shift 0).
Proof.
  intros d H. split; [assumption|]. split; [reflexivity|]. cbn [v_base v_shift_elem v_shift_tet]. split; [lia|].
  intros i Hi. cbn [Nat.add]. unfold shift_pos. rewrite nth_error_map.
  destruct (nth_error (layout d) i) as [x|] eqn:E; [|reflexivity]. cbn [option_map].
  assert (Hz : nth (d_type x) zero_shift 0 = 0).
  { apply nth_error_In, type_lt in E. unfold zero_shift. apply nth_repeat. }
  rewrite Hz. now destruct x.
Qed.
Lemma nested_view_ok : forall d path v, wf d -> nested_view d path = Some v -> view_ok d v.
Proof.
  intros d path v H E. destruct path as [|c r].
  - cbn in E. injection E as <-. now apply view_root_ok.
  - unfold nested_view in E. eapply nested_from_ok; [apply view_root_ok; exact H|exact E].
Qed.

Lemma view_local_order_spec : forall d path v, wf d -> nested_view d path = Some v ->
  forall i, i < num_dof_tet (v_base v) -> local_order d (v_shift_tet v + i) = view_local_order v i.
Proof.
  intros d path v Hwf E i Hi. destruct (nested_view_ok d path v Hwf E) as (Hw & _ & _ & Hn).
  rewrite local_order_layout by assumption. rewrite Hn by assumption. unfold view_local_order.
  rewrite local_order_layout by assumption. unfold shift_pos. rewrite nth_error_map.
  destruct (nth_error (layout (v_base v)) i) as [x|]; [|reflexivity]. cbn [option_map obind].
  unfold lo_of; cbn. do 2 f_equal; lia.
Qed.

(** *** Algebra, up to symmetry labels *)
Definition shift_loci (f : nat -> nat) (l : list (nat * nat * nat)) := map (fun '(t, e, p) => (t, e, f t + p)) l.

Lemma loci_shift : forall f l, map locus (shift_pos f l) = shift_loci f (map locus l).
Proof. intros. unfold shift_pos, shift_loci. rewrite !map_map. reflexivity. Qed.
Lemma shift_loci_ext : forall f g l, (forall t, f t = g t) -> shift_loci f l = shift_loci g l.
Proof. intros. apply map_ext. intros [[t e] p]. now rewrite H. Qed.
Lemma shift_loci_add : forall f g l, shift_loci f (shift_loci g l) = shift_loci (fun t => f t + g t) l.
Proof. intros. unfold shift_loci. rewrite map_map. apply map_ext. intros [[t e] p]. f_equal. lia. Qed.
Lemma shift_loci_0 : forall f l, (forall t, f t = 0) -> shift_loci f l = l.
Proof. intros f l H. unfold shift_loci. rewrite <- (map_id l) at 2. apply map_ext. intros [[t e] p]. now rewrite H. Qed.
Lemma shift_loci_app : forall f a b, shift_loci f (a ++ b) = shift_loci f a ++ shift_loci f b.
Proof. intros. apply map_app. Qed.

Lemma go_layout_acc : forall l acc, map locus (go_layout l acc) = shift_loci acc (loci (Complex l)).
Proof.
  assert (Hgen : forall l acc acc2, map locus (go_layout l (fun t => acc t + acc2 t)) = shift_loci acc (map locus (go_layout l acc2))).
  { induction l as [|x l IH]; intros acc acc2; [reflexivity|].
    cbn [go_layout]. rewrite !map_app, shift_loci_app, !loci_shift, shift_loci_add. f_equal.
    rewrite <- IH. rewrite !go_layout_eq, !map_flat_map. apply flat_map_ext_in. intros v _.
    rewrite !loci_shift. apply shift_loci_ext. intros; lia. }
  intros l acc. unfold loci. change (layout (Complex l)) with (go_layout l (fun _ => 0)).
  rewrite <- Hgen. rewrite !go_layout_eq, !map_flat_map. apply flat_map_ext_in. intros v _.
  rewrite !loci_shift. apply shift_loci_ext. intros; lia.
Qed.
Lemma loci_cons : forall x l, loci (Complex (x :: l)) = loci x ++ shift_loci (cnt x) (loci (Complex l)).
Proof.
  intros x l. unfold loci at 1. change (layout (Complex (x :: l))) with
    (shift_pos (fun _ => 0) (layout x) ++ go_layout l (fun t => 0 + cnt x t)).
  rewrite map_app, loci_shift. f_equal; [now apply shift_loci_0|].
  rewrite go_layout_acc. now apply shift_loci_ext.
Qed.
Lemma cnt_cons : forall x l t, cnt (Complex (x :: l)) t = cnt x t + cnt (Complex l) t.
Proof. reflexivity. Qed.
Lemma cnt_app : forall l m t, cnt (Complex (l ++ m)) t = cnt (Complex l) t + cnt (Complex m) t.
Proof. intros. cbn [cnt]. now rewrite map_app, list_sum_app. Qed.
Lemma loci_app : forall l m, loci (Complex (l ++ m)) = loci (Complex l) ++ shift_loci (cnt (Complex l)) (loci (Complex m)).
Proof.
  induction l as [|x l IH]; intros m.
  - cbn [app]. rewrite shift_loci_0; [reflexivity|]. reflexivity.
  - cbn [app]. rewrite !loci_cons, IH, shift_loci_app, shift_loci_add, <- app_assoc. do 2 f_equal.
Qed.

Lemma sd_refl : forall a, same_dofs a a.
Proof. intros; now split. Qed.
Lemma sd_sym : forall a b, same_dofs a b -> same_dofs b a.
Proof. intros a b [H1 H2]. split; [intros; now rewrite H1|now symmetry]. Qed.
Lemma sd_trans : forall a b c, same_dofs a b -> same_dofs b c -> same_dofs a c.
Proof. intros a b c [H1 H2] [H3 H4]. split; [intros; now rewrite H1|congruence]. Qed.

Lemma sd_app : forall l l' m m', same_dofs (Complex l) (Complex l') -> same_dofs (Complex m) (Complex m') ->
  same_dofs (Complex (l ++ m)) (Complex (l' ++ m')).
Proof.
  intros l l' m m' [H1 H2] [H3 H4]. split.
  - intros t. rewrite !cnt_app. now rewrite H1, H3.
  - rewrite !loci_app, H2, H4. f_equal. now apply shift_loci_ext.
Qed.
Lemma sd_one : forall a, same_dofs (Complex [a]) a.
Proof.
  intros a. split.
  - intros t. cbn [cnt map]. autorewrite with lsum. lia.
  - rewrite loci_cons. cbn. now rewrite app_nil_r.
Qed.
Lemma sd_spaces : forall m, same_dofs (Complex (spaces_of m)) m.
Proof. intros [nd sy|k b|l]; cbn [spaces_of]; [apply sd_one..|apply sd_refl]. Qed.
Lemma sd_one_cong : forall a b, same_dofs a b -> same_dofs (Complex [a]) (Complex [b]).
Proof. intros a b H. eapply sd_trans; [apply sd_one|]. eapply sd_trans; [exact H|]. apply sd_sym, sd_one. Qed.
Lemma sd_flat : forall l m, same_dofs (Complex (l ++ m)) (Complex [Complex l; Complex m]).
Proof.
  intros l m. change [Complex l; Complex m] with ([Complex l] ++ [Complex m]).
  apply sd_app; apply sd_sym, sd_one.
Qed.
Lemma sd_two : forall a b a' b', same_dofs a a' -> same_dofs b b' -> same_dofs (Complex [a; b]) (Complex [a'; b']).
Proof.
  intros. change [a; b] with ([a] ++ [b]). change [a'; b'] with ([a'] ++ [b']). apply sd_app; now apply sd_one_cong.
Qed.
Lemma sd_vector : forall k b, same_dofs (Vector k b) (Complex (repeat b k)).
Proof.
  intros k b. split.
  - intros t. cbn [cnt]. induction k as [|k IH]; [reflexivity|]. cbn [repeat map]. rewrite list_sum_cons. lia.
  - unfold loci at 1. cbn [layout]. rewrite map_flat_map.
    assert (H : forall a, flat_map (fun x => map locus (shift_pos (fun t => x * cnt b t) (layout b))) (seq a k) =
                shift_loci (fun t => a * cnt b t) (loci (Complex (repeat b k)))).
    { induction k as [|k IH]; intros a; [reflexivity|]. cbn [seq flat_map repeat].
      rewrite IH, loci_cons, shift_loci_app, loci_shift, shift_loci_add. f_equal.
      apply shift_loci_ext. intros; lia. }
    rewrite H. now apply shift_loci_0.
Qed.
Lemma sd_vector_cong : forall k a b, same_dofs a b -> same_dofs (Vector k a) (Vector k b).
Proof.
  intros k a b H. eapply sd_trans; [apply sd_vector|]. eapply sd_trans; [|apply sd_sym, sd_vector].
  induction k as [|k IH]; [apply sd_refl|]. cbn [repeat].
  change (a :: repeat a k) with ([a] ++ repeat a k). change (b :: repeat b k) with ([b] ++ repeat b k).
  apply sd_app; [now apply sd_one_cong|assumption].
Qed.
Lemma sd_vector_add : forall k j b, same_dofs (Vector (k + j) b) (Complex [Vector k b; Vector j b]).
Proof.
  intros. eapply sd_trans; [apply sd_vector|]. rewrite repeat_app. eapply sd_trans; [apply sd_flat|].
  apply sd_two; apply sd_sym, sd_vector.
Qed.
Lemma sd_vector_1 : forall b, same_dofs (Vector 1 b) b.
Proof. intros. eapply sd_trans; [apply sd_vector|]. apply sd_one. Qed.
Lemma sd_vector_mul : forall j k b, same_dofs (Vector (j * k) b) (Vector k (Vector j b)).
Proof.
  intros j k b. induction k as [|k IH].
  - rewrite Nat.mul_0_r. split; [reflexivity|reflexivity].
  - rewrite Nat.mul_succ_r. replace (j * k + j) with (j + j * k) by lia.
    eapply sd_trans; [apply sd_vector_add|]. change (S k) with (1 + k).
    eapply sd_trans; [|apply sd_sym, sd_vector_add]. apply sd_two; [apply sd_sym, sd_vector_1|assumption].
Qed.

Lemma eqb_list_eq : forall a b, eqb_list a b = true -> a = b.
Proof.
  induction a as [|x a IH]; intros [|y b] H; cbn in H; try discriminate; [reflexivity|].
  apply andb_true_iff in H. destruct H as [H1 H2]. apply Nat.eqb_eq in H1. f_equal; auto.
Qed.
Lemma prefix_from_inj : forall a b s, length a = length b -> prefix_from s a = prefix_from s b -> a = b.
Proof.
  induction a as [|x a IH]; intros [|y b] s Hl E; cbn in Hl; try discriminate; [reflexivity|].
  cbn [prefix_from] in E. injection E as E. assert (s + x = s + y).
  { destruct a, b; cbn in E; congruence. }
  assert (x = y) by lia. subst. f_equal. eapply IH; [lia|exact E].
Qed.
Lemma prefix_from_length : forall a b s, prefix_from s a = prefix_from s b -> length a = length b.
Proof. intros a b s E. apply (f_equal (@length nat)) in E. rewrite !length_prefix_from in E. lia. Qed.

Lemma loci_unite : forall nd s1 s2, loci (Unite nd s1) = loci (Unite nd s2).
Proof.
  intros. unfold loci. cbn [layout]. rewrite !map_flat_map. apply flat_map_ext_in. intros t _.
  rewrite !map_flat_map. apply flat_map_ext_in. intros e _. rewrite !map_map. reflexivity.
Qed.
Lemma dmap_eqb_sound : forall a b, wf a -> wf b -> dmap_eqb a b = true -> same_dofs a b.
Proof.
  induction a as [nd sy|k a IH|l IH] using dmap_ind'; intros [nd' sy'|k' b|l'] Ha Hb E; cbn [dmap_eqb] in E; try discriminate.
  - apply eqb_list_eq in E. unfold shiftDof, prefix in E.
    assert (nd = nd') by (eapply prefix_from_inj; [eapply prefix_from_length; exact E|exact E]). subst nd'.
    split; [reflexivity|]. apply loci_unite.
  - apply andb_true_iff in E. destruct E as [E1 E2]. apply Nat.eqb_eq in E1. subst k'.
    apply sd_vector_cong. now apply IH.
  - apply andb_true_iff in E. destruct E as [_ E].
    apply wf_complex in Ha, Hb. revert l' Hb E. induction l as [|x l IHl]; intros [|y l'] Hb E; cbn [map] in E; try discriminate.
    + apply sd_refl.
    + inversion IH; subst. inversion Ha; subst. inversion Hb; subst.
      apply andb_true_iff in E. destruct E as [E1 E2].
      change (x :: l) with ([x] ++ l). change (y :: l') with ([y] ++ l'). apply sd_app.
      * apply sd_one_cong. auto.
      * apply IHl; auto.
Qed.

Lemma sd_swap_mid : forall ra xa xb rb m, same_dofs m (Complex [xa; xb]) ->
  same_dofs (Complex (ra ++ spaces_of m ++ rb)) (Complex [Complex (ra ++ [xa]); Complex (xb :: rb)]).
Proof.
  intros. eapply sd_trans; [|apply sd_flat]. rewrite <- app_assoc. cbn [app].
  apply sd_app; [apply sd_refl|]. change (xa :: xb :: rb) with ([xa; xb] ++ rb).
  apply sd_app; [|apply sd_refl]. eapply sd_trans; [apply sd_spaces|assumption].
Qed.
Lemma Forall_wf_app : forall l m, wf (Complex (l ++ m)) <-> wf (Complex l) /\ wf (Complex m).
Proof. intros. rewrite !wf_complex. apply Forall_app. Qed.

Lemma wf_spaces : forall m, wf m -> wf (Complex (spaces_of m)).
Proof. intros [nd sy|k b|l] H; cbn [spaces_of]; [apply wf_complex; repeat constructor; apply H..|exact H]. Qed.

Lemma dmul_sound : forall fuel a b m, wf a -> wf b -> dmul fuel a b = Some m ->
  same_dofs m (Complex [a; b]) /\ wf m.
Proof.
  induction fuel as [|fuel IH]; intros a b m Ha Hb E; [discriminate|]. cbn [dmul] in E.
  assert (Hpair : same_dofs (Complex [a; b]) (Complex [a; b]) /\ wf (Complex [a; b])).
  { split; [apply sd_refl|]. apply wf_complex; auto. }
  destruct (same_kind a b) eqn:Ek.
  - destruct (dmap_eqb a b) eqn:Ee.
    + assert (Hsd := dmap_eqb_sound a b Ha Hb Ee).
      assert (H2 : same_dofs (Vector 2 a) (Complex [a; b]) /\ wf (Vector 2 a)).
      { split; [|exact Ha]. eapply sd_trans; [apply sd_vector|]. cbn [repeat]. now apply sd_two; [apply sd_refl|]. }
      destruct a as [nd sy|k x|la]; [injection E as <-; exact H2| |injection E as <-; exact H2].
      destruct b as [nd' sy'|j y|lb]; [discriminate Ek| |discriminate Ek]. injection E as <-.
      split; [|exact Ha]. eapply sd_trans; [apply sd_vector_add|]. apply sd_two; [apply sd_refl|].
      cbn [dmap_eqb] in Ee. apply andb_true_iff in Ee. destruct Ee as [Ee _]. apply Nat.eqb_eq in Ee. subst j. exact Hsd.
    + destruct a as [nd sy|k x|la]; [injection E as <-; exact Hpair..|].
      destruct b as [nd' sy'|j y|lb]; [discriminate Ek..|].
      assert (Hcat : same_dofs (Complex (la ++ lb)) (Complex [Complex la; Complex lb]) /\ wf (Complex (la ++ lb))).
      { split; [apply sd_flat|]. apply Forall_wf_app. auto. }
      destruct (rev la) as [|xa ra] eqn:Er; [injection E as <-; exact Hcat|].
      destruct lb as [|xb rb]; [injection E as <-; exact Hcat|].
      assert (Hla : la = rev ra ++ [xa]) by (rewrite <- (rev_involutive la), Er; reflexivity).
      destruct (dmul fuel xa xb) as [m'|] eqn:Em; [|discriminate]. injection E as <-.
      rewrite Hla in Ha |- *. apply Forall_wf_app in Ha. destruct Ha as [Ha1 Ha2].
      assert (Hxa : wf xa) by (apply wf_complex in Ha2; now inversion Ha2).
      assert (Hxb : wf xb /\ wf (Complex rb)) by exact Hb.
      destruct (IH xa xb m' Hxa (proj1 Hxb) Em) as [Hs Hw].
      split; [now apply sd_swap_mid|]. apply Forall_wf_app. split; [assumption|].
      apply Forall_wf_app. split; [now apply wf_spaces|apply Hxb].
  - destruct a as [nd sy|k x|la].
    + destruct b as [nd' sy'|j y|lb]; [discriminate Ek| |].
      * destruct (dmap_eqb y (Unite nd sy)) eqn:Ee; injection E as <-; [|exact Hpair].
        split; [|exact Hb]. assert (Hsd := dmap_eqb_sound y (Unite nd sy) Hb Ha Ee).
        rewrite Nat.add_comm. eapply sd_trans; [apply sd_vector_add|]. apply sd_two; [|apply sd_refl].
        eapply sd_trans; [apply sd_vector_1|exact Hsd].
      * destruct lb as [|xb rb]; [discriminate|].
        destruct (dmul fuel (Unite nd sy) xb) as [m'|] eqn:Em; [|discriminate]. injection E as <-.
        assert (Hxb : wf xb /\ wf (Complex rb)) by exact Hb.
        destruct (IH _ xb m' Ha (proj1 Hxb) Em) as [Hs Hw]. split.
        -- eapply sd_trans; [apply (sd_swap_mid [] (Unite nd sy) xb rb m' Hs)|].
           apply sd_two; [apply sd_one|apply sd_refl].
        -- apply Forall_wf_app. split; [now apply wf_spaces|apply Hxb].
    + destruct b as [nd' sy'|j y|lb]; [|discriminate Ek|].
      * destruct (dmap_eqb x (Unite nd' sy')) eqn:Ee; injection E as <-; [|exact Hpair].
        split; [|exact Ha]. assert (Hsd := dmap_eqb_sound x (Unite nd' sy') Ha Hb Ee).
        eapply sd_trans; [apply sd_vector_add|]. apply sd_two; [apply sd_refl|].
        eapply sd_trans; [apply sd_vector_1|exact Hsd].
      * destruct lb as [|xb rb]; [discriminate|].
        destruct (dmul fuel (Vector k x) xb) as [m'|] eqn:Em; [|discriminate]. injection E as <-.
        assert (Hxb : wf xb /\ wf (Complex rb)) by exact Hb.
        destruct (IH _ xb m' Ha (proj1 Hxb) Em) as [Hs Hw]. split.
        -- eapply sd_trans; [apply (sd_swap_mid [] (Vector k x) xb rb m' Hs)|].
           apply sd_two; [apply sd_one|apply sd_refl].
        -- apply Forall_wf_app. split; [now apply wf_spaces|apply Hxb].
    + assert (Hgen : forall bb, wf bb -> same_kind (Complex la) bb = false ->
                match rev la with [] => None | xa :: ra => do m <- dmul fuel xa bb; Some (Complex (rev ra ++ spaces_of m)) end = Some m ->
                same_dofs m (Complex [Complex la; bb]) /\ wf m).
      { intros bb Hbb _ E'. destruct (rev la) as [|xa ra] eqn:Er; [discriminate|].
        assert (Hla : la = rev ra ++ [xa]) by (rewrite <- (rev_involutive la), Er; reflexivity).
        destruct (dmul fuel xa bb) as [m'|] eqn:Em; [|discriminate]. injection E' as <-.
        rewrite Hla in Ha |- *. apply Forall_wf_app in Ha. destruct Ha as [Ha1 Ha2].
        assert (Hxa : wf xa) by (apply wf_complex in Ha2; now inversion Ha2).
        destruct (IH xa bb m' Hxa Hbb Em) as [Hs Hw]. split.
        - assert (H := sd_swap_mid (rev ra) xa bb [] m' Hs). rewrite app_nil_r in H.
          eapply sd_trans; [exact H|]. apply sd_two; [apply sd_refl|apply sd_one].
        - apply Forall_wf_app. split; [assumption|now apply wf_spaces]. }
      destruct b as [nd' sy'|j y|lb]; [apply Hgen; auto..|discriminate Ek].
Qed.

Lemma no_empty_complex : forall l, no_empty (Complex l) <-> l <> [] /\ Forall no_empty l.
Proof.
  intros l. cbn [no_empty]. assert (H : fold_right (fun b P => no_empty b /\ P) True l <-> Forall no_empty l).
  { induction l as [|x l IH]; cbn [fold_right]; [split; constructor|].
    rewrite IH. split; [intros [H1 H2]; now constructor|intros H; now inversion H]. }
  now rewrite H.
Qed.
Lemma dsize_app : forall l m, list_sum (map dsize (l ++ m)) = list_sum (map dsize l) + list_sum (map dsize m).
Proof. intros. now rewrite map_app, list_sum_app. Qed.
Lemma dmul_total : forall fuel a b, no_empty a -> no_empty b -> dsize a + dsize b <= fuel ->
  exists m, dmul fuel a b = Some m.
Proof.
  induction fuel as [|fuel IH]; intros a b Ha Hb Hf.
  - destruct a; cbn in Hf; lia.
  - assert (Hlast : forall la, no_empty (Complex la) -> exists xa ra, rev la = xa :: ra /\ no_empty xa /\ dsize xa < dsize (Complex la)).
    { intros la H. apply no_empty_complex in H. destruct H as [H1 H2].
      destruct (rev la) as [|xa ra] eqn:Er; [destruct la; [congruence|cbn in Er; destruct (rev la); discriminate]|].
      exists xa, ra. split; [reflexivity|].
      assert (Hla : la = rev ra ++ [xa]) by (rewrite <- (rev_involutive la), Er; reflexivity).
      rewrite Hla in H2 |- *. apply Forall_app in H2. destruct H2 as [_ H2]. inversion H2; subst. split; [assumption|].
      cbn [dsize]. rewrite dsize_app. cbn [map]. autorewrite with lsum. lia. }
    assert (Hfirst : forall lb, no_empty (Complex lb) -> exists xb rb, lb = xb :: rb /\ no_empty xb /\ dsize xb < dsize (Complex lb)).
    { intros lb H. apply no_empty_complex in H. destruct H as [H1 H2]. destruct lb as [|xb rb]; [congruence|].
      inversion H2; subst. exists xb, rb. split; [reflexivity|]. split; [assumption|]. cbn [dsize map]. rewrite list_sum_cons. lia. }
    cbn [dmul]. destruct (same_kind a b) eqn:Ek.
    + destruct (dmap_eqb a b); [destruct a, b; eexists; reflexivity|].
      destruct a as [nd sy|k x|la], b as [nd' sy'|j y|lb]; try (eexists; reflexivity).
      destruct (Hlast la Ha) as (xa & ra & -> & Hxa & Hsa). destruct (Hfirst lb Hb) as (xb & rb & -> & Hxb & Hsb).
      destruct (IH xa xb) as (m & ->); [assumption..|lia|]. eexists; reflexivity.
    + destruct a as [nd sy|k x|la]; [destruct b as [nd' sy'|j y|lb]|destruct b as [nd' sy'|j y|lb]|].
      * discriminate.
      * destruct (dmap_eqb y (Unite nd sy)); eexists; reflexivity.
      * destruct (Hfirst lb Hb) as (xb & rb & -> & Hxb & Hsb).
        destruct (IH (Unite nd sy) xb) as (m & ->); [assumption..|lia|]. eexists; reflexivity.
      * destruct (dmap_eqb x (Unite nd' sy')); eexists; reflexivity.
      * discriminate.
      * destruct (Hfirst lb Hb) as (xb & rb & -> & Hxb & Hsb).
        destruct (IH (Vector k x) xb) as (m & ->); [assumption..|lia|]. eexists; reflexivity.
      * destruct (Hlast la Ha) as (xa & ra & -> & Hxa & Hsa).
        destruct (IH xa b) as (m & Em); [assumption..|lia|]. rewrite Em.
        destruct b; eexists; reflexivity.
Qed.
Lemma dmap_mul_ok : forall a b, wf a -> wf b -> no_empty a -> no_empty b ->
  exists m, dmap_mul a b = Some m /\ same_dofs m (Complex [a; b]) /\ wf m.
Proof.
  intros a b Ha Hb Hna Hnb. destruct (dmul_total (dsize a + dsize b) a b Hna Hnb (le_n _)) as (m & E).
  exists m. split; [exact E|]. now apply dmul_sound with (dsize a + dsize b).
Qed.

Lemma sd_push : forall l x, same_dofs (Complex (l ++ [x])) (Complex [Complex l; x]).
Proof. intros. eapply sd_trans; [apply sd_flat|]. apply sd_two; [apply sd_refl|apply sd_one]. Qed.

Lemma dmap_xor_ok : forall d k, same_dofs (dmap_xor d k) (Vector k d).
Proof. intros [nd sy|j b|l] k; cbn [dmap_xor]; [apply sd_refl|apply sd_vector_mul|apply sd_refl]. Qed.

Lemma merge_simpl_sound : forall l m, Forall wf l -> dmap_merge_simpl l = Some m ->
  same_dofs m (Complex l) /\ wf m.
Proof.
  intros [|x l] m Hl E; [discriminate|]. cbn [dmap_merge_simpl] in E. inversion Hl as [|? ? Hx Hl']; subst.
  assert (H : forall l acc pre, Forall wf l -> wf acc -> same_dofs acc (Complex pre) ->
     fold_left (fun acc y => do a <- acc; dmap_mul a y) l (Some acc) = Some m ->
     same_dofs m (Complex (pre ++ l)) /\ wf m).
  { clear. induction l as [|y l IH]; intros acc pre Hl Hacc Hs E; cbn [fold_left] in E.
    - injection E as <-. rewrite app_nil_r. auto.
    - inversion Hl; subst. cbn [obind] in E. destruct (dmap_mul acc y) as [m1|] eqn:Em.
      + destruct (dmul_sound _ acc y m1 Hacc ltac:(assumption) Em) as [Hs1 Hw1].
        destruct (IH m1 (pre ++ [y]) ltac:(assumption) Hw1) as [Hr1 Hr2]; [|exact E|].
        * eapply sd_trans; [exact Hs1|]. apply sd_sym. eapply sd_trans; [apply sd_push|].
          apply sd_two; [now apply sd_sym|apply sd_refl].
        * rewrite <- app_assoc in Hr1. auto.
      + exfalso. clear - E. assert (H : fold_left (fun acc y => do a <- acc; dmap_mul a y) l None = None).
        { clear E. induction l as [|z l IH]; [reflexivity|]. exact IH. }
        rewrite H in E. discriminate. }
  destruct (H l x [x] Hl' Hx (sd_sym _ _ (sd_one x)) E) as [H1 H2]. auto.
Qed.

Lemma compress_loop_ok : forall l prev j, wf prev -> Forall wf l ->
  same_dofs (Complex (compress_loop prev j l)) (Complex (repeat prev (S j) ++ l)).
Proof.
  induction l as [|x l IH]; intros prev j Hp Hl; cbn [compress_loop].
  - rewrite app_nil_r. destruct (Nat.eqb_spec j 0) as [->|Hj]; [apply sd_refl|].
    eapply sd_trans; [apply sd_one|]. rewrite Nat.add_1_r. apply sd_vector.
  - inversion Hl; subst. destruct (dmap_eqb x prev) eqn:Ee.
    + assert (Hs := dmap_eqb_sound x prev ltac:(assumption) Hp Ee).
      eapply sd_trans; [apply IH; assumption|].
      change (repeat x (S (S j)) ++ l) with ((x :: repeat x (S j)) ++ l).
      rewrite repeat_cons, <- app_assoc. cbn [app]. apply sd_app; [|apply sd_refl].
      eapply sd_trans; [apply sd_sym, sd_vector|]. eapply sd_trans; [|apply sd_vector].
      now apply sd_vector_cong.
    + match goal with |- same_dofs (Complex (?f :: ?r)) _ => change (f :: r) with ([f] ++ r) end.
      apply sd_app; [|apply (IH x 0); assumption].
      destruct (Nat.eqb_spec j 0) as [->|Hj]; [apply sd_refl|].
      eapply sd_trans; [apply sd_one|]. rewrite Nat.add_1_r. apply sd_vector.
Qed.
Lemma make_compressed_ok : forall l, Forall wf l -> same_dofs (make_compressed l) (Complex l).
Proof.
  intros [|x [|y l]] Hl; [apply sd_refl..|]. inversion Hl; subst.
  cbn [make_compressed]. apply (compress_loop_ok (y :: l) x 0); assumption.
Qed.

(** *** Unions of types *)
Lemma num_dof_tet_mask_ok : forall d m, wf d -> complex_free d ->
  num_dof_tet_mask d m = list_sum (map (fun t => if Nat.testbit m t then tet_elems t * cnt d t else 0) (seq 0 6)).
Proof.
  induction d as [nd sy|k b IH|l IH] using dmap_ind'; intros m Hwf Hcf; [| |contradiction].
  - cbn [num_dof_tet_mask]. apply list_sum_map_ext_in. intros t Ht. apply in_seq in Ht. unfold ngeom in Ht.
    destruct (Nat.testbit m t); [|reflexivity].
    apply (num_dof_tet_t_cnt (Unite nd sy) t Hwf). lia.
  - cbn [num_dof_tet_mask cnt]. rewrite IH by assumption. rewrite <- list_sum_map_mul.
    apply list_sum_map_ext_in. intros t _. destruct (Nat.testbit m t); lia.
Qed.
Lemma num_dof_tet_mask_one : forall d t, wf d -> t < 6 -> num_dof_tet_mask d (2 ^ t) = tet_elems t * cnt d t.
Proof.
  induction d as [nd sy|k b IH|l IH] using dmap_ind'; intros t Hwf Ht.
  - rewrite num_dof_tet_mask_ok by (assumption || exact I).
    do 6 (destruct t as [|t]; [cbn -[tet_elems cnt]; autorewrite with lsum; lia|]). lia.
  - cbn [num_dof_tet_mask cnt]. rewrite IH by assumption. lia.
  - cbn [num_dof_tet_mask]. rewrite Nat.log2_pow2 by lia. now apply num_dof_tet_t_cnt.
Qed.

(** *** Components *)
Lemma component_tet_ok : forall d i, wf d -> i < num_dof_tet d ->
  match d with Unite _ _ => True | _ =>
  exists c j v, component_tet d i = Some (c, j) /\ nested_view d [c] = Some v /\
    j < num_dof_tet (v_base v) /\ i = v_shift_tet v + j end.
Proof.
  intros [nd sy|k b|l] i Hwf Hi; [exact I| |].
  - cbn [num_dof_tet component_tet] in *. set (n := num_dof_tet b) in *. assert (n <> 0) by nia.
    rewrite guard_true by (apply Nat.ltb_lt; lia). assert (i / n < k) by (apply Nat.div_lt_upper_bound; lia).
    do 3 eexists. split; [reflexivity|]. cbn [nested_view nested_from].
    rewrite guard_true by (now apply Nat.ltb_lt). split; [reflexivity|]. cbn [v_base v_shift_tet]. fold n.
    split; [now apply Nat.mod_upper_bound|]. pose proof (Nat.div_mod i n H). lia.
  - cbn [component_tet]. rewrite guard_true by (now apply Nat.ltb_lt). rewrite num_dof_tet_complex in Hi by assumption.
    destruct (upper_bound_prefix _ _ Hi) as (v & E & Hv & H1 & H2). rewrite E. cbn zeta. replace (S v - 1) with v by lia.
    rewrite map_length in Hv. destruct (nth_error l v) as [b|] eqn:Eb; [|apply nth_error_None in Eb; lia].
    do 3 eexists. split; [reflexivity|]. cbn [nested_view nested_from]. rewrite Eb. cbn [obind].
    split; [reflexivity|]. cbn [v_base v_shift_tet]. rewrite nth_prefix_0. rewrite nth_prefix by (rewrite map_length; lia).
    rewrite (nth_error_nth (map num_dof_tet l) v 0 (map_nth_error num_dof_tet v l Eb)) in H2. lia.
Qed.
Lemma component_unique : forall d c c' v v' i, wf d ->
  nested_view d [c] = Some v -> nested_view d [c'] = Some v' ->
  view_valid_output v i = true -> view_valid_output v' i = true -> c = c'.
Proof.
  intros [nd sy|k b|l] c c' v v' i Hwf E1 E2 H1 H2; [discriminate| |].
  - cbn [nested_view nested_from] in *. destruct (Nat.ltb_spec c k); [|discriminate]. destruct (Nat.ltb_spec c' k); [|discriminate].
    cbn [guard obind] in *. injection E1 as <-. injection E2 as <-.
    unfold view_valid_output in *. cbn [v_base v_shift_tet] in *. rewrite !andb_true_iff, !Nat.leb_le, !Nat.ltb_lt in *.
    set (n := num_dof_tet b) in *. destruct H1, H2. destruct (Nat.lt_trichotomy c c') as [|[|]]; [nia|assumption|nia].
  - cbn [nested_view nested_from] in *. destruct (nth_error l c) as [b|] eqn:Eb; [|discriminate]. destruct (nth_error l c') as [b'|] eqn:Eb'; [|discriminate].
    cbn [obind] in *. injection E1 as <-. injection E2 as <-.
    unfold view_valid_output in *. cbn [v_base v_shift_tet] in *. rewrite !nth_prefix_0 in *.
    rewrite !andb_true_iff, !Nat.leb_le, !Nat.ltb_lt in *. destruct H1, H2.
    assert (Hc : c < length l) by (apply nth_error_Some; congruence).
    assert (Hc' : c' < length l) by (apply nth_error_Some; congruence).
    rewrite nth_prefix in * by (rewrite map_length; lia).
    apply (block_unique (map num_dof_tet l) c c' i); [rewrite map_length; assumption..| |].
    + rewrite (nth_error_nth (map num_dof_tet l) c 0 (map_nth_error num_dof_tet c l Eb)). lia.
    + rewrite (nth_error_nth (map num_dof_tet l) c' 0 (map_nth_error num_dof_tet c' l Eb')). lia.
Qed.
