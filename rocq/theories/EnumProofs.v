From Verif Require Import Prelude DofModel DofSpec DofProofs EnumModel EnumSpec.

Lemma var_shift_comp : forall l t v, wf (Complex l) -> t < 6 -> v <= length l -> var_shift l t v = comp_shift l v t.
Proof.
  intros l t v Hw Ht Hv. unfold var_shift, comp_shift. rewrite nth_prefix by (rewrite map_length; lia).
  f_equal. f_equal. apply map_ext_in. intros b Hb. apply num_dof_cnt; [|assumption]. apply wf_complex in Hw. rewrite Forall_forall in Hw. now apply Hw.
Qed.
Lemma nth_wf : forall l v b, wf (Complex l) -> nth_error l v = Some b -> wf b.
Proof. intros l v b Hw E. apply wf_complex in Hw. rewrite Forall_forall in Hw. apply Hw. eapply nth_error_In; eassumption. Qed.
Lemma cnt_split : forall b t, cnt b t = ncomp b * per_comp b t.
Proof. intros [nd sy|k b|l] t; cbn [ncomp per_comp cnt]; lia. Qed.
Lemma total_cnt : forall l t, wf (Complex l) -> t < 6 -> num_dof (Complex l) t = cnt (Complex l) t.
Proof. intros. now apply num_dof_cnt. Qed.

Definition dtype (l : list dmap) (t v : nat) : list desc :=
  let b := nth v l (Complex []) in flat_map (fun c => map (fun p => Desc t v c p) (seq 0 (per_comp b t))) (seq 0 (ncomp b)).
Lemma length_dtype : forall l t v, length (dtype l t v) = cnt (nth v l (Complex [])) t.
Proof.
  intros l t v. unfold dtype. rewrite length_flat_map', cnt_split. rewrite (list_sum_const _ (per_comp (nth v l (Complex [])) t)); [now rewrite seq_length|].
  intros c _. now rewrite map_length, seq_length.
Qed.
Lemma sum_firstn_seq : forall (f : nat -> nat) n k, k <= n -> list_sum (firstn k (map f (seq 0 n))) = list_sum (map f (seq 0 k)).
Proof. intros f n k H. rewrite firstn_map, firstn_map_seq, Nat.min_l by assumption. reflexivity. Qed.
Lemma comp_shift_seq : forall l v t, v <= length l -> comp_shift l v t = list_sum (map (fun i => length (dtype l t i)) (seq 0 v)).
Proof.
  intros l v t Hv. induction v as [|v IH]; [reflexivity|].
  rewrite comp_shift_S by lia. rewrite seq_S, map_app, list_sum_app. cbn [map Nat.add]. rewrite list_sum_cons, list_sum_nil, IH, length_dtype by lia. lia.
Qed.
Lemma length_descs_type : forall l t, length (descs_type l t) = cnt (Complex l) t.
Proof.
  intros l t. unfold descs_type. rewrite length_flat_map'. change (cnt (Complex l) t) with (list_sum (map (fun b => cnt b t) l)).
  rewrite <- comp_shift_total, comp_shift_seq by lia. reflexivity.
Qed.

(* position of a valid description among those of its type *)
Definition tpos (l : list dmap) (x : desc) : nat :=
  comp_shift l (x_var x) (x_type x) + x_dim x * per_comp (nth (x_var x) l (Complex [])) (x_type x) + x_pos x.
Lemma nth_of_error : forall (l : list dmap) v b, nth_error l v = Some b -> nth v l (Complex []) = b /\ v < length l.
Proof. intros l v b E. split; [now apply nth_error_nth|]. apply nth_error_Some. congruence. Qed.
Lemma descs_type_at : forall l x, valid_desc l x -> nth_error (descs_type l (x_type x)) (tpos l x) = Some x.
Proof.
  intros l [t v c p] (Ht & b & Eb & Hc & Hp). cbn [x_type x_var x_dim x_pos] in *. destruct (nth_of_error l v b Eb) as [En Hv].
  unfold descs_type, tpos. cbn [x_type x_var x_dim x_pos]. rewrite comp_shift_seq by lia. rewrite En, <- Nat.add_assoc.
  change (flat_map _ (seq 0 (length l))) with (flat_map (dtype l t) (seq 0 (length l))).
  rewrite (nth_error_flat_map (dtype l t) (length l) v (c * per_comp b t + p) Hv).
  2: { rewrite length_dtype, En, cnt_split. nia. }
  unfold dtype. rewrite En. rewrite (nth_error_flat_map_unif _ (ncomp b) (per_comp b t) c p Hc Hp) by (intros; now rewrite map_length, seq_length).
  now apply nth_error_map_seq.
Qed.
Lemma in_descs_type : forall l t x, t < 6 -> In x (descs_type l t) <-> valid_desc l x /\ x_type x = t.
Proof.
  intros l t x Ht. split.
  - intros H. unfold descs_type in H. apply in_flat_map in H. destruct H as (v & Hv & H). apply in_seq in Hv.
    apply in_flat_map in H. destruct H as (c & Hc & H). apply in_seq in Hc. apply in_map_iff in H. destruct H as (p & <- & Hp). apply in_seq in Hp.
    split; [|reflexivity]. split; [exact Ht|]. exists (nth v l (Complex [])). cbn [x_type x_var x_dim x_pos].
    split; [apply nth_error_nth'; lia|]. split; lia.
  - intros [H <-]. eapply nth_error_In, descs_type_at; eassumption.
Qed.
Lemma tpos_lt : forall l x, valid_desc l x -> tpos l x < cnt (Complex l) (x_type x).
Proof. intros l x H. rewrite <- length_descs_type. apply nth_error_Some. rewrite descs_type_at by assumption. discriminate. Qed.
Lemma tpos_inj : forall l x y, valid_desc l x -> valid_desc l y -> x_type x = x_type y -> tpos l x = tpos l y -> x = y.
Proof.
  intros l x y Hx Hy Et Ep. pose proof (descs_type_at l x Hx) as A. pose proof (descs_type_at l y Hy) as B. rewrite Et, Ep in A. congruence.
Qed.
(* every position is that of a description *)
Lemma tpos_onto : forall l t q, t < 6 -> q < cnt (Complex l) t -> exists x, valid_desc l x /\ x_type x = t /\ tpos l x = q.
Proof.
  intros l t q Ht Hq. destruct (comp_find l t q Hq) as (v & Hv & Hq1). set (b := nth v l (Complex [])) in *.
  set (r := q - comp_shift l v t). assert (Hr : r < ncomp b * per_comp b t) by (unfold r; rewrite <- cnt_split; lia).
  assert (Hp : 0 < per_comp b t) by nia.
  exists (Desc t v (r / per_comp b t) (r mod per_comp b t)). unfold valid_desc, tpos. cbn [x_type x_var x_dim x_pos]. fold b. split; [|split; [reflexivity|]].
  - split; [exact Ht|]. exists b. split; [now apply nth_error_nth'|]. split; [apply Nat.div_lt_upper_bound; nia|apply Nat.mod_upper_bound; lia].
  - pose proof (Nat.div_mod r (per_comp b t) ltac:(lia)). unfold r in *. nia.
Qed.

Lemma per_comp_num : forall b t k c, wf b -> t < 6 -> b = Vector k c -> 0 < k -> num_dof b t / k = per_comp b t.
Proof. intros b t k c Hw Ht -> Hk. rewrite num_dof_cnt by assumption. cbn [cnt per_comp]. rewrite Nat.mul_comm. apply Nat.div_mul. lia. Qed.

(* getFullIndex of a description *)
Definition tshift_of (l : list dmap) (t : nat) : nat := if (t =? 2) || (t =? 4) then cnt (Complex l) (t - 1) else 0.
Definition ext_of (l : list dmap) (x : desc) : desc_ext :=
  let b := nth (x_var x) l (Complex []) in
  DescExt x (tshift_of l (x_type x)) (if (x_type x =? 2) || (x_type x =? 4) then cnt b (x_type x - 1) else 0)
    (comp_shift l (x_var x) (x_type x)) (x_dim x * per_comp b (x_type x)).
Lemma full_desc_ok : forall l x, wf (Complex l) -> valid_desc l x -> full_desc l x = Some (ext_of l x).
Proof.
  intros l [t v c p] Hw (Ht & b & Eb & Hc & Hp). cbn [x_type x_var x_dim x_pos] in *. destruct (nth_of_error l v b Eb) as [En Hv].
  pose proof (nth_wf l v b Hw Eb) as Hwb.
  unfold full_desc, ext_of, tshift_of. cbn [x_type x_var x_dim x_pos]. rewrite Eb, En. cbn [obind].
  rewrite var_shift_comp by (assumption || lia). rewrite total_cnt by (assumption || lia). rewrite (num_dof_cnt b (t - 1)) by (assumption || lia).
  destruct (Nat.ltb_spec 0 c) as [H0|H0].
  - destruct b as [nd sy|k b|l']; cbn [ncomp] in Hc; try lia. rewrite guard_true by (apply Nat.ltb_lt; lia). cbn [obind].
    rewrite (per_comp_num (Vector k b) t k b) by (assumption || reflexivity || lia). do 2 f_equal. apply Nat.mul_comm.
  - assert (c = 0) by lia. subst c. reflexivity.
Qed.
Lemma elem_id_tpos : forall l x, elem_dof_id (ext_of l x) = tshift_of l (x_type x) + tpos l x.
Proof. intros l x. unfold elem_dof_id, ext_of, tpos. cbn [e_tshift e_vshift e_dshift e_desc]. lia. Qed.

(* the work part of getFullIndex(elem, k) inside one type *)
Lemma component_split : forall l x, wf (Complex l) -> valid_desc l x ->
  exists q b, component_elem (Complex l) (x_type x) (tpos l x) = Some (x_var x, q) /\ nth_error l (x_var x) = Some b /\
    split_dim b (x_type x) q = Some (x_dim x, x_pos x, x_dim x * per_comp b (x_type x)).
Proof.
  intros l x Hw Hx. pose proof (tpos_lt l x Hx) as Hlt. destruct x as [t v c p]. destruct Hx as (Ht & b & Eb & Hc & Hp). cbn [x_type x_var x_dim x_pos] in *.
  destruct (nth_of_error l v b Eb) as [En Hv]. pose proof (nth_wf l v b Hw Eb) as Hwb.
  assert (Etab : map (fun b => num_dof b t) l = map (fun b => cnt b t) l).
  { apply map_ext_in. intros b' Hb'. apply num_dof_cnt; [|assumption]. apply wf_complex in Hw. rewrite Forall_forall in Hw. now apply Hw. }
  unfold component_elem. rewrite total_cnt by assumption. rewrite guard_true by (apply Nat.ltb_lt; exact Hlt). rewrite Etab.
  destruct (upper_bound_prefix (map (fun b => cnt b t) l) (tpos l (Desc t v c p))) as (w & Ew & Hw1 & Hlo & Hhi); [exact Hlt|].
  rewrite map_length in Hw1. rewrite Ew. replace (S w - 1) with w by lia.
  change 0 with (cnt (Complex []) t) in Hhi. rewrite (map_nth (fun b => cnt b t)) in Hhi.
  fold (comp_shift l w t) in Hlo, Hhi.
  assert (Htp : tpos l (Desc t v c p) = comp_shift l v t + (c * per_comp b t + p)) by (unfold tpos; cbn [x_type x_var x_dim x_pos]; rewrite En; lia).
  assert (Hr : c * per_comp b t + p < cnt b t) by (rewrite cnt_split; nia).
  assert (Evw : w = v).
  { destruct (Nat.lt_trichotomy w v) as [H|[H|H]]; [|exact H|]; exfalso.
    - assert (comp_shift l (S w) t <= comp_shift l v t) by (apply list_sum_firstn_le; lia). rewrite comp_shift_S in H0 by assumption. lia.
    - assert (comp_shift l (S v) t <= comp_shift l w t) by (apply list_sum_firstn_le; lia). rewrite comp_shift_S in H0 by assumption. rewrite En in H0. lia. }
  subst w. exists (c * per_comp b t + p), b. split; [|split; [exact Eb|]].
  - do 2 f_equal. rewrite nth_prefix by (rewrite map_length; lia). fold (comp_shift l v t). lia.
  - unfold split_dim. destruct b as [nd sy|k b|l']; cbn [ncomp] in Hc.
    + assert (c = 0) by lia. subst c. reflexivity.
    + rewrite guard_true by (apply Nat.ltb_lt; lia). rewrite (per_comp_num (Vector k b) t k b) by (assumption || reflexivity || lia).
      rewrite guard_true by (apply Nat.ltb_lt; lia).
      rewrite Nat.div_add_l, (Nat.div_small p), Nat.add_0_r by lia. rewrite Nat.add_comm, Nat.mod_add, Nat.mod_small by lia. do 2 f_equal. lia.
    + assert (c = 0) by lia. subst c. reflexivity.
Qed.

Definition is_oriented (t : nat) : bool := (t =? 2) || (t =? 4).
Definition local_id (l : list dmap) (x : desc) : nat := tshift_of l (x_type x) + tpos l x.

(** getFullIndex(elem, k) on the position of a description *)
Lemma full_index_ok : forall l x, wf (Complex l) -> valid_desc l x -> (is_oriented (x_type x) = true -> tpos l x <> 0) ->
  full_index l (geom_dim (x_type x)) (local_id l x) = Some (ext_of l x).
Proof.
  intros l x Hw Hx Hor. pose proof (tpos_lt l x Hx) as Hlt. destruct (component_split l x Hw Hx) as (q & b & Ec & Eb & Es).
  assert (Ht : x_type x < 6) by apply Hx. unfold full_index.
  assert (Hjump : ((geom_dim (x_type x) =? 1) || (geom_dim (x_type x) =? 2)) && (num_dof (Complex l) (first_type (geom_dim (x_type x))) <? local_id l x) = is_oriented (x_type x)
     /\ (is_oriented (x_type x) = true -> first_type (geom_dim (x_type x)) + 1 = x_type x /\ num_dof (Complex l) (first_type (geom_dim (x_type x))) = tshift_of l (x_type x))
     /\ (is_oriented (x_type x) = false -> first_type (geom_dim (x_type x)) = x_type x /\ tshift_of l (x_type x) = 0)).
  { unfold local_id, tshift_of. destruct x as [t v c p]. cbn [x_type] in *.
    destruct t as [|[|[|[|[|[|t]]]]]]; [| | | | | |lia]; unfold geom_dim, first_type; cbn [nth Nat.eqb orb andb is_oriented Nat.sub Nat.add]; rewrite ?total_cnt by (assumption || lia).
    - split; [reflexivity|]. split; intros; [discriminate|split; reflexivity].
    - split; [apply Nat.ltb_ge; lia|]. split; intros; [discriminate|split; reflexivity].
    - split; [apply Nat.ltb_lt; specialize (Hor eq_refl); lia|]. split; intros; [split; reflexivity|discriminate].
    - split; [apply Nat.ltb_ge; lia|]. split; intros; [discriminate|split; reflexivity].
    - split; [apply Nat.ltb_lt; specialize (Hor eq_refl); lia|]. split; intros; [split; reflexivity|discriminate].
    - split; [reflexivity|]. split; intros; [discriminate|split; reflexivity]. }
  destruct Hjump as (Ej & H1 & H2). rewrite Ej.
  destruct (nth_of_error l (x_var x) b Eb) as [En Hv]. pose proof (nth_wf l (x_var x) b Hw Eb) as Hwb.
  assert (Eshift : var_shift l (x_type x) (x_var x) = comp_shift l (x_var x) (x_type x)) by (apply var_shift_comp; assumption || lia).
  destruct (is_oriented (x_type x)) eqn:Eo.
  - destruct (H1 eq_refl) as [E1 E2]. rewrite E1, E2. replace (local_id l x - tshift_of l (x_type x)) with (tpos l x) by (unfold local_id; lia).
    rewrite Ec. cbn [obind fst snd]. rewrite Eb. cbn [obind]. rewrite Es. cbn [obind]. unfold ext_of. rewrite En, Eshift.
    unfold is_oriented in Eo. unfold tshift_of. rewrite Eo. rewrite (num_dof_cnt b) by (assumption || lia).
    assert (Edesc : Desc (x_type x) (x_var x) (x_dim x) (x_pos x) = x) by now destruct x. rewrite Edesc.
    destruct (Nat.ltb_spec 0 (cnt (Complex l) (x_type x - 1))) as [H0|H0]; [reflexivity|].
    do 2 f_equal. assert (comp_shift l (S (x_var x)) (x_type x - 1) <= cnt (Complex l) (x_type x - 1)) by apply comp_shift_le.
    rewrite comp_shift_S, En in H by assumption. lia.
  - destruct (H2 eq_refl) as [E1 E2]. rewrite E1. replace (local_id l x - 0) with (tpos l x) by (unfold local_id; lia).
    rewrite Ec. cbn [obind fst snd]. rewrite Eb. cbn [obind]. cbn [Nat.ltb Nat.leb]. rewrite Es. cbn [obind]. unfold ext_of. rewrite En, Eshift.
    unfold is_oriented in Eo. rewrite Eo, E2. assert (Edesc : Desc (x_type x) (x_var x) (x_dim x) (x_pos x) = x) by now destruct x. now rewrite Edesc.
Qed.
(** and at the first oriented position it fails *)
Lemma full_index_first : forall l e, wf (Complex l) -> e = 1 \/ e = 2 -> full_index l e (num_dof (Complex l) (first_type e)) = None.
Proof.
  intros l e Hw He. unfold full_index. rewrite Nat.ltb_irrefl, Bool.andb_false_r, Nat.sub_0_r. unfold component_elem.
  rewrite guard_false by apply Nat.ltb_irrefl. reflexivity.
Qed.

(** *** Descriptions on one entity *)
Lemma i_nd_cnt : forall l d, wf (Complex l) -> i_nd l d = list_sum (map (cnt (Complex l)) (types_of_dim d)).
Proof.
  intros l d Hw. unfold i_nd, types_of_dim. destruct d as [|[|[|[|d]]]]; cbn [nth map]; rewrite ?total_cnt by (assumption || lia);
    rewrite ?list_sum_cons, ?list_sum_nil; try lia. destruct d; reflexivity.
Qed.
Lemma length_descs : forall l d, wf (Complex l) -> length (descs l d) = i_nd l d.
Proof. intros l d Hw. unfold descs. rewrite length_flat_map', i_nd_cnt by assumption. f_equal. apply map_ext. intros t. apply length_descs_type. Qed.
Lemma types_dim : forall d t, d < 4 -> In t (types_of_dim d) <-> t < 6 /\ geom_dim t = d.
Proof.
  intros d t Hd. unfold types_of_dim, geom_dim. split.
  - destruct d as [|[|[|[|d]]]]; cbn [nth In]; intros H; repeat destruct H as [<-|H]; try destruct H; split; try lia; reflexivity.
  - intros [Ht <-]. destruct t as [|[|[|[|[|[|t]]]]]]; cbn; try lia; auto.
Qed.
Lemma descs_at : forall l x, wf (Complex l) -> valid_desc l x -> nth_error (descs l (geom_dim (x_type x))) (local_id l x) = Some x.
Proof.
  intros l x Hw Hx. pose proof (tpos_lt l x Hx) as Hlt. pose proof (descs_type_at l x Hx) as E. assert (Ht : x_type x < 6) by apply Hx.
  unfold descs, local_id, tshift_of. rewrite <- length_descs_type in Hlt.
  destruct (x_type x) as [|[|[|[|[|[|t]]]]]]; [| | | | | |lia]; unfold geom_dim, types_of_dim; cbn [nth flat_map Nat.eqb orb Nat.sub Nat.add]; rewrite ?app_nil_r.
  - exact E.
  - now rewrite nth_error_app1.
  - rewrite nth_error_app2 by (rewrite length_descs_type; lia). rewrite length_descs_type. now rewrite Nat.add_comm, Nat.add_sub.
  - now rewrite nth_error_app1.
  - rewrite nth_error_app2 by (rewrite length_descs_type; lia). rewrite length_descs_type. now rewrite Nat.add_comm, Nat.add_sub.
  - exact E.
Qed.
Lemma in_descs : forall l d x, d < 4 -> In x (descs l d) <-> valid_desc l x /\ geom_dim (x_type x) = d.
Proof.
  intros l d x Hd. unfold descs. rewrite in_flat_map. split.
  - intros (t & Ht & H). apply types_dim in Ht; [|assumption]. destruct Ht as [Ht <-]. apply in_descs_type in H; [|assumption]. destruct H as [H <-]. auto.
  - intros [H E]. exists (x_type x). split; [apply types_dim; [assumption|]; split; [apply H|exact E]|]. apply in_descs_type; [apply H|]. auto.
Qed.
Lemma descs_nth : forall l d k x, wf (Complex l) -> d < 4 -> nth_error (descs l d) k = Some x -> valid_desc l x /\ geom_dim (x_type x) = d /\ local_id l x = k.
Proof.
  intros l d k x Hw Hd E. assert (Hin : In x (descs l d)) by (eapply nth_error_In; eassumption). apply in_descs in Hin; [|assumption]. destruct Hin as [Hx Hg].
  split; [exact Hx|]. split; [exact Hg|]. pose proof (descs_at l x Hw Hx) as E2. rewrite Hg in E2.
  assert (Hk : k < i_nd l d) by (rewrite <- length_descs by assumption; apply nth_error_Some; congruence).
  (* the position k belongs to some description y; compare *)
  assert (Hy : exists y, valid_desc l y /\ geom_dim (x_type y) = d /\ local_id l y = k).
  { rewrite i_nd_cnt in Hk by assumption. unfold types_of_dim in Hk. unfold local_id, tshift_of.
    destruct d as [|[|[|[|d]]]]; cbn [nth map] in Hk; rewrite ?list_sum_cons, ?list_sum_nil in Hk.
    - destruct (tpos_onto l 0 k) as (y & Y1 & Y2 & Y3); [lia|lia|]. exists y. rewrite Y2. cbn. auto.
    - destruct (Nat.lt_ge_cases k (cnt (Complex l) 1)).
      + destruct (tpos_onto l 1 k) as (y & Y1 & Y2 & Y3); [lia|lia|]. exists y. rewrite Y2. cbn [geom_dim nth Nat.eqb orb]. auto.
      + destruct (tpos_onto l 2 (k - cnt (Complex l) 1)) as (y & Y1 & Y2 & Y3); [lia|lia|]. exists y. rewrite Y2. cbn [geom_dim nth Nat.eqb orb Nat.sub]. split; [auto|]. split; [reflexivity|]. change (2 - 1) with 1 in *. lia.
    - destruct (Nat.lt_ge_cases k (cnt (Complex l) 3)).
      + destruct (tpos_onto l 3 k) as (y & Y1 & Y2 & Y3); [lia|lia|]. exists y. rewrite Y2. cbn [geom_dim nth Nat.eqb orb]. auto.
      + destruct (tpos_onto l 4 (k - cnt (Complex l) 3)) as (y & Y1 & Y2 & Y3); [lia|lia|]. exists y. rewrite Y2. cbn [geom_dim nth Nat.eqb orb Nat.sub]. split; [auto|]. split; [reflexivity|]. change (4 - 1) with 3 in *. lia.
    - destruct (tpos_onto l 5 k) as (y & Y1 & Y2 & Y3); [lia|lia|]. exists y. rewrite Y2. cbn. auto.
    - lia. }
  destruct Hy as (y & Y1 & Y2 & Y3). pose proof (descs_at l y Hw Y1) as E3. rewrite Y2, Y3, E in E3. congruence.
Qed.
