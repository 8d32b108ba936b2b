From Verif Require Import Prelude DofModel DofSpec DofProofs EnumModel EnumSpec EnumProofs.
From Coq Require Import Permutation.

Lemma Some_inj : forall {A} (a b : A), Some a = Some b -> a = b.
Proof. intros A a b H. now injection H. Qed.
(** *** Positions of a single variable *)
Definition vpos (l : list dmap) (x : desc) : nat :=
  let b := nth (x_var x) l (Complex []) in
  (if is_oriented (x_type x) then cnt b (x_type x - 1) else 0) + x_dim x * per_comp b (x_type x) + x_pos x.
Lemma single_id_vpos : forall l x, single_dof_id (ext_of l x) = vpos l x.
Proof. intros l x. unfold single_dof_id, ext_of, vpos, is_oriented. cbn [e_tvshift e_dshift e_desc]. lia. Qed.
Lemma descs_var_eq : forall l v d, descs_var l v d = flat_map (fun t => dtype l t v) (types_of_dim d).
Proof. reflexivity. Qed.
Lemma dtype_at : forall l x, valid_desc l x ->
  x_dim x * per_comp (nth (x_var x) l (Complex [])) (x_type x) + x_pos x < length (dtype l (x_type x) (x_var x)) /\
  nth_error (dtype l (x_type x) (x_var x)) (x_dim x * per_comp (nth (x_var x) l (Complex [])) (x_type x) + x_pos x) = Some x.
Proof.
  intros l [t v c p] (Ht & b & Eb & Hc & Hp). cbn [x_type x_var x_dim x_pos] in *. destruct (nth_of_error l v b Eb) as [En Hv].
  rewrite length_dtype, En, cnt_split. split; [nia|]. unfold dtype. rewrite En.
  rewrite (nth_error_flat_map_unif _ (ncomp b) (per_comp b t) c p Hc Hp) by (intros; now rewrite map_length, seq_length).
  now apply nth_error_map_seq.
Qed.
Lemma descs_var_at : forall l x, valid_desc l x -> nth_error (descs_var l (x_var x) (geom_dim (x_type x))) (vpos l x) = Some x.
Proof.
  intros l x Hx. destruct (dtype_at l x Hx) as [Hlt E]. assert (Ht : x_type x < 6) by apply Hx. rewrite descs_var_eq. unfold vpos.
  set (b := nth (x_var x) l (Complex [])) in *. set (q := x_dim x * per_comp b (x_type x) + x_pos x) in *.
  rewrite <- Nat.add_assoc. fold q.
  destruct (x_type x) as [|[|[|[|[|[|t]]]]]]; [| | | | | |lia]; unfold geom_dim, types_of_dim, is_oriented; cbn [nth flat_map Nat.eqb orb Nat.sub Nat.add]; rewrite ?app_nil_r.
  - exact E.
  - now rewrite nth_error_app1.
  - rewrite nth_error_app2 by (rewrite length_dtype; unfold b; lia). rewrite length_dtype. unfold b. now rewrite Nat.add_comm, Nat.add_sub.
  - now rewrite nth_error_app1.
  - rewrite nth_error_app2 by (rewrite length_dtype; unfold b; lia). rewrite length_dtype. unfold b. now rewrite Nat.add_comm, Nat.add_sub.
  - exact E.
Qed.
Lemma full_index_var_ok : forall l x, wf (Complex l) -> valid_desc l x -> (is_oriented (x_type x) = true -> x_dim x <> 0 \/ x_pos x <> 0) ->
  full_index_var l (geom_dim (x_type x)) (x_var x) (vpos l x) = Some (ext_of l x).
Proof.
  intros l x Hw Hx Hor. destruct (dtype_at l x Hx) as [Hlt _]. rewrite length_dtype in Hlt.
  destruct (component_split l x Hw Hx) as (q0 & b & _ & Eb & Es0). pose proof Hx as (Ht & b' & Eb' & Hc & Hp). rewrite Eb in Eb'. apply Some_inj in Eb'. subst b'.
  destruct (nth_of_error l (x_var x) b Eb) as [En Hv]. pose proof (nth_wf l (x_var x) b Hw Eb) as Hwb. rewrite En in Hlt.
  set (q := x_dim x * per_comp b (x_type x) + x_pos x) in *.
  assert (Es : split_dim b (x_type x) q = Some (x_dim x, x_pos x, x_dim x * per_comp b (x_type x))).
  { unfold q, split_dim. destruct b as [nd sy|k b|l']; cbn [ncomp] in Hc.
    - assert (x_dim x = 0) by lia. rewrite H. reflexivity.
    - rewrite guard_true by (apply Nat.ltb_lt; lia). rewrite (per_comp_num (Vector k b) (x_type x) k b) by (assumption || reflexivity || lia).
      rewrite guard_true by (apply Nat.ltb_lt; lia).
      rewrite Nat.div_add_l, (Nat.div_small (x_pos x)), Nat.add_0_r by lia. rewrite Nat.add_comm, Nat.mod_add, Nat.mod_small by lia. do 2 f_equal. lia.
    - assert (x_dim x = 0) by lia. rewrite H. reflexivity. }
  assert (Hq : is_oriented (x_type x) = true -> q <> 0).
  { intros Ho. specialize (Hor Ho). unfold q. destruct Hor; nia. }
  assert (Hvp : vpos l x = (if is_oriented (x_type x) then cnt b (x_type x - 1) else 0) + q) by (unfold vpos; rewrite En; unfold q; lia).
  unfold full_index_var. rewrite Eb. cbn [obind].
  assert (Hjump : ((geom_dim (x_type x) =? 1) || (geom_dim (x_type x) =? 2)) && (num_dof b (first_type (geom_dim (x_type x))) <? vpos l x) = is_oriented (x_type x)
     /\ (is_oriented (x_type x) = true -> first_type (geom_dim (x_type x)) + 1 = x_type x)
     /\ (is_oriented (x_type x) = false -> first_type (geom_dim (x_type x)) = x_type x)).
  { rewrite Hvp. clear Hvp Es Es0 Hor Hx. destruct (x_type x) as [|[|[|[|[|[|t]]]]]]; [| | | | | |lia]; unfold geom_dim, first_type; cbn [nth Nat.eqb orb andb is_oriented Nat.sub Nat.add]; rewrite ?num_dof_cnt by (assumption || lia).
    - split; [reflexivity|]. split; intros; [discriminate|reflexivity].
    - split; [apply Nat.ltb_ge; lia|]. split; intros; [discriminate|reflexivity].
    - split; [apply Nat.ltb_lt; specialize (Hq eq_refl); lia|]. split; intros; [reflexivity|discriminate].
    - split; [apply Nat.ltb_ge; lia|]. split; intros; [discriminate|reflexivity].
    - split; [apply Nat.ltb_lt; specialize (Hq eq_refl); lia|]. split; intros; [reflexivity|discriminate].
    - split; [reflexivity|]. split; intros; [discriminate|reflexivity]. }
  destruct Hjump as (Ej & H1 & H2). rewrite Ej, Hvp.
  assert (Eshift : var_shift l (x_type x) (x_var x) = comp_shift l (x_var x) (x_type x)) by (apply var_shift_comp; assumption || lia).
  assert (Edesc : Desc (x_type x) (x_var x) (x_dim x) (x_pos x) = x) by now destruct x.
  destruct (is_oriented (x_type x)) eqn:Eo.
  - rewrite (H1 eq_refl). assert (E1 : first_type (geom_dim (x_type x)) = x_type x - 1) by (specialize (H1 eq_refl); lia). rewrite E1.
    rewrite num_dof_cnt, total_cnt by (assumption || lia). replace (cnt b (x_type x - 1) + q - cnt b (x_type x - 1)) with q by lia.
    rewrite Es. cbn [obind]. unfold ext_of, tshift_of. unfold is_oriented in Eo. now rewrite Eo, En, Eshift, Edesc.
  - rewrite (H2 eq_refl). replace (0 + q - 0) with q by lia. rewrite Es. cbn [obind]. unfold ext_of, tshift_of. unfold is_oriented in Eo. now rewrite Eo, En, Eshift, Edesc.
Qed.

(** *** Ranks *)
Lemma init_S : forall l r d, init_index l r (S d) = init_index l r d + i_nd l d * r_num r d.
Proof. intros l r d. unfold init_index. rewrite seq_S, map_app, list_sum_app. cbn [map Nat.add]. rewrite list_sum_cons, list_sum_nil. lia. Qed.
Lemma init_0 : forall l r, init_index l r 0 = r_begind r.
Proof. intros. unfold init_index. cbn [seq map]. rewrite list_sum_nil. lia. Qed.
Lemma init_mono : forall l r a b, a <= b -> init_index l r a <= init_index l r b.
Proof. intros l r a b H. induction H as [|b H IH]; [lia|]. rewrite init_S. lia. Qed.
Lemma sum_types_dim : forall l f, sum_types (fun t => f (geom_dim t) * num_dof (Complex l) t) = i_nd l 0 * f 0 + i_nd l 1 * f 1 + i_nd l 2 * f 2 + i_nd l 3 * f 3.
Proof.
  intros l f. unfold sum_types, ngeom, i_nd, geom_dim. cbn [seq map nth]. rewrite !list_sum_cons, list_sum_nil. lia.
Qed.
Lemma init_4 : forall l total gids, init_index l (setup_rank l total gids) 4 = r_endind (setup_rank l total gids).
Proof.
  intros l total gids. rewrite !init_S, init_0. cbn [r_endind setup_rank r_begind r_num]. rewrite (sum_types_dim l (fun d => length (gids d))). lia.
Qed.
Lemma find_dim_spec : forall init id, (forall a b, a <= b -> init a <= init b) -> init 0 <= id -> id < init 4 ->
  let d := find_dim init id 3 1 - 1 in d < 4 /\ init d <= id /\ id < init (S d).
Proof.
  intros init id Hm H0 H4. unfold find_dim. cbn [Nat.ltb Nat.leb andb Nat.add].
  destruct (Nat.leb_spec (init 1) id); cbn [Nat.sub Nat.add]; [|split; [lia|split; assumption]].
  destruct (Nat.leb_spec (init 2) id); cbn [Nat.sub Nat.add]; [|split; [lia|split; assumption]].
  destruct (Nat.leb_spec (init 3) id); cbn [Nat.sub Nat.add]; [|split; [lia|split; assumption]].
  split; [lia|split; assumption].
Qed.
Lemma local_lt : forall l x, wf (Complex l) -> valid_desc l x -> local_id l x < i_nd l (geom_dim (x_type x)).
Proof. intros l x Hw Hx. rewrite <- length_descs by assumption. apply nth_error_Some. rewrite descs_at by assumption. discriminate. Qed.
Lemma local_inj : forall l x y, wf (Complex l) -> valid_desc l x -> valid_desc l y -> geom_dim (x_type x) = geom_dim (x_type y) -> local_id l x = local_id l y -> x = y.
Proof.
  intros l x y Hw Hx Hy Eg E. pose proof (descs_at l x Hw Hx) as A. pose proof (descs_at l y Hw Hy) as B. rewrite Eg, E in A. congruence.
Qed.
Lemma any_index : forall l r g x, wf (Complex l) -> valid_desc l x -> owned r (geom_dim (x_type x)) g ->
  simple_index ANITYPE l r (geom_dim (x_type x)) g x =
  Some (init_index l r (geom_dim (x_type x)) + (g - r_beg r (geom_dim (x_type x))) + local_id l x * r_num r (geom_dim (x_type x))).
Proof.
  intros l r g x Hw Hx [_ Hg]. unfold simple_index. rewrite full_desc_ok by assumption. cbn [obind]. rewrite guard_true by (apply Nat.leb_le; lia). cbn [obind].
  now rewrite elem_id_tpos.
Qed.
Lemma any_index_range : forall l r g x n, wf (Complex l) -> valid_desc l x -> owned r (geom_dim (x_type x)) g ->
  simple_index ANITYPE l r (geom_dim (x_type x)) g x = Some n ->
  init_index l r (geom_dim (x_type x)) <= n < init_index l r (S (geom_dim (x_type x))).
Proof.
  intros l r g x n Hw Hx Ho E. rewrite any_index in E by assumption. apply Some_inj in E. subst n. rewrite init_S.
  pose proof (local_lt l x Hw Hx). destruct Ho as [_ Ho]. nia.
Qed.
Lemma same_block : forall (init : nat -> nat) a b n, (forall a b, a <= b -> init a <= init b) -> init a <= n < init (S a) -> init b <= n < init (S b) -> a = b.
Proof.
  intros init a b n Hm Ha Hb. destruct (Nat.lt_trichotomy a b) as [H|[H|H]]; [|exact H|]; exfalso.
  - pose proof (Hm (S a) b H). lia.
  - pose proof (Hm (S b) a H). lia.
Qed.
Lemma any_inj : forall l r g x g' x' n, wf (Complex l) -> valid_desc l x -> valid_desc l x' -> owned r (geom_dim (x_type x)) g -> owned r (geom_dim (x_type x')) g' ->
  simple_index ANITYPE l r (geom_dim (x_type x)) g x = Some n -> simple_index ANITYPE l r (geom_dim (x_type x')) g' x' = Some n -> g = g' /\ x = x'.
Proof.
  intros l r g x g' x' n Hw Hx Hx' Ho Ho' E E'.
  assert (Ed : geom_dim (x_type x) = geom_dim (x_type x')) by (eapply (same_block (init_index l r)); [apply init_mono|eapply any_index_range; eassumption|eapply any_index_range; eassumption]).
  rewrite any_index in E, E' by assumption. apply Some_inj in E, E'. rewrite Ed in *. destruct Ho as [_ Ho], Ho' as [_ Ho'].
  set (d := geom_dim (x_type x')) in *. set (m := r_num r d) in *. set (a := g - r_beg r d). set (a' := g' - r_beg r d).
  assert (Ha : a < m) by (unfold a; lia). assert (Ha' : a' < m) by (unfold a'; lia).
  assert (Heq : a + local_id l x * m = a' + local_id l x' * m) by (unfold a, a'; lia).
  assert (El : local_id l x = local_id l x') by nia.
  split; [rewrite El in Heq; unfold a, a' in *; lia|]. now apply (local_inj l).
Qed.
Lemma any_onto : forall l r n, wf (Complex l) -> init_index l r 0 <= n < init_index l r 4 ->
  exists g x, valid_desc l x /\ owned r (geom_dim (x_type x)) g /\ simple_index ANITYPE l r (geom_dim (x_type x)) g x = Some n.
Proof.
  intros l r n Hw [H0 H4]. destruct (find_dim_spec (init_index l r) n (init_mono l r) H0 H4) as (Hd & Hlo & Hhi).
  set (d := find_dim (init_index l r) n 3 1 - 1) in *. rewrite init_S in Hhi. set (m := r_num r d) in *.
  assert (Hm : 0 < m) by nia. set (o := n - init_index l r d). assert (Ho : o < i_nd l d * m) by (unfold o; lia).
  assert (Hq : o / m < i_nd l d) by (apply Nat.div_lt_upper_bound; lia).
  destruct (nth_error (descs l d) (o / m)) as [x|] eqn:Ex.
  2: { apply nth_error_None in Ex. rewrite length_descs in Ex by assumption. lia. }
  destruct (descs_nth l d (o / m) x Hw Hd Ex) as (Hx & Hg & El). exists (r_beg r d + o mod m), x. rewrite Hg. pose proof (Nat.mod_upper_bound o m ltac:(lia)).
  assert (Hown : owned r d (r_beg r d + o mod m)) by (split; [exact Hd|fold m; lia]).
  split; [exact Hx|]. split; [exact Hown|]. pose proof (any_index l r (r_beg r d + o mod m) x Hw Hx ltac:(rewrite Hg; exact Hown)) as E. rewrite Hg in E. rewrite E, El. f_equal.
  fold m. pose proof (Nat.div_mod o m ltac:(lia)). assert (o = n - init_index l r d) by reflexivity. lia.
Qed.
Lemma any_inverse : forall l r g x n, wf (Complex l) -> valid_desc l x -> owned r (geom_dim (x_type x)) g ->
  (is_oriented (x_type x) = true -> tpos l x <> 0) ->
  simple_index ANITYPE l r (geom_dim (x_type x)) g x = Some n -> simple_inverse ANITYPE l r n = Some (geom_dim (x_type x), g, x).
Proof.
  intros l r g x n Hw Hx Ho Hor E. pose proof (any_index_range l r g x n Hw Hx Ho E) as Hr. set (d := geom_dim (x_type x)) in *.
  assert (Hd : d < 4) by apply Ho. pose proof (init_mono l r 0 d ltac:(lia)). pose proof (init_mono l r (S d) 4 ltac:(lia)).
  destruct (find_dim_spec (init_index l r) n (init_mono l r) ltac:(lia) ltac:(lia)) as (_ & Hlo & Hhi).
  assert (Ed : find_dim (init_index l r) n 3 1 - 1 = d) by (eapply (same_block (init_index l r)); [apply init_mono|split; eassumption|exact Hr]).
  unfold simple_inverse. rewrite Ed. pose proof (any_index l r g x Hw Hx Ho) as E'. fold d in E'. rewrite E in E'. apply Some_inj in E'.
  destruct Ho as [_ Ho]. pose proof (local_lt l x Hw Hx) as Hl. fold d in Hl. set (m := r_num r d) in *.
  rewrite guard_true by (apply Nat.leb_le; lia). rewrite guard_true by (apply Nat.ltb_lt; lia).
  assert (Eo : n - init_index l r d = (g - r_beg r d) + local_id l x * m) by lia. rewrite Eo.
  rewrite Nat.div_add, Nat.div_small by lia. rewrite Nat.mod_add, Nat.mod_small by lia. cbn [Nat.add obind].
  rewrite guard_true by (apply Nat.ltb_lt; lia). cbn [fst snd obind].
  rewrite guard_true by (apply Nat.ltb_lt; lia).
  unfold d. rewrite full_index_ok by assumption. cbn [obind ext_of e_desc]. fold d. do 3 f_equal. lia.
Qed.

(** *** The index tag *)
Lemma all_some_spec : forall {A} (l : list (option A)) ys, all_some l = Some ys <-> l = map Some ys.
Proof.
  induction l as [|x l IH]; intros ys; cbn [all_some].
  - split; intros H; [apply Some_inj in H; now subst|]. destruct ys; [reflexivity|discriminate].
  - split; intros H.
    + destruct x as [y|]; [|discriminate]. cbn [obind] in H. destruct (all_some l) as [zs|] eqn:E; [|discriminate]. cbn [obind] in H. apply Some_inj in H. subst ys.
      cbn [map]. f_equal. now apply IH.
    + destruct ys as [|y ys]; [discriminate|]. cbn [map] in H. injection H as -> H. apply IH in H. rewrite H. reflexivity.
Qed.
Lemma all_some_none : forall {A} (l : list (option A)), In None l -> all_some l = None.
Proof.
  intros A l H. destruct (all_some l) as [ys|] eqn:E; [|reflexivity]. apply all_some_spec in E. subst l. apply in_map_iff in H. destruct H as (y & H & _). discriminate.
Qed.
Definition no_oriented (l : list dmap) : Prop := cnt (Complex l) 2 = 0 /\ cnt (Complex l) 4 = 0.
Lemma no_oriented_desc : forall l x, no_oriented l -> valid_desc l x -> is_oriented (x_type x) = false.
Proof.
  intros l x [H2 H4] Hx. pose proof (tpos_lt l x Hx) as H. unfold is_oriented. destruct (Nat.eqb_spec (x_type x) 2) as [E|_]; [rewrite E in H; lia|].
  destruct (Nat.eqb_spec (x_type x) 4) as [E|_]; [rewrite E in H; lia|reflexivity].
Qed.
Lemma full_index_desc : forall l d k x, wf (Complex l) -> d < 4 -> nth_error (descs l d) k = Some x -> (is_oriented (x_type x) = true -> tpos l x <> 0) ->
  full_index l d k = Some (ext_of l x).
Proof.
  intros l d k x Hw Hd E Hor. destruct (descs_nth l d k x Hw Hd E) as (Hx & Hg & El). subst k d. now apply full_index_ok.
Qed.
Lemma tag_row_ok : forall l r d g, wf (Complex l) -> no_oriented l -> owned r d g ->
  exists row, tag_row ANITYPE l r d g = Some row /\ length row = i_nd l d /\
    forall x, valid_desc l x -> geom_dim (x_type x) = d -> rd row (local_id l x) = simple_index ANITYPE l r d g x.
Proof.
  intros l r d g Hw Hno Ho. pose proof Ho as [Hd _].
  set (val := fun k => match nth_error (descs l d) k with Some x => match simple_index ANITYPE l r d g x with Some n => n | None => 0 end | None => 0 end).
  exists (map val (seq 0 (i_nd l d))).
  assert (Hk : forall k, k < i_nd l d -> exists x, nth_error (descs l d) k = Some x).
  { intros k H. destruct (nth_error (descs l d) k) as [x|] eqn:E; [eauto|]. apply nth_error_None in E. rewrite length_descs in E by assumption. lia. }
  split; [|split].
  - unfold tag_row. apply all_some_spec. rewrite map_map. apply map_ext_in. intros k H. apply in_seq in H. destruct (Hk k ltac:(lia)) as [x Ex].
    destruct (descs_nth l d k x Hw Hd Ex) as (Hx & Hg & El).
    rewrite (full_index_desc l d k x) by (try assumption; intros Hor; rewrite (no_oriented_desc l x) in Hor by assumption; discriminate).
    cbn [obind ext_of e_desc]. unfold val. rewrite Ex. subst d. rewrite any_index by assumption. reflexivity.
  - now rewrite map_length, seq_length.
  - intros x Hx Hg. subst d. unfold rd. rewrite nth_error_map_seq by (now apply local_lt). unfold val. rewrite descs_at by assumption.
    rewrite any_index by assumption. reflexivity.
Qed.
Lemma tag_row_fail : forall m l r d g, wf (Complex l) -> (d = 1 /\ 0 < cnt (Complex l) 2 \/ d = 2 /\ 0 < cnt (Complex l) 4) -> tag_row m l r d g = None.
Proof.
  intros m l r d g Hw H. unfold tag_row. apply all_some_none. apply in_map_iff. exists (num_dof (Complex l) (first_type d)). split.
  - rewrite full_index_first; [reflexivity|assumption|]. destruct H as [[-> _]|[-> _]]; auto.
  - apply in_seq. destruct H as [[-> H]|[-> H]]; cbn [first_type nth i_nd]; rewrite <- total_cnt in H by (assumption || lia); lia.
Qed.

(** *** Owned identifiers *)
Lemma beg_fold : forall gids m, fold_left (fun (m : option nat) g => match m with None => Some g | Some b => if g <? b then Some g else Some b end) gids (Some m)
   = Some (fold_left Nat.min gids m).
Proof.
  induction gids as [|g gids IH]; intros m; [reflexivity|]. cbn [fold_left]. destruct (Nat.ltb_spec g m); rewrite IH; do 2 f_equal; lia.
Qed.
Lemma fold_min : forall gids m, In (fold_left Nat.min gids m) (m :: gids) /\ forall g, In g (m :: gids) -> fold_left Nat.min gids m <= g.
Proof.
  induction gids as [|a gids IH]; intros m.
  - cbn [fold_left]. split; [now left|]. intros g [<-|[]]. lia.
  - cbn [fold_left]. destruct (IH (Nat.min m a)) as [Hin Hle]. split.
    + destruct Hin as [H|H]; [|right; now right]. destruct (Nat.min_spec m a) as [[_ E]|[_ E]]; rewrite E in H; [left|right; left]; congruence.
    + intros g Hg. pose proof (Hle (Nat.min m a) (or_introl eq_refl)). destruct Hg as [<-|[<-|Hg]]; [lia|lia|]. apply Hle. now right.
Qed.
Lemma beg_elem_spec : forall total s n gids, Permutation gids (seq s n) -> beg_elem total gids = if n =? 0 then total else s.
Proof.
  intros total s n gids HP. unfold beg_elem. destruct n as [|n].
  - apply Permutation_sym, Permutation_nil in HP. subst. reflexivity.
  - destruct gids as [|g gids]; [apply Permutation_nil in HP; discriminate|]. cbn [fold_left]. rewrite beg_fold. destruct (fold_min gids g) as [Hin Hle].
    cbn [Nat.eqb]. assert (In s (g :: gids)) by (eapply Permutation_in; [apply Permutation_sym; exact HP|]; now left).
    apply Hle in H. eapply Permutation_in in Hin; [|exact HP]. apply in_seq in Hin. lia.
Qed.
Lemma off_S : forall c p, off c (S p) = off c p + nth p c 0.
Proof.
  intros c p. unfold off. revert p. induction c as [|a c IH]; intros p; [destruct p; reflexivity|]. destruct p as [|p].
  - cbn [firstn nth]. rewrite list_sum_cons, list_sum_nil. lia.
  - cbn [nth]. rewrite (firstn_cons (S p)), (firstn_cons p), !list_sum_cons, IH. lia.
Qed.

Lemma off_total : forall c, off c (length c) = list_sum c.
Proof. intros c. unfold off. now rewrite firstn_all. Qed.
Lemma off_le : forall c p, off c p <= list_sum c.
Proof. intros c p. unfold off. rewrite <- (firstn_skipn p c) at 2. rewrite list_sum_app. lia. Qed.
Lemma list_sum_zero : forall c, (forall i, nth i c 0 = 0) -> list_sum c = 0.
Proof. induction c as [|a c IH]; intros H; [reflexivity|]. rewrite list_sum_cons, IH; [|intros i; apply (H (S i))]. pose proof (H 0) as H0. cbn [nth] in H0. lia. Qed.
Lemma nth_skipn : forall {A} (l : list A) p i d, nth i (skipn p l) d = nth (p + i) l d.
Proof. induction l as [|a l IH]; intros p i d; [destruct p, i; reflexivity|]. destruct p as [|p]; [reflexivity|]. cbn [skipn Nat.add nth]. apply IH. Qed.
Lemma off_rest_zero : forall c p, (forall q, p <= q -> nth q c 0 = 0) -> off c p = list_sum c.
Proof.
  intros c p H. unfold off. rewrite <- (firstn_skipn p c) at 2. rewrite list_sum_app, (list_sum_zero (skipn p c)); [lia|].
  intros i. rewrite nth_skipn. apply H. lia.
Qed.

Section Ranks.
  Variables (l : list dmap) (counts : nat -> list nat) (gids : nat -> nat -> list nat).
  Hypothesis Hcontig : forall p d, d < 4 -> Permutation (gids p d) (seq (off (counts d) p) (nth p (counts d) 0)).
  Let total d := list_sum (counts d).
  Let rk p := setup_rank l total (gids p).
  Lemma rk_num : forall p d, d < 4 -> r_num (rk p) d = nth p (counts d) 0.
  Proof. intros p d Hd. cbn [rk setup_rank r_num]. rewrite (Permutation_length (Hcontig p d Hd)). apply seq_length. Qed.
  Lemma rk_beg : forall p d, d < 4 -> r_beg (rk p) d = if nth p (counts d) 0 =? 0 then list_sum (counts d) else off (counts d) p.
  Proof. intros p d Hd. cbn [rk setup_rank r_beg]. apply beg_elem_spec. now apply Hcontig. Qed.
  Lemma rk_begind : forall p, r_begind (rk p) = i_nd l 0 * r_beg (rk p) 0 + i_nd l 1 * r_beg (rk p) 1 + i_nd l 2 * r_beg (rk p) 2 + i_nd l 3 * r_beg (rk p) 3.
  Proof. intros p. cbn [rk setup_rank r_begind r_beg]. apply (sum_types_dim l (fun d => beg_elem (total d) (gids p d))). Qed.
  Lemma rk_endind : forall p, r_endind (rk p) = r_begind (rk p) + (i_nd l 0 * r_num (rk p) 0 + i_nd l 1 * r_num (rk p) 1 + i_nd l 2 * r_num (rk p) 2 + i_nd l 3 * r_num (rk p) 3).
  Proof. intros p. cbn [rk setup_rank r_begind r_endind r_num]. f_equal. apply (sum_types_dim l (fun d => length (gids p d))). Qed.
  Lemma rk_matr : forall p, r_matr (rk p) = i_nd l 0 * total 0 + i_nd l 1 * total 1 + i_nd l 2 * total 2 + i_nd l 3 * total 3.
  Proof. intros p. cbn [rk setup_rank r_matr]. apply (sum_types_dim l total). Qed.
  Hypothesis Hrun : forall d p q, d < 4 -> 0 < i_nd l d -> p <= q -> nth p (counts d) 0 = 0 -> nth q (counts d) 0 = 0.
  Lemma rk_beg_off : forall p d, d < 4 -> i_nd l d * r_beg (rk p) d = i_nd l d * off (counts d) p.
  Proof.
    intros p d Hd. rewrite rk_beg by assumption. destruct (Nat.eqb_spec (nth p (counts d) 0) 0) as [E|E]; [|reflexivity].
    destruct (Nat.eq_dec (i_nd l d) 0) as [E0|E0]; [now rewrite E0|]. rewrite (off_rest_zero (counts d) p); [reflexivity|].
    intros q Hq. apply (Hrun d p q); assumption || lia.
  Qed.
  Lemma rk_begind_off : forall p, r_begind (rk p) = i_nd l 0 * off (counts 0) p + i_nd l 1 * off (counts 1) p + i_nd l 2 * off (counts 2) p + i_nd l 3 * off (counts 3) p.
  Proof. intros p. rewrite rk_begind, !rk_beg_off by lia. reflexivity. Qed.
  Lemma rk_next : forall p, r_endind (rk p) = r_begind (rk (S p)).
  Proof. intros p. rewrite rk_endind, !rk_begind_off, !rk_num, !off_S by lia. lia. Qed.
  Lemma rk_first : r_begind (rk 0) = 0.
  Proof. rewrite rk_begind_off. unfold off. cbn [firstn]. rewrite !list_sum_nil. lia. Qed.
  Lemma rk_last : forall P p, (forall d, d < 4 -> length (counts d) = P) -> r_begind (rk P) = r_matr (rk p).
  Proof. intros P p HP. rewrite rk_begind_off, rk_matr. unfold total. rewrite <- !off_total, !HP by lia. reflexivity. Qed.
End Ranks.
