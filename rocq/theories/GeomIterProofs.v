(** Iteration in geometric order over repetitions and compositions. *)
From Coq Require Import NArith FinFun.
From Verif Require Import Prelude DofModel DofSpec DofProofs DofProofs2 SparsityModel SparsitySpec SparsityProofs IterProofs IterProofs2 GeomIterSpec.

(** *** Positions of a sparsity *)
Definition pos (s : sparsity) : list (nat * nat) := filter (tstp s) all_entities.
Definition before (d k : nat) (p : nat * nat) : bool := (fst p <? d) || ((fst p =? d) && (snd p <? k)).
Definition trim (d k : nat) (s : sparsity) : sparsity := unset_ents d k (unset_below d s).
Lemma tst_unset_dim : forall i s a b, i < 4 -> entity a b -> tst (unset_dim i s) a b = tst s a b && negb (a =? i).
Proof.
  intros i s a b Hi [Ha _]. unfold tst, unset_dim.
  do 4 (destruct i as [|i]; [do 4 (destruct a as [|a]; [cbn; rewrite ?N.bits_0, ?andb_true_r, ?andb_false_r; reflexivity|]); lia|]). lia.
Qed.
Lemma tst_unset_below : forall d s a b, d <= 4 -> entity a b -> tst (unset_below d s) a b = tst s a b && negb (a <? d).
Proof.
  induction d as [|d IH]; intros s a b Hd He; cbn [unset_below]; [now rewrite andb_true_r|].
  rewrite tst_unset_dim by (assumption || lia). rewrite IH by (assumption || lia).
  rewrite <- andb_assoc. f_equal. destruct (a <? d) eqn:E1, (a =? d) eqn:E2, (a <? S d) eqn:E3; try reflexivity; exfalso;
  rewrite ?Nat.ltb_lt, ?Nat.ltb_ge, ?Nat.eqb_eq, ?Nat.eqb_neq in *; lia.
Qed.
Lemma tst_unset_ents : forall d k s a b, d < 4 -> k <= ent_count d -> entity a b ->
  tst (unset_ents d k s) a b = tst s a b && negb ((a =? d) && (b <? k)).
Proof.
  induction k as [|k IH]; intros s a b Hd Hk He; cbn [unset_ents]; [cbn [Nat.ltb Nat.leb]; now rewrite andb_false_r, andb_true_r|].
  destruct (tst_unset d k false (unset_ents d k s) a b) as (s' & -> & ->); [split; [assumption|lia]|assumption|].
  rewrite IH by (assumption || lia). rewrite <- andb_assoc. f_equal.
  destruct (a =? d); cbn [andb negb]; [|reflexivity].
  destruct (b <? k) eqn:E1, (b =? k) eqn:E2, (b <? S k) eqn:E3; try reflexivity; exfalso;
  rewrite ?Nat.ltb_lt, ?Nat.ltb_ge, ?Nat.eqb_eq, ?Nat.eqb_neq in *; lia.
Qed.
Lemma filter_andb : forall {A} (f g : A -> bool) l, filter (fun x => f x && g x) l = filter f (filter g l).
Proof. induction l as [|x l IH]; cbn; [reflexivity|]. destruct (g x); cbn; destruct (f x); cbn; now rewrite IH. Qed.
Lemma filter_ext_in' : forall {A} (f g : A -> bool) l, (forall x, In x l -> f x = g x) -> filter f l = filter g l.
Proof. induction l as [|x l IH]; intros H; cbn; [reflexivity|]. rewrite (H x) by now left. rewrite IH; [reflexivity|]. intros y Hy. apply H. now right. Qed.
Lemma pos_trim : forall s l1 d k l2, all_entities = l1 ++ (d, k) :: l2 -> pos (trim d k s) = filter (tstp s) ((d, k) :: l2).
Proof.
  intros s l1 d k l2 E.
  assert (He : entity d k) by (apply in_all_entities; rewrite E, in_app_iff; cbn; auto).
  transitivity (filter (fun p => tstp s p && negb (before d k p)) all_entities).
  - unfold pos. apply filter_ext_in'. intros [a b] Hab. apply in_all_entities in Hab. unfold tstp, before, trim. cbn [fst snd].
    destruct He as [H1 H2]. rewrite tst_unset_ents by (assumption || lia). rewrite tst_unset_below by (assumption || lia).
    rewrite <- andb_assoc. f_equal. now rewrite negb_orb.
  - rewrite filter_andb. f_equal.
    assert (G : exists n, n < 15 /\ firstn n all_entities = l1 /\ skipn n all_entities = (d, k) :: l2).
    { exists (length l1). rewrite E, firstn_app, skipn_app, Nat.sub_diag, firstn_all, skipn_all. cbn. rewrite app_nil_r.
      split; [|auto]. apply (f_equal (@length _)) in E. rewrite app_length in E. change (length all_entities) with 15 in E. cbn in E. lia. }
    destruct G as (n & Hn & _ & G). clear E He. do 15 (destruct n as [|n]; [cbn in G; injection G as <- <- <-; reflexivity|]). lia.
Qed.
Lemma range_trim : forall d k s, d < 4 -> k <= ent_count d -> in_range s -> in_range (trim d k s).
Proof.
  intros d k s Hd Hk Hr. unfold trim.
  assert (R : forall m, m <= 4 -> in_range (unset_below m s)).
  { induction m as [|m IH]; intros Hm; cbn [unset_below]; [assumption|]. apply (run_op_range (OUnsetDim m) (unset_below m s)); cbn; auto; try lia. apply IH. lia. }
  induction k as [|k IH]; cbn [unset_ents]; [apply R; lia|].
  destruct (unset_ent d k false (unset_ents d k (unset_below d s))) as [r|] eqn:E; [|apply IH; lia].
  apply (run_op_range (OUnset d k false) (unset_ents d k (unset_below d s))); cbn; auto; [split; [assumption|lia]|apply IH; lia].
Qed.
(** After the entity (q, e): the remaining positions. *)
Lemma next_rest : forall s q e P1 P2, pos s = P1 ++ (q, e) :: P2 ->
  match next_pos s (q, e) with
  | None => P2 = []
  | Some (d, k) => entity d k /\ pos (trim d k s) = P2
  end.
Proof.
  intros s q e P1 P2 E. unfold pos in E. apply filter_split in E. destruct E as (l1 & l2 & E & -> & _).
  rewrite (next_pos_find s l1 (q, e) l2 E).
  destruct (find (tstp s) l2) as [[d k]|] eqn:F.
  - assert (Hx : exists m1 m2, l2 = m1 ++ (d, k) :: m2 /\ filter (tstp s) l2 = filter (tstp s) ((d, k) :: m2)).
    { clear -F. induction l2 as [|y l2 IH]; [discriminate|]. cbn in F. destruct (tstp s y) eqn:Ey.
      - injection F as ->. exists [], l2. auto.
      - destruct (IH F) as (m1 & m2 & -> & G). exists (y :: m1), m2. split; [reflexivity|]. cbn [app]. rewrite <- G. cbn. now rewrite Ey. }
    destruct Hx as (m1 & m2 & -> & ->). split.
    + apply in_all_entities. rewrite E, in_app_iff. right. right. apply in_app_iff. right. now left.
    + apply (pos_trim s (l1 ++ (q, e) :: m1)). rewrite E, <- app_assoc. reflexivity.
  - clear -F. induction l2 as [|y l2 IH]; [reflexivity|]. cbn in *. destruct (tstp s y); [discriminate|auto].
Qed.
(** The single entity. *)
Lemma single : forall q e, entity q e -> exists ss, set_ent q e false sp_empty_set = Some ss /\ in_range ss /\ pos ss = [(q, e)].
Proof.
  intros q e [Hq He].
  do 4 (destruct q as [|q]; [cbn in He; do 6 (destruct e as [|e]; [first [lia|eexists; split; [reflexivity|]; split; [repeat split; reflexivity|reflexivity]]|]); lia|]). lia.
Qed.

(** *** Blocks of dofs by entity *)
Definition types_of (q : nat) : list nat := match q with 0 => [0] | 1 => [1; 2] | 2 => [3; 4] | 3 => [5] | _ => [] end.
Fixpoint eb (d : dmap) (q e : nat) : list LocalOrder :=
  match d with
  | Unite nd sy => flat_map (fun t => map (mk nd sy t e) (seq 0 (nth t nd 0))) (types_of q)
  | Vector k b => vec_list k b (eb b q e)
  | Complex l => cplx_from l (fun v => nth v (map (fun b => eb b q e) l) []) 0 (length l)
  end.
Definition EB (d : dmap) (P : list (nat * nat)) : list LocalOrder := flat_map (fun p => eb d (fst p) (snd p)) P.
Lemma safe_all : forall l, geom_safe (Complex l) -> Forall geom_safe l.
Proof. intros l [H _]. induction l as [|b l IH]; [constructor|]. destruct H as [H1 H2]. constructor; auto. Qed.
Lemma nth_eb : forall l q e v b, nth_error l v = Some b -> nth v (map (fun b => eb b q e) l) [] = eb b q e.
Proof. intros l q e v b E. apply nth_error_nth. now rewrite nth_error_map, E. Qed.
Lemma cplx_ext : forall l Ls Ls' m v, (forall w, v <= w < v + m -> Ls w = Ls' w) -> cplx_from l Ls v m = cplx_from l Ls' v m.
Proof.
  unfold cplx_from. induction m as [|m IH]; intros v H; cbn [seq map concat]; [reflexivity|].
  rewrite (H v) by lia. f_equal. apply IH. intros w Hw. apply H. lia.
Qed.

(** Leaves. *)
Lemma all_blocks_ent : all_blocks = flat_map (fun p => map (fun t => (t, snd p)) (types_of (fst p))) all_entities.
Proof. reflexivity. Qed.
Lemma flat_map_flat_map' : forall {A B C} (f : A -> list B) (g : B -> list C) l, flat_map g (flat_map f l) = flat_map (fun x => flat_map g (f x)) l.
Proof. induction l as [|x l IH]; cbn; [reflexivity|]. now rewrite flat_map_app, IH. Qed.
Lemma flat_map_filter : forall {A B} (f : A -> bool) (g : A -> list B) l, flat_map g (filter f l) = flat_map (fun x => if f x then g x else []) l.
Proof. induction l as [|x l IH]; cbn; [reflexivity|]. destruct (f x); cbn; now rewrite IH. Qed.
Lemma leaf_EB : forall nd sy s, leaf_list nd sy s = EB (Unite nd sy) (pos s).
Proof.
  intros nd sy s. unfold leaf_list, EB, pos. rewrite <- flat_map_concat_map, !flat_map_filter, all_blocks_ent, flat_map_flat_map'.
  apply flat_map_ext_in. intros [q e] Hin. apply in_all_entities in Hin. destruct Hin as [Hq _]. cbn [fst snd eb].
  unfold tstp. cbn [fst snd]. unfold blk, block_list. cbn [fst snd].
  assert (N : forall t, (if tst s (geom_dim t) e && (0 <? nth t nd 0) then map (mk nd sy t e) (seq 0 (nth t nd 0)) else []) =
                        (if tst s (geom_dim t) e then map (mk nd sy t e) (seq 0 (nth t nd 0)) else [])).
  { intros t. destruct (tst s (geom_dim t) e); cbn [andb]; [|reflexivity]. destruct (nth t nd 0); reflexivity. }
  destruct q as [|[|[|[|q]]]]; [..|lia]; cbn [types_of map flat_map fst snd]; rewrite !N;
  change (geom_dim 0) with 0; change (geom_dim 1) with 1; change (geom_dim 2) with 1; change (geom_dim 3) with 2; change (geom_dim 4) with 2; change (geom_dim 5) with 3;
  destruct (tst s _ e); reflexivity.
Qed.

(** *** Exactness *)
Lemma gent : forall t e, t < 6 -> e < tet_elems t -> entity (geom_dim t) e.
Proof. intros t e Ht He. split; do 6 (destruct t as [|t]; [cbn in *; lia|]); lia. Qed.
Lemma exact_eb : forall d q e ss, wf d -> entity q e -> pos ss = [(q, e)] -> exact_visit d ss (eb d q e).
Proof.
  intros d q e ss Hwf He Hs. induction d as [nd sy|k b IH|l IH] using dmap_ind'.
  - pose proof (leaf_exact nd sy Hwf ss) as G. rewrite leaf_EB in G. unfold EB in G. rewrite Hs in G. cbn [flat_map fst snd] in G.
    now rewrite app_nil_r in G.
  - apply vec_exact; [exact Hwf|]. now apply IH.
  - cbn [eb]. apply cplx_exact; [exact Hwf|]. intros v b E. rewrite (nth_eb l q e v b E).
    rewrite Forall_forall in IH. pose proof (nth_error_In _ _ E) as Hin. apply IH; [assumption|]. apply wf_complex in Hwf. rewrite Forall_forall in Hwf. auto.
Qed.
Lemma in_eb : forall d q e lo, wf d -> entity q e -> (In lo (eb d q e) <-> local_order d (lo_gid lo) = Some lo /\ geom_dim (lo_type lo) = q /\ lo_elem lo = e).
Proof.
  intros d q e lo Hwf He. destruct (single q e He) as (ss & _ & _ & Hs). destruct (exact_eb d q e ss Hwf He Hs) as [_ H].
  rewrite H. unfold sel_dof, on_sel. split.
  - intros [E Hx]. split; [assumption|]. destruct (local_order_valid d _ lo Hwf E) as (_ & _ & H1 & H2 & _).
    pose proof (gent _ _ H1 H2) as Hg. apply sel_tst in Hx; [|assumption].
    assert (I : In (geom_dim (lo_type lo), lo_elem lo) (pos ss)) by (unfold pos; apply filter_In; split; [now apply in_all_entities|exact Hx]).
    rewrite Hs in I. destruct I as [I|[]]. split; congruence.
  - intros (E & H1 & H2). split; [assumption|]. rewrite H1, H2. apply sel_tst; [assumption|].
    assert (I : In (q, e) (pos ss)) by (rewrite Hs; now left). apply filter_In in I. apply I.
Qed.
Lemma exact_EB : forall d s, wf d -> exact_visit d s (EB d (pos s)).
Proof.
  intros d s Hwf. split.
  - unfold EB. apply NoDup_flat_map.
    + apply NoDup_filter. unfold all_entities. cbn. repeat (constructor; [cbn; intros H; repeat (destruct H as [H|H]; [discriminate|]); destruct H|]). constructor.
    + intros [q e] Hin. apply filter_In in Hin. destruct Hin as [Hin _]. apply in_all_entities in Hin.
      destruct (single q e Hin) as (ss & _ & _ & Hs). apply (exact_eb d q e ss Hwf Hin Hs).
    + intros [q e] [q' e'] lo H1 H2 H3 H4. apply filter_In in H1, H2. destruct H1 as [H1 _], H2 as [H2 _]. apply in_all_entities in H1, H2.
      cbn [fst snd] in *. apply in_eb in H3, H4; try assumption. destruct H3 as (_ & <- & <-), H4 as (_ & <- & <-). reflexivity.
  - intros lo. unfold EB. rewrite in_flat_map. split.
    + intros ([q e] & Hin & Hl). apply filter_In in Hin. destruct Hin as [Hin Ht]. apply in_all_entities in Hin. cbn [fst snd] in *.
      apply in_eb in Hl; try assumption. destruct Hl as (E & <- & <-). split; [assumption|]. now apply sel_tst.
    + intros [E Hs]. destruct (local_order_valid d _ lo Hwf E) as (_ & _ & H1 & H2 & _). pose proof (gent _ _ H1 H2) as Hg.
      exists (geom_dim (lo_type lo), lo_elem lo). split.
      * apply filter_In. split; [now apply in_all_entities|]. now apply sel_tst.
      * apply in_eb; auto.
Qed.
(** The number of dofs of a dimension and the block. *)
Lemma type_dim : forall t q, t < 6 -> geom_dim t = q -> In t (types_of q).
Proof. intros t q Ht <-. do 6 (destruct t as [|t]; [cbn; auto|]). lia. Qed.
Lemma compact_pos : forall d q, 0 < ndofs_compact d q <-> exists t, In t (types_of (Nat.min q 3)) /\ 0 < num_dof d t.
Proof.
  intros d q. destruct q as [|[|[|q]]]; [..|replace (Nat.min (S (S (S q))) 3) with 3 by lia]; cbn [ndofs_compact types_of Nat.min In].
  - split; [eauto|]. intros (t & [<-|[]] & H). exact H.
  - split; [intros H|intros (t & [<-|[<-|[]]] & H); lia]. destruct (num_dof d 1) eqn:E; [exists 2|exists 1]; split; auto; lia.
  - split; [intros H|intros (t & [<-|[<-|[]]] & H); lia]. destruct (num_dof d 3) eqn:E; [exists 4|exists 3]; split; auto; lia.
  - split; [eauto|]. intros (t & [<-|[]] & H). exact H.
Qed.
Lemma eb_nil : forall d q e, wf d -> entity q e -> ndofs_compact d q = 0 -> eb d q e = [].
Proof.
  intros d q e Hwf He Hn. destruct (eb d q e) as [|lo r] eqn:E; [reflexivity|exfalso].
  assert (I : In lo (eb d q e)) by (rewrite E; now left). apply in_eb in I; try assumption. destruct I as (E1 & E2 & _).
  destruct (local_order_valid d _ lo Hwf E1) as (_ & _ & H1 & _ & H3).
  assert (0 < ndofs_compact d q); [|lia]. apply compact_pos. exists (lo_type lo). replace (Nat.min q 3) with q by (destruct He; lia).
  split; [now apply type_dim|lia].
Qed.

(** *** The first dof of a block *)
Lemma tet_id_zero : forall d, wf d -> forall t e, t < 6 -> e < tet_elems t -> 0 < cnt d t ->
  exists i s, tet_dof_id true d t e 0 = Some (i, s) /\ nth_error (layout d) i = Some (Dof t e 0 s).
Proof.
  induction d as [nd sy|k b IH|l IH] using dmap_ind'; intros Hwf t e Ht He Hp.
  - apply tet_dof_id_layout; auto. exact I.
  - cbn [tet_dof_id]. rewrite chk_locus_ok by auto. cbn [cnt] in Hp.
    rewrite num_dof_tet_t_cnt by assumption. rewrite guard_true by (apply Nat.ltb_lt; nia).
    rewrite Nat.mod_0_l, Nat.div_0_l by nia. destruct (IH Hwf t e Ht He ltac:(nia)) as (i & s & -> & Hn). cbn [obind fst snd].
    do 2 eexists. split; [reflexivity|]. cbn [Nat.mul Nat.add]. replace i with (0 * length (layout b) + i) by lia.
    rewrite nth_error_vector; [|nia|now apply nth_error_Some; rewrite Hn].
    unfold shift_pos. rewrite nth_error_map, Hn. reflexivity.
  - cbn [tet_dof_id]. rewrite chk_locus_ok by auto.
    assert (Hwf' := Hwf). apply wf_complex in Hwf'. rewrite Forall_forall in *.
    assert (Hmap : map (fun b => num_dof b t) l = map (fun b => cnt b t) l) by (apply map_ext_in; intros; apply num_dof_cnt; auto).
    rewrite Hmap. cbn [cnt] in Hp.
    destruct (upper_bound_prefix _ _ Hp) as (v & E & Hvl & H1 & H2). rewrite E.
    replace (S v - 1) with v by lia. rewrite nth_prefix by lia. rewrite map_length in Hvl.
    change 0 with (cnt (Complex []) t) in H2. rewrite (map_nth (fun b => cnt b t) l (Complex []) v) in H2.
    set (b := nth v l (Complex [])) in *. assert (Hb : In b l) by (apply nth_In; assumption).
    cbn zeta. rewrite nth_error_map, (nth_error_nth' l (Complex [])) by assumption. fold b. cbn [option_map obind].
    fold (comp_shift l v t) in *. cbn [Nat.sub].
    destruct (IH b Hb (Hwf' b Hb) t e Ht He) as (i & s & E' & Hn); [change (cnt (Complex []) t) with 0 in H2; lia|].
    rewrite E'. cbn [obind fst snd]. do 2 eexists. split; [reflexivity|].
    rewrite nth_error_complex; [|assumption|assumption|fold b; apply nth_error_Some; congruence].
    unfold comp_block. fold b. unfold shift_pos. rewrite nth_error_map, Hn. cbn [option_map d_type d_elem d_pos d_sym].
    do 2 f_equal. lia.
Qed.
Lemma tet_id_first : forall d lo, wf d -> local_order d (lo_gid lo) = Some lo -> lo_leid lo = 0 ->
  tet_dof_id true d (lo_type lo) (lo_elem lo) 0 = Some (lo_gid lo, lo_sym lo).
Proof.
  intros d lo Hwf E H0. destruct (local_order_valid d _ lo Hwf E) as (_ & H1 & H2 & H3 & H4).
  rewrite num_dof_cnt in H4 by assumption. destruct (tet_id_zero d Hwf _ _ H2 H3 ltac:(lia)) as (i & s & Ei & En).
  rewrite local_order_layout in E by assumption. destruct (nth_error (layout d) (lo_gid lo)) as [x|] eqn:Ex; [|discriminate].
  apply some_inj in E. assert (Hi : i = lo_gid lo).
  { apply (proj1 (NoDup_nth_error (loci d)) (NoDup_loci d)).
    - unfold loci. rewrite map_length. apply nth_error_Some. congruence.
    - unfold loci. rewrite !nth_error_map, En, Ex. cbn [option_map]. f_equal. rewrite <- E at 1 2.
      unfold locus, lo_of. cbn [d_type d_elem d_pos lo_type lo_elem]. rewrite <- E in H0. cbn in H0. now rewrite H0. }
  rewrite Ei, Hi. subst i. rewrite Ex in En. injection En as ->. f_equal. f_equal. now rewrite <- E.
Qed.
(** The first non-empty component. *)
Lemma first_ne : forall l Ls m v,
  ((forall w, v <= w < v + m -> Ls w = []) /\ cplx_from l Ls v m = []) \/
  (exists w, v <= w < v + m /\ Ls w <> [] /\ (forall u, v <= u < w -> Ls u = []) /\
     hd_error (cplx_from l Ls v m) = option_map (cshift l w) (hd_error (Ls w))).
Proof.
  induction m as [|m IH]; intros v.
  - left. split; [intros w Hw; lia|reflexivity].
  - unfold cplx_from. cbn [seq map concat]. fold (cplx_from l Ls (S v) m). destruct (Ls v) as [|x L] eqn:E.
    + cbn [map app]. destruct (IH (S v)) as [[H1 H2]|(w & H1 & H2 & H3 & H4)].
      * left. split; [|assumption]. intros w Hw. destruct (Nat.eq_dec w v) as [->|]; [assumption|]. apply H1. lia.
      * right. exists w. split; [lia|]. split; [assumption|]. split; [|assumption]. intros u Hu.
        destruct (Nat.eq_dec u v) as [->|]; [assumption|]. apply H3. lia.
    + right. exists v. split; [lia|]. rewrite E. split; [discriminate|]. split; [intros u Hu; lia|]. reflexivity.
Qed.
Lemma eb_ne : forall d q e, wf d -> entity q e -> eb d q e <> [] -> exists t, In t (types_of q) /\ 0 < num_dof d t.
Proof.
  intros d q e Hwf He Hn. destruct (eb d q e) as [|lo r] eqn:E; [now elim Hn|].
  assert (I : In lo (eb d q e)) by (rewrite E; now left). apply in_eb in I; try assumption. destruct I as (E1 & E2 & _).
  destruct (local_order_valid d _ lo Hwf E1) as (_ & _ & H1 & _ & H3). exists (lo_type lo). split; [now apply type_dim|lia].
Qed.
Lemma cnt_le : forall l v b t, nth_error l v = Some b -> cnt b t <= cnt (Complex l) t.
Proof.
  intros l v b t E. cbn [cnt]. apply nth_error_In in E. induction l as [|x l IH]; [destruct E|].
  cbn [map]. rewrite list_sum_cons. destruct E as [->|E]; [lia|]. specialize (IH E). lia.
Qed.
(** In a safe composition the used type of a dimension is the same for all. *)
Lemma one_type : forall l q t t', geom_safe (Complex l) -> In t (types_of q) -> In t' (types_of q) ->
  0 < cnt (Complex l) t -> 0 < cnt (Complex l) t' -> t = t'.
Proof.
  intros l q t t' (_ & H1 & H2) I1 I2 P1 P2. destruct q as [|[|[|[|q]]]]; cbn in I1, I2; intuition; subst; try reflexivity; lia.
Qed.
Lemma begin_type_one : forall d q t, In t (types_of q) -> 0 < num_dof d t -> (forall t', In t' (types_of q) -> 0 < num_dof d t' -> t' = t) -> begin_type d q = t.
Proof.
  intros d q t I1 P H. destruct q as [|[|[|[|q]]]]; cbn [types_of In] in *; cbn [begin_type].
  - now destruct I1 as [<-|[]].
  - destruct (0 <? num_dof d 1) eqn:E; [apply Nat.ltb_lt in E; apply H; auto|]. apply Nat.ltb_ge in E. destruct I1 as [<-|[<-|[]]]; [lia|reflexivity].
  - destruct (0 <? num_dof d 3) eqn:E; [apply Nat.ltb_lt in E; apply H; auto|]. apply Nat.ltb_ge in E. destruct I1 as [<-|[<-|[]]]; [lia|reflexivity].
  - now destruct I1 as [<-|[]].
  - destruct I1.
Qed.
Lemma eb_head : forall d, wf d -> geom_safe d -> forall q e lo r, entity q e -> eb d q e = lo :: r ->
  lo_type lo = begin_type d q /\ lo_leid lo = 0.
Proof.
  induction d as [nd sy|k b IH|l IH] using dmap_ind'; intros Hwf Hs q e lo r He E.
  - assert (N : forall t, t < 6 -> num_dof (Unite nd sy) t = nth t nd 0) by (intros t Ht; now rewrite num_dof_cnt).
    destruct He as [Hq _]. destruct q as [|[|[|[|q]]]]; [..|lia]; cbn [eb types_of flat_map] in E; cbn [begin_type]; rewrite ?N by lia.
    + rewrite app_nil_r in E. destruct (nth 0 nd 0); [discriminate|]. cbn in E. injection E as <- _. auto.
    + rewrite app_nil_r in E. destruct (nth 1 nd 0); cbn in E; [destruct (nth 2 nd 0); [discriminate|cbn in E]|]; injection E as <- _; auto.
    + rewrite app_nil_r in E. destruct (nth 3 nd 0); cbn in E; [destruct (nth 4 nd 0); [discriminate|cbn in E]|]; injection E as <- _; auto.
    + rewrite app_nil_r in E. destruct (nth 5 nd 0); [discriminate|]. cbn in E. injection E as <- _. auto.
  - cbn [eb] in E. destruct k as [|k]; [discriminate|]. unfold vec_list in E. cbn [seq map concat] in E.
    destruct (eb b q e) as [|y m] eqn:Eb.
    { exfalso. clear -E. cbn [map app] in E. induction (seq 1 k) as [|x l IHl]; [discriminate|]. exact (IHl E). }
    cbn in E. injection E as <- _. destruct (IH Hwf Hs q e y m He Eb) as [H1 H2].
    change (lo_type (vshift b 0 y)) with (lo_type y). change (lo_leid (vshift b 0 y)) with (lo_leid y + 0).
    split; [|lia]. rewrite H1. unfold begin_type.
    assert (P : forall t, (0 <? num_dof (Vector (S k) b) t) = (0 <? num_dof b t)).
    { intros t. cbn [num_dof]. destruct (num_dof b t); [now rewrite Nat.mul_0_r|]. reflexivity. }
    now rewrite !P.
  - cbn [eb] in E. assert (Hw := Hwf). apply wf_complex in Hw. pose proof (safe_all l Hs) as Hg. rewrite Forall_forall in *.
    destruct (first_ne l (fun v => nth v (map (fun b => eb b q e) l) []) (length l) 0) as [[_ H]|(w & Hv & Hne & Hbef & Hh)]; [rewrite H in E; discriminate|].
    rewrite E in Hh. cbn [Nat.add] in Hv. destruct (nth_error l w) as [b|] eqn:Eb; [|apply nth_error_None in Eb; lia].
    rewrite (nth_eb l q e w b Eb) in *. pose proof (nth_error_In _ _ Eb) as Hb.
    destruct (eb b q e) as [|y m] eqn:Ey; [now elim Hne|]. cbn [hd_error option_map] in Hh. injection Hh as ->.
    destruct (IH b Hb (Hw b Hb) (Hg b Hb) q e y m He Ey) as [H1 H2].
    assert (Iy : In y (eb b q e)) by (rewrite Ey; now left). apply in_eb in Iy; auto. destruct Iy as (Y1 & Y2 & _).
    destruct (local_order_valid b _ y (Hw b Hb) Y1) as (_ & _ & Y3 & Y4 & Y5).
    assert (C : 0 < cnt (Complex l) (lo_type y)).
    { pose proof (cnt_le l w b (lo_type y) Eb). rewrite num_dof_cnt in Y5 by auto. lia. }
    change (lo_type (cshift l w y)) with (lo_type y). change (lo_leid (cshift l w y)) with (lo_leid y + comp_elem l w (lo_type y)).
    split.
    + symmetry. apply begin_type_one; [now apply type_dim|rewrite num_dof_cnt by auto; exact C|].
      intros t' I' P'. assert (t' < 6) by (destruct He as [Hq _]; clear -I' Hq; destruct q as [|[|[|[|q]]]]; cbn in I'; lia).
      rewrite num_dof_cnt in P' by auto. apply (one_type l q); auto. now apply type_dim.
    + rewrite H2. rewrite comp_elem_eq by lia. cbn [Nat.add].
      assert (Z : forall u, u < w -> nth u (map (fun b => num_dof b (lo_type y)) l) 0 = 0).
      { intros u Hu. destruct (nth_error l u) as [c|] eqn:Ec; [|apply nth_error_None in Ec; lia].
        rewrite (nth_error_nth (map (fun b => num_dof b (lo_type y)) l) u (x := num_dof c (lo_type y))) by (now rewrite nth_error_map, Ec).
        pose proof (nth_error_In _ _ Ec) as Hc. specialize (Hbef u ltac:(lia)). rewrite (nth_eb l q e u c Ec) in Hbef.
        destruct (Nat.eq_dec (num_dof c (lo_type y)) 0) as [|Hn]; [assumption|exfalso]. rewrite num_dof_cnt in Hn by auto.
        destruct (tet_id_zero c (Hw c Hc) (lo_type y) e Y3) as (i & s & _ & En); [|lia|].
        { assert (e = lo_elem y) as -> by (assert (Iy : In y (eb b q e)) by (rewrite Ey; now left); apply in_eb in Iy; auto; symmetry; apply Iy). exact Y4. }
        assert (I : In (lo_of i (Dof (lo_type y) e 0 s)) (eb c q e)).
        { apply in_eb; auto. split; [|split; [exact Y2|reflexivity]]. rewrite local_order_layout by auto. cbn [lo_of lo_gid]. now rewrite En. }
        rewrite Hbef in I. destruct I. }
      clear -Z. revert Z. generalize (map (fun b => num_dof b (lo_type y)) l). clear l y. induction w as [|w IHw]; intros l Z; [reflexivity|].
      destruct l as [|x l]; [reflexivity|]. cbn [firstn]. rewrite list_sum_cons. rewrite (IHw l) by (intros u Hu; apply (Z (S u)); lia).
      pose proof (Z 0 ltac:(lia)) as Z0. cbn [nth] in Z0. lia.
Qed.

Lemma eb_some : forall d q e t, wf d -> entity q e -> In t (types_of q) -> 0 < num_dof d t -> eb d q e <> [].
Proof.
  intros d q e t Hwf He Ht Hn. assert (T : t < 6 /\ geom_dim t = q /\ e < tet_elems t).
  { destruct He as [Hq He]. destruct q as [|[|[|[|q]]]]; cbn in Ht; [..|lia]; intuition; subst; cbn in *; auto; lia. }
  destruct T as (T1 & T2 & T3). rewrite num_dof_cnt in Hn by assumption.
  destruct (tet_id_zero d Hwf t e T1 T3 Hn) as (i & s & _ & En). intros E.
  assert (I : In (lo_of i (Dof t e 0 s)) (eb d q e)).
  { apply in_eb; auto. split; [|split; [exact T2|reflexivity]]. rewrite local_order_layout by auto. cbn [lo_of lo_gid]. now rewrite En. }
  rewrite E in I. destruct I.
Qed.
(** *** Begin *)
Definition dim_pos (s : sparsity) (i : nat) : list (nat * nat) := map (pair i) (filter (tst s i) (seq 0 (lookup_sz i))).
Lemma pos_dims : forall s, pos s = dim_pos s 0 ++ dim_pos s 1 ++ dim_pos s 2 ++ dim_pos s 3.
Proof.
  intros s. unfold pos, all_entities. change (seq 0 4) with [0; 1; 2; 3]. cbn [flat_map]. rewrite app_nil_r, !filter_app.
  assert (G : forall i l, filter (tstp s) (map (pair i) l) = map (pair i) (filter (tst s i) l)).
  { intros i l. induction l as [|x l IH]; [reflexivity|]. cbn [map filter]. unfold tstp at 1. cbn [fst snd]. destruct (tst s i x); cbn [map]; now rewrite IH. }
  now rewrite !G.
Qed.
Lemma scan_filter : forall f n a, scan f a n = hd_error (filter f (seq a n)).
Proof. induction n as [|n IH]; intros a; cbn; [reflexivity|]. destruct (f a); [reflexivity|apply IH]. Qed.
Lemma begin_dim : forall s i, i < 4 -> begin_pos_dim s i = hd_error (dim_pos s i).
Proof. intros s i Hi. rewrite begin_pos_dim_eq by assumption. rewrite scan_filter. unfold dim_pos. now rewrite hd_map. Qed.
Lemma in_dim_pos : forall s i q e, i < 4 -> In (q, e) (dim_pos s i) -> q = i /\ entity i e.
Proof.
  intros s i q e Hi H. apply in_map_iff in H. destruct H as (x & E & Hx). injection E as -> ->. apply filter_In in Hx. destruct Hx as [Hx _].
  apply in_seq in Hx. split; [reflexivity|]. split; [assumption|]. unfold lookup_sz in Hx. unfold ent_count. lia.
Qed.
Lemma empty_dim_pos : forall s i, i < 4 -> in_range s -> empty_dim s i = match dim_pos s i with [] => true | _ => false end.
Proof.
  intros s i Hi Hr. destruct (empty_dim s i) eqn:E.
  - pose proof (begin_dim s i Hi) as B. unfold begin_pos_dim in B. rewrite E in B. destruct (dim_pos s i); [reflexivity|discriminate].
  - destruct (dim_pos s i) as [|p r] eqn:P; [|reflexivity]. exfalso.
    assert (empty_dim s i = true); [|congruence]. apply empty_dim_iff; auto. intros k Hk Hs.
    assert (In (i, k) (dim_pos s i)); [|rewrite P in H; destruct H]. unfold dim_pos. apply in_map. exact Hs.
Qed.
Lemma EB_app : forall d P Q, EB d (P ++ Q) = EB d P ++ EB d Q.
Proof. intros d P Q. unfold EB. now rewrite flat_map_app. Qed.
Lemma EB_dim_nil : forall d s i, wf d -> i < 4 -> ndofs_compact d i = 0 -> EB d (dim_pos s i) = [].
Proof.
  intros d s i Hwf Hi Hn. unfold EB. assert (G : forall p, In p (dim_pos s i) -> eb d (fst p) (snd p) = []).
  { intros [q e] Hp. destruct (in_dim_pos s i q e Hi Hp) as [-> He]. now apply eb_nil. }
  induction (dim_pos s i) as [|p r IH]; [reflexivity|]. cbn [flat_map]. rewrite G by now left. apply IH. intros p' Hp'. apply G. now right.
Qed.
Lemma EB_dim_hd : forall d s i k r, wf d -> i < 4 -> 0 < ndofs_compact d i -> dim_pos s i = (i, k) :: r ->
  entity i k /\ exists lo m, eb d i k = lo :: m /\ hd_error (EB d (dim_pos s i)) = Some lo.
Proof.
  intros d s i k r Hwf Hi Hn E. assert (He : entity i k) by (apply (in_dim_pos s i i k Hi); rewrite E; now left). split; [assumption|].
  apply compact_pos in Hn. destruct Hn as (t & Ht & Hn). replace (Nat.min i 3) with i in Ht by lia.
  pose proof (eb_some d i k t Hwf He Ht Hn) as Hne. rewrite E. unfold EB. cbn [flat_map fst snd].
  destruct (eb d i k) as [|lo m]; [now elim Hne|]. exists lo, m. auto.
Qed.
Definition tail_pos (s : sparsity) (i : nat) : list (nat * nat) :=
  match i with 0 => pos s | 1 => dim_pos s 1 ++ dim_pos s 2 ++ dim_pos s 3 | 2 => dim_pos s 2 ++ dim_pos s 3 | 3 => dim_pos s 3 | _ => [] end.
Lemma tail_S : forall s i, i < 4 -> tail_pos s i = dim_pos s i ++ tail_pos s (S i).
Proof. intros s i Hi. destruct i as [|[|[|[|i]]]]; cbn [tail_pos]; [apply pos_dims|reflexivity|reflexivity|now rewrite app_nil_r|lia]. Qed.
Lemma base_begin_geom : forall d s, wf d -> geom_safe d -> in_range s -> base_begin d s = Some (hd_error (EB d (pos s))).
Proof.
  intros d s Hwf Hg Hr. unfold base_begin. change (pos s) with (tail_pos s 0).
  assert (G : forall n i, i + n = 4 -> base_begin_from d s i n = Some (hd_error (EB d (tail_pos s i)))); [|now apply G].
  induction n as [|n IH]; intros i Hi; cbn [base_begin_from].
  - replace i with 4 by lia. reflexivity.
  - rewrite tail_S, EB_app by lia. rewrite empty_dim_pos by (assumption || lia).
    destruct (dim_pos s i) as [|[q k] r] eqn:E.
    + rewrite andb_false_r. rewrite IH by lia. reflexivity.
    + assert (q = i) as -> by (apply (in_dim_pos s i q k); [lia|rewrite E; now left]).
      rewrite andb_true_r. destruct (Nat.eqb_spec (ndofs_compact d i) 0) as [Z|Z]; cbn [negb].
      * rewrite <- E, EB_dim_nil by (assumption || lia). rewrite IH by lia. reflexivity.
      * destruct (EB_dim_hd d s i k r Hwf ltac:(lia) ltac:(lia) E) as (He & lo & m & E1 & E2).
        rewrite begin_dim, E by lia. cbn [hd_error]. rewrite <- E.
        destruct (EB d (dim_pos s i)) as [|lo' m'] eqn:EE; [discriminate|]. cbn [hd_error] in E2. injection E2 as ->. cbn [app hd_error].
        destruct (eb_head d Hwf Hg i k lo m He E1) as [T L]. rewrite <- T.
        assert (I : In lo (eb d i k)) by (rewrite E1; now left). apply in_eb in I; auto. destruct I as (I1 & _ & I3).
        unfold at_locus. rewrite <- I3, tet_id_first by assumption. cbn [obind fst snd]. rewrite <- L. now destruct lo.
Qed.
Lemma first_def_spec : forall l t v, match first_def l t v with
  | None => forall b, In b l -> num_dof b t = 0
  | Some w => exists u b, w = v + u /\ nth_error l u = Some b /\ 0 < num_dof b t /\ (forall u' b', u' < u -> nth_error l u' = Some b' -> num_dof b' t = 0)
  end.
Proof.
  induction l as [|b l IH]; intros t v; cbn [first_def]; [intros b []|]. unfold defined_on. destruct (0 <? num_dof b t) eqn:E.
  - apply Nat.ltb_lt in E. exists 0, b. split; [lia|]. split; [reflexivity|]. split; [assumption|]. intros; lia.
  - apply Nat.ltb_ge in E. specialize (IH t (S v)). destruct (first_def l t (S v)) as [w|].
    + destruct IH as (u & c & -> & H1 & H2 & H3). exists (S u), c. split; [lia|]. split; [assumption|]. split; [assumption|].
      intros [|u'] b' Hu Eb; cbn in Eb; [injection Eb as <-; lia|]. apply (H3 u' b'); [lia|assumption].
    + intros c [<-|Hc]; [lia|auto].
Qed.
Lemma num_zero : forall l t, wf (Complex l) -> t < 6 -> (forall b, In b l -> num_dof b t = 0) -> num_dof (Complex l) t = 0.
Proof.
  intros l t Hwf Ht H. rewrite num_dof_cnt by assumption. cbn [cnt]. apply wf_complex in Hwf. rewrite Forall_forall in Hwf.
  induction l as [|b l IH]; [reflexivity|]. cbn [map]. rewrite list_sum_cons, IH by (intros x Hx; apply Hwf || apply H; now right).
  rewrite <- num_dof_cnt by (assumption || (apply Hwf; now left)). rewrite H by now left. reflexivity.
Qed.
Lemma EB_low : forall d s q, wf d -> q <= 4 -> (forall i, i < q -> dim_pos s i = [] \/ ndofs_compact d i = 0) ->
  EB d (pos s) = EB d (tail_pos s q).
Proof.
  intros d s q Hwf Hq H. change (pos s) with (tail_pos s 0). induction q as [|q IH]; [reflexivity|].
  rewrite IH by (lia || (intros i Hi; apply H; lia)). rewrite tail_S, EB_app by lia.
  destruct (H q ltac:(lia)) as [-> | Z]; [reflexivity|]. now rewrite EB_dim_nil by (assumption || lia).
Qed.
Lemma types_lt : forall q t, In t (types_of q) -> t < 6 /\ geom_dim t = q.
Proof. intros q t H. destruct q as [|[|[|[|q]]]]; cbn in H; intuition; subst; cbn; lia. Qed.
Lemma low_types : forall t i t', t < 6 -> i < geom_dim t -> In t' (types_of i) -> t' < t.
Proof. intros t i t' Ht Hi H. do 6 (destruct t as [|t]; [cbn in Hi; destruct i as [|[|[|i]]]; cbn in H; intuition; lia|]). lia. Qed.
Lemma num_le : forall l v b t, wf (Complex l) -> t < 6 -> nth_error l v = Some b -> num_dof b t <= num_dof (Complex l) t.
Proof.
  intros l v b t Hwf Ht E. rewrite !num_dof_cnt; try assumption; [now apply (cnt_le l v)|].
  apply wf_complex in Hwf. rewrite Forall_forall in Hwf. apply Hwf. now apply nth_error_In in E.
Qed.
Lemma compact_zero : forall d i, i < 4 -> (forall t, In t (types_of i) -> num_dof d t = 0) -> ndofs_compact d i = 0.
Proof.
  intros d i Hi H. destruct (Nat.eq_dec (ndofs_compact d i) 0) as [|N]; [assumption|exfalso].
  assert (P : 0 < ndofs_compact d i) by lia. apply compact_pos in P. destruct P as (t & Ht & P). replace (Nat.min i 3) with i in Ht by lia.
  specialize (H t Ht). lia.
Qed.
Lemma complex_begin_geom : forall l s, wf (Complex l) -> geom_safe (Complex l) ->
  (forall v b, nth_error l v = Some b -> sp_begin true b s = Some (hd_error (EB b (pos s)))) ->
  sp_begin true (Complex l) s = Some (hd_error (EB (Complex l) (pos s))).
Proof.
  intros l s Hwf Hg HB. cbn [sp_begin]. assert (Hw := Hwf). apply wf_complex in Hw. rewrite Forall_forall in Hw.
  assert (G : forall n t, t + n = 6 -> (forall t', t' < t -> dim_pos s (geom_dim t') = [] \/ num_dof (Complex l) t' = 0) ->
    complex_begin_pref l s (map (fun b => sp_begin true b s) l) t n = Some (hd_error (EB (Complex l) (pos s))));
    [|apply (G 6 0); [reflexivity|intros; lia]].
  induction n as [|n IH]; intros t Ht Hlow.
  - cbn [complex_begin_pref]. rewrite (EB_low _ s 4 Hwf); [reflexivity|lia|]. intros i Hi.
    assert (T : forall t', In t' (types_of i) -> dim_pos s i = [] \/ num_dof (Complex l) t' = 0).
    { intros t' H'. destruct (types_lt i t' H') as [H1 <-]. apply Hlow. lia. }
    destruct (dim_pos s i) eqn:E; [now left|]. right. apply compact_zero; [assumption|]. intros t' H'. destruct (T t' H') as [D|D]; [discriminate|assumption].
  - cbn [complex_begin_pref]. assert (Hq : geom_dim t < 4) by (do 6 (destruct t as [|t]; [cbn; lia|]); lia).
    rewrite begin_dim by assumption. destruct (dim_pos s (geom_dim t)) as [|[q0 k] r] eqn:E; cbn [hd_error].
    { apply IH; [lia|]. intros t' Ht'. destruct (Nat.eq_dec t' t) as [->|]; [now left|]. apply Hlow. lia. }
    assert (q0 = geom_dim t) as -> by (apply (in_dim_pos s (geom_dim t) q0 k); [assumption|rewrite E; now left]).
    pose proof (first_def_spec l t 0) as F. destruct (first_def l t 0) as [w|].
    2:{ apply IH; [lia|]. intros t' Ht'. destruct (Nat.eq_dec t' t) as [->|]; [|apply Hlow; lia]. right. apply num_zero; [assumption|lia|assumption]. }
    destruct F as (u & b & Ew & Eb & Pb & Fb). cbn [Nat.add] in Ew. subst w. pose proof (nth_error_In _ _ Eb) as Hb.
    set (q := geom_dim t) in *.
    assert (Low : forall c, (forall t', t' < 6 -> num_dof c t' <= num_dof (Complex l) t') -> forall i, i < q -> dim_pos s i = [] \/ ndofs_compact c i = 0).
    { intros c Hc i Hi. destruct (dim_pos s i) eqn:Ei; [now left|]. right. apply compact_zero; [lia|]. intros t' H'.
      destruct (types_lt i t' H') as [H1 H2]. destruct (Hlow t') as [D|D]; [apply (low_types t i); [lia|exact Hi|assumption]|rewrite H2, Ei in D; discriminate|].
      specialize (Hc t' H1). lia. }
    assert (PC : 0 < num_dof (Complex l) t) by (pose proof (num_le l u b t Hwf ltac:(lia) Eb); lia).
    assert (Tq : In t (types_of q)) by (apply type_dim; [lia|reflexivity]).
    assert (CP : forall c, 0 < num_dof c t -> 0 < ndofs_compact c q) by (intros c Hc; apply compact_pos; exists t; replace (Nat.min q 3) with q by lia; auto).
    destruct (EB_dim_hd b s q k r (Hw b Hb) Hq (CP b Pb) E) as (He & lo & m & E1 & E2).
    destruct (EB_dim_hd (Complex l) s q k r Hwf Hq (CP _ PC) E) as (_ & lo' & m' & E1' & E2').
    assert (HBb : hd_error (EB b (pos s)) = Some lo).
    { rewrite (EB_low b s q (Hw b Hb)); [|lia|apply Low; intros t' Ht'; now apply (num_le l u)]. rewrite tail_S, EB_app by assumption.
      destruct (EB b (dim_pos s q)); [discriminate|]. exact E2. }
    assert (HBC : hd_error (EB (Complex l) (pos s)) = Some lo').
    { rewrite (EB_low _ s q Hwf); [|lia|apply Low; auto]. rewrite tail_S, EB_app by assumption.
      destruct (EB (Complex l) (dim_pos s q)); [discriminate|]. exact E2'. }
    rewrite nth_error_map, Eb. cbn [option_map obind]. rewrite (HB u b Eb), HBb. cbn [obind]. rewrite HBC. do 2 f_equal.
    assert (Ilo : In lo (eb b q k)) by (rewrite E1; now left). apply in_eb in Ilo; auto. destruct Ilo as (L1 & L2 & L3).
    destruct (local_order_valid b _ lo (Hw b Hb) L1) as (_ & _ & L4 & L5 & L6).
    assert (Tl : lo_type lo = t).
    { apply (one_type l q); auto; [now apply type_dim|..]; rewrite <- num_dof_cnt by (assumption || lia); [|assumption].
      pose proof (num_le l u b (lo_type lo) Hwf L4 Eb). lia. }
    cbn [eb] in E1'. destruct (first_ne l (fun v => nth v (map (fun b => eb b q k) l) []) (length l) 0) as [[_ N]|(w & Hv & Hne & Hbef & Hh)]; [rewrite N in E1'; discriminate|].
    rewrite E1' in Hh. cbn [Nat.add] in Hv. destruct (nth_error l w) as [c|] eqn:Ec; [|apply nth_error_None in Ec; lia].
    rewrite (nth_eb l q k w c Ec) in *. pose proof (nth_error_In _ _ Ec) as Hc.
    assert (Hwu : w = u).
    { destruct (Nat.lt_trichotomy w u) as [D|[D|D]]; [exfalso|assumption|exfalso].
      - destruct (eb_ne c q k (Hw c Hc) He Hne) as (t'' & I'' & P''). destruct (types_lt q t'' I'') as [T'' _].
        assert (t'' = t) as -> by (apply (one_type l q); auto; rewrite <- num_dof_cnt by (assumption || lia); [pose proof (num_le l w c t'' Hwf T'' Ec); lia|assumption]).
        rewrite (Fb w c D Ec) in P''. lia.
      - specialize (Hbef u ltac:(lia)). rewrite (nth_eb l q k u b Eb), E1 in Hbef. discriminate. }
    subst w. rewrite Eb in Ec. apply some_inj in Ec. subst c. rewrite E1 in Hh. cbn [hd_error option_map] in Hh. apply some_inj in Hh. rewrite Hh.
    unfold cshift, shift_lo. now rewrite Tl.
Qed.
(** *** Increment *)
Lemma flat_map_split : forall {A B} (f : A -> list B) P L1 x L2, flat_map f P = L1 ++ x :: L2 ->
  exists P1 p P2 l1 l2, P = P1 ++ p :: P2 /\ f p = l1 ++ x :: l2 /\ L2 = l2 ++ flat_map f P2.
Proof.
  intros A B f. induction P as [|p P IH]; intros L1 x L2 E; cbn in E; [now destruct L1|].
  destruct (app_split _ _ _ _ _ E) as [(b2 & EB1 & ->)|(r1 & -> & ER)].
  - exists [], p, P, L1, b2. auto.
  - destruct (IH _ _ _ ER) as (P1 & p' & P2 & l1 & l2 & -> & H1 & H2). exists (p :: P1), p', P2, l1, l2. auto.
Qed.
Lemma seq_at : forall k v P1 c P2, seq v k = P1 ++ c :: P2 -> v <= c < v + k /\ P2 = seq (S c) (v + k - S c).
Proof.
  induction k as [|k IH]; intros v P1 c P2 E; cbn in E; [now destruct P1|].
  destruct P1 as [|y P1]; cbn in E; injection E as E1 E.
  - subst c. split; [lia|]. rewrite <- E. f_equal. lia.
  - destruct (IH _ _ _ _ E) as [H1 H2]. split; [lia|]. rewrite H2. f_equal. lia.
Qed.
Lemma map_split : forall {A B} (f : A -> B) L l1 x l2, map f L = l1 ++ x :: l2 -> exists m1 y m2, L = m1 ++ y :: m2 /\ x = f y /\ l2 = map f m2.
Proof.
  intros A B f L l1 x l2 E. apply map_eq_app in E. destruct E as (m1 & m2 & -> & _ & E). destruct m2 as [|y m2]; [discriminate|].
  cbn in E. injection E as <- <-. exists m1, y, m2. auto.
Qed.
Lemma hd_app : forall {A} (a b : list A), hd_error (a ++ b) = match a with x :: _ => Some x | [] => hd_error b end.
Proof. intros A [|x a] b; reflexivity. Qed.
Lemma EB_vector_hd : forall k b P, 0 < k -> hd_error (EB (Vector k b) P) = option_map (vshift b 0) (hd_error (EB b P)).
Proof.
  intros k b P Hk. unfold EB. induction P as [|p P IH]; [reflexivity|]. cbn [flat_map eb].
  destruct (eb b (fst p) (snd p)) as [|y m] eqn:E.
  - assert (Z : forall n v, concat (map (fun c => map (vshift b c) []) (seq v n)) = []) by (induction n as [|n IHn]; intros v; [reflexivity|apply (IHn (S v))]).
    unfold vec_list. rewrite Z. exact IH.
  - destruct k as [|k]; [lia|]. reflexivity.
Qed.
Lemma follows_single : forall d q e ss l1 x l2, follows (sp_begin true d ss) (sp_incr true d ss) (EB d (pos ss)) -> pos ss = [(q, e)] ->
  eb d q e = l1 ++ x :: l2 -> sp_incr true d ss x = Some (hd_error l2).
Proof.
  intros d q e ss l1 x l2 [_ H] Hs E. apply (H l1). rewrite Hs. unfold EB. cbn [flat_map fst snd]. now rewrite app_nil_r.
Qed.
Lemma lo_eta : forall lo, LO (lo_gid lo) (lo_type lo) (lo_elem lo) (lo_leid lo) (lo_sym lo) = lo.
Proof. now intros []. Qed.
Lemma vshift0 : forall b lo, vshift b 0 lo = lo.
Proof. intros b [g t e p y]. unfold vshift, shift_lo. cbn. f_equal; lia. Qed.
Lemma vec_geom : forall k b s, wf b -> geom_safe b -> in_range s ->
  (forall s, in_range s -> follows (sp_begin true b s) (sp_incr true b s) (EB b (pos s))) ->
  follows (sp_begin true (Vector k b) s) (sp_incr true (Vector k b) s) (EB (Vector k b) (pos s)).
Proof.
  intros k b s Hwf Hg Hr HF. split; [now apply base_begin_geom|].
  intros L1 x L2 E. unfold EB in E. apply flat_map_split in E. destruct E as (P1 & [q e] & P2 & l1 & l2 & EP & E & ->). cbn [fst snd eb] in E.
  fold (EB (Vector k b) P2).
  assert (He : entity q e) by (apply in_all_entities; assert (I : In (q, e) (pos s)) by (rewrite EP, in_app_iff; cbn; auto); apply filter_In in I; apply I).
  unfold vec_list in E. rewrite <- flat_map_concat_map in E. apply flat_map_split in E. destruct E as (Q1 & c & Q2 & m1 & m2 & EQ & E & ->).
  apply seq_at in EQ. destruct EQ as [Hc ->]. cbn [Nat.add] in *. apply map_split in E. destruct E as (n1 & y & n2 & Ey & -> & ->).
  assert (Iy : In y (eb b q e)) by (rewrite Ey, in_app_iff; cbn; auto). apply in_eb in Iy; auto. destruct Iy as (Y1 & Y2 & Y3).
  destruct (local_order_valid b _ y Hwf Y1) as (_ & G1 & G2 & G3 & G4).
  cbn [sp_incr]. unfold incr_vector.
  rewrite guard_true by (apply local_order_valid_lo; [exact Hwf|apply local_vshift; [exact Hwf|lia|assumption]]). cbn [negb].
  change (lo_type (vshift b c y)) with (lo_type y). change (lo_elem (vshift b c y)) with (lo_elem y). change (lo_sym (vshift b c y)) with (lo_sym y).
  change (lo_gid (vshift b c y)) with (lo_gid y + c * num_dof_tet b).
  change (lo_leid (vshift b c y)) with (lo_leid y + c * num_dof b (lo_type y)).
  destruct (div_add b _ c _ G1) as [-> ->]. destruct (div_add b _ c _ G4) as [_ ->]. rewrite lo_eta, Y2, Y3.
  destruct (single q e He) as (ss & Ess & Rss & Pss). rewrite Ess. cbn [obind].
  rewrite (follows_single b q e ss n1 y n2 (HF ss Rss) Pss Ey). cbn [obind].
  destruct n2 as [|z n2]; cbn [hd_error map app]; [|reflexivity].
  destruct (Nat.eqb_spec (S c) k) as [Ek|Ek]; cbn [negb].
  - replace (k - S c) with 0 by lia. cbn [seq flat_map app].
    pose proof (next_rest s q e P1 P2 EP) as N. destruct (next_pos s (q, e)) as [[d' k']|].
    + destruct N as [[N1 N2] N3]. destruct (HF (trim d' k' s)) as [HB _]; [apply range_trim; auto; lia|].
      change (unset_ents d' k' (unset_below d' s)) with (trim d' k' s). rewrite HB, N3. cbn [obind].
      rewrite EB_vector_hd by lia. destruct (EB b P2) as [|w W]; [reflexivity|]. reflexivity.
    + subst P2. reflexivity.
  - destruct (k - S c) as [|m] eqn:Em; [lia|]. cbn [seq flat_map]. rewrite <- !app_assoc, hd_app.
    destruct (eb b q e) as [|h H] eqn:Eh; [now destruct n1|]. cbn [map].
    destruct (eb_head b Hwf Hg q e h H He Eh) as [T1 T2].
    assert (Ih : In h (eb b q e)) by (rewrite Eh; now left). apply in_eb in Ih; auto. destruct Ih as (H1 & H2 & H3).
    set (t' := if (lo_type y =? 2) && (0 <? num_dof b 1) then 1 else if (lo_type y =? 4) && (0 <? num_dof b 3) then 3 else lo_type y).
    assert (Et : t' = lo_type h).
    { rewrite T1. unfold t'. rewrite <- Y2 in *. clear -G2 G4. remember (lo_type y) as t. clear Heqt.
      do 6 (destruct t as [|t]; [change (geom_dim 0) with 0; change (geom_dim 1) with 1; change (geom_dim 2) with 1; change (geom_dim 3) with 2; change (geom_dim 4) with 2; change (geom_dim 5) with 3;
        cbn [Nat.eqb andb begin_type]; try reflexivity;
        match goal with |- context [0 <? num_dof b ?i] => destruct (0 <? num_dof b i) eqn:Z end; try reflexivity; apply Nat.ltb_ge in Z; lia|]). lia. }
    rewrite Et. rewrite <- H3 at 1. rewrite (tet_id_first b h Hwf H1 T2). cbn [obind fst snd].
    unfold vshift, shift_lo. now rewrite T2, H3.
Qed.
Lemma next_def_spec : forall l t v, let w := next_def l t v in
  v <= w <= v + length l /\ (forall u b, v + u < w -> nth_error l u = Some b -> num_dof b t = 0) /\
  (w < v + length l -> exists b, nth_error l (w - v) = Some b /\ 0 < num_dof b t).
Proof.
  induction l as [|b l IH]; intros t v; cbn [next_def]; cbv zeta.
  - cbn [length]. split; [lia|]. split; [|lia]. intros u b Hu. lia.
  - unfold defined_on. destruct (0 <? num_dof b t) eqn:E.
    + apply Nat.ltb_lt in E. cbn [length]. split; [lia|]. split; [intros u c Hu; lia|]. intros _. rewrite Nat.sub_diag. exists b. auto.
    + apply Nat.ltb_ge in E. destruct (IH t (S v)) as (H1 & H2 & H3). cbn [length]. split; [lia|]. split.
      * intros [|u] c Hu Ec; cbn in Ec; [injection Ec as <-; lia|]. apply (H2 u c); [lia|assumption].
      * intros Hw. destruct (H3 ltac:(lia)) as (c & Ec & Hc). exists c. split; [|assumption].
        replace (next_def l t (S v) - v) with (S (next_def l t (S v) - S v)) by lia. exact Ec.
Qed.
Lemma nth_error_skipn' : forall {A} (l : list A) n u, nth_error (skipn n l) u = nth_error l (n + u).
Proof. induction l as [|x l IH]; intros [|n] u; cbn; try reflexivity; [now destruct u|apply IH]. Qed.
Lemma cplx_geom : forall l s, wf (Complex l) -> geom_safe (Complex l) -> in_range s ->
  (forall b s, In b l -> in_range s -> follows (sp_begin true b s) (sp_incr true b s) (EB b (pos s))) ->
  follows (sp_begin true (Complex l) s) (sp_incr true (Complex l) s) (EB (Complex l) (pos s)).
Proof.
  intros l s Hwf Hg Hr HF.
  assert (BEG : forall s, in_range s -> sp_begin true (Complex l) s = Some (hd_error (EB (Complex l) (pos s)))).
  { intros s' Hr'. apply complex_begin_geom; auto. intros v b Eb. destruct (HF b s' (nth_error_In _ _ Eb) Hr') as [HB _]. exact HB. }
  split; [now apply BEG|]. assert (Hw := Hwf). apply wf_complex in Hw. rewrite Forall_forall in Hw.
  intros L1 x L2 E. unfold EB in E. apply flat_map_split in E. destruct E as (P1 & [q e] & P2 & l1 & l2 & EP & E & ->). cbn [fst snd eb] in E.
  fold (EB (Complex l) P2).
  assert (He : entity q e) by (apply in_all_entities; assert (I : In (q, e) (pos s)) by (rewrite EP, in_app_iff; cbn; auto); apply filter_In in I; apply I).
  set (Ls := fun v => nth v (map (fun b => eb b q e) l) []) in *.
  unfold cplx_from in E. rewrite <- flat_map_concat_map in E. apply flat_map_split in E. destruct E as (Q1 & v & Q2 & m1 & m2 & EQ & E & ->).
  apply seq_at in EQ. destruct EQ as [Hv ->]. cbn [Nat.add] in *. apply map_split in E. destruct E as (n1 & y & n2 & Ey & -> & ->).
  rewrite flat_map_concat_map. fold (cplx_from l Ls (S v) (length l - S v)).
  destruct (nth_error l v) as [b|] eqn:Eb; [|apply nth_error_None in Eb; lia]. pose proof (nth_error_In _ _ Eb) as Hb.
  unfold Ls in Ey. rewrite (nth_eb l q e v b Eb) in Ey.
  assert (Iy : In y (eb b q e)) by (rewrite Ey, in_app_iff; cbn; auto). apply in_eb in Iy; auto. destruct Iy as (Y1 & Y2 & Y3).
  destruct (local_order_valid b _ y (Hw b Hb) Y1) as (_ & G1 & G2 & G3 & G4).
  cbn [sp_incr]. unfold incr_complex.
  rewrite guard_true by (apply local_order_valid_lo; [exact Hwf|now apply (local_cshift l Hwf v b)]).
  change (lo_type (cshift l v y)) with (lo_type y). change (lo_elem (cshift l v y)) with (lo_elem y). change (lo_sym (cshift l v y)) with (lo_sym y).
  change (lo_gid (cshift l v y)) with (lo_gid y + comp_tet l v).
  change (lo_leid (cshift l v y)) with (lo_leid y + comp_elem l v (lo_type y)).
  assert (Eu : upper_bound (prefix (map (fun b0 => num_dof b0 (lo_type y)) l)) (lo_leid y + comp_elem l v (lo_type y)) - 1 = v)
    by (rewrite comp_elem_eq by lia; now apply (find_comp l (fun b0 => num_dof b0 (lo_type y)) v b)).
  rewrite Eu. rewrite guard_true by (apply Nat.leb_le; lia). rewrite !Nat.add_sub, lo_eta, Y2, Y3.
  rewrite nth_error_map, Eb. cbn [option_map obind negb].
  destruct (single q e He) as (ss & Ess & Rss & Pss). rewrite Ess. cbn [obind].
  rewrite (follows_single b q e ss n1 y n2 (HF b ss Hb Rss) Pss Ey). cbn [obind].
  destruct n2 as [|z n2]; cbn [hd_error map app]; [|reflexivity].
  destruct (next_def_spec (skipn (S v) l) (lo_type y) (S v)) as (W1 & W2 & W3). set (w := next_def (skipn (S v) l) (lo_type y) (S v)) in *.
  rewrite skipn_length in W1, W3.
  assert (C : forall c u t, nth_error l u = Some c -> In t (types_of q) -> 0 < num_dof c t -> t = lo_type y).
  { intros c u t Ec It Pt. destruct (types_lt q t It) as [T6 _]. apply (one_type l q); auto; [now apply type_dim|..]; rewrite <- num_dof_cnt by assumption.
    - pose proof (num_le l u c t Hwf T6 Ec). lia.
    - pose proof (num_le l v b (lo_type y) Hwf G2 Eb). lia. }
  assert (Zb : forall u, S v <= u < w -> Ls u = []).
  { intros u Hu. unfold Ls. destruct (nth_error l u) as [c|] eqn:Ec; [|apply nth_error_None in Ec; lia]. rewrite (nth_eb l q e u c Ec).
    destruct (eb c q e) as [|h H] eqn:Eh; [reflexivity|exfalso]. pose proof (nth_error_In _ _ Ec) as Hc.
    destruct (eb_ne c q e (Hw c Hc) He ltac:(congruence)) as (t & It & Pt). rewrite (C c u t Ec It Pt) in Pt.
    rewrite (W2 (u - S v) c) in Pt; [lia|lia|]. rewrite nth_error_skipn'. now replace (S v + (u - S v)) with u by lia. }
  destruct (first_ne l Ls (length l - S v) (S v)) as [[F1 F2]|(w' & F1 & F2 & F3 & F4)].
  - rewrite F2. cbn [app]. destruct (Nat.eqb_spec w (length l)) as [Ew|Ew]; cbn [negb].
    + pose proof (next_rest s q e P1 P2 EP) as N. destruct (next_pos s (q, e)) as [[d' k']|].
      * destruct N as [[N1 N2] N3]. change (unset_ents d' k' (unset_below d' s)) with (trim d' k' s).
        rewrite BEG by (apply range_trim; auto; lia). now rewrite N3.
      * subst P2. reflexivity.
    + exfalso. destruct (W3 ltac:(lia)) as (c & Ec & Pc). rewrite nth_error_skipn' in Ec. replace (S v + (w - S v)) with w in Ec by lia.
      specialize (F1 w ltac:(lia)). unfold Ls in F1. rewrite (nth_eb l q e w c Ec) in F1. pose proof (nth_error_In _ _ Ec) as Hc.
      apply (eb_some c q e (lo_type y) (Hw c Hc) He); auto. now apply type_dim.
  - assert (Hww : w = w').
    { assert (A : w <= w') by (destruct (Nat.le_gt_cases w w') as [|D]; [assumption|elim F2; apply Zb; lia]).
      destruct (Nat.eq_dec w w') as [|D]; [assumption|exfalso]. destruct (W3 ltac:(lia)) as (c & Ec & Pc).
      rewrite nth_error_skipn' in Ec. replace (S v + (w - S v)) with w in Ec by lia. pose proof (nth_error_In _ _ Ec) as Hc.
      specialize (F3 w ltac:(lia)). unfold Ls in F3. rewrite (nth_eb l q e w c Ec) in F3.
      apply (eb_some c q e (lo_type y) (Hw c Hc) He); auto. now apply type_dim. }
    subst w'. destruct (Nat.eqb_spec w (length l)) as [Ew|Ew]; [lia|]. cbn [negb].
    destruct (nth_error l w) as [c|] eqn:Ec; [|apply nth_error_None in Ec; lia]. cbn [obind]. pose proof (nth_error_In _ _ Ec) as Hc.
    unfold Ls in F2, F4. rewrite (nth_eb l q e w c Ec) in F2, F4. fold Ls in F4.
    destruct (eb c q e) as [|h H] eqn:Eh; [now elim F2|]. cbn [hd_error option_map] in F4.
    pose proof (safe_all l Hg) as Hgs. rewrite Forall_forall in Hgs.
    destruct (eb_head c (Hw c Hc) (Hgs c Hc) q e h H He Eh) as [T1 T2].
    assert (Ih : In h (eb c q e)) by (rewrite Eh; now left). apply in_eb in Ih; auto. destruct Ih as (H1 & H2 & H3).
    destruct (local_order_valid c _ h (Hw c Hc) H1) as (_ & _ & X2 & _ & X4).
    assert (Th : lo_type h = lo_type y) by (apply (C c w); auto; [now apply type_dim|lia]).
    rewrite <- Th, <- H3, (tet_id_first c h (Hw c Hc) H1 T2). cbn [obind fst snd]. rewrite <- T2, lo_eta.
    rewrite hd_app. destruct (cplx_from l Ls (S v) (length l - S v)) as [|h' H']; [discriminate|]. cbn [hd_error] in F4. rewrite F4. reflexivity.
Qed.
Lemma follows_geom : forall d, wf d -> geom_safe d -> forall s, in_range s -> follows (sp_begin true d s) (sp_incr true d s) (EB d (pos s)).
Proof.
  induction d as [nd sy|k b IH|l IH] using dmap_ind'; intros Hwf Hg s Hr.
  - rewrite <- leaf_EB. now apply leaf_follows.
  - apply vec_geom; auto.
  - apply cplx_geom; auto. intros b s' Hb Hs'. rewrite Forall_forall in IH. apply wf_complex in Hwf. apply safe_all in Hg. rewrite Forall_forall in Hwf, Hg. auto.
Qed.
Lemma iterate_geom : forall d s, wf d -> geom_safe d -> in_range s -> sp_iterate true d s = Some (EB d (pos s)).
Proof.
  intros d s Hwf Hg Hr. apply iterate_follows; [now apply follows_geom|]. apply (visit_length d s _ Hwf). now apply exact_EB.
Qed.

(** *** Order of the visits *)
Lemma pos_sorted : forall s P1 p P2 p' P3, pos s = P1 ++ p :: P2 ++ p' :: P3 -> fst p < fst p' \/ (fst p = fst p' /\ snd p < snd p').
Proof.
  intros s P1 p P2 p' P3 E. apply filter_split in E. destruct E as (l1 & l2 & E & E2 & _). symmetry in E2. apply filter_split in E2.
  destruct E2 as (m1 & m2 & -> & _ & _).
  assert (G : exists i j, i < j < 15 /\ nth_error all_entities i = Some p /\ nth_error all_entities j = Some p').
  { exists (length l1), (length l1 + S (length m1)). rewrite E. split.
    - apply (f_equal (@length _)) in E. rewrite app_length in E. cbn [length] in E. rewrite app_length in E. change (length all_entities) with 15 in E. cbn [length] in E. lia.
    - split; [rewrite nth_error_app2, Nat.sub_diag by lia; reflexivity|].
      rewrite nth_error_app2 by lia. replace (length l1 + S (length m1) - length l1) with (S (length m1)) by lia. cbn [nth_error].
      rewrite nth_error_app2, Nat.sub_diag by lia. reflexivity. }
  destruct G as (i & j & Hij & Ei & Ej).
  assert (C : forallb (fun i => forallb (fun j => negb (i <? j) || match nth_error all_entities i, nth_error all_entities j with
     | Some p, Some p' => (fst p <? fst p') || ((fst p =? fst p') && (snd p <? snd p')) | _, _ => true end) (seq 0 15)) (seq 0 15) = true) by reflexivity.
  assert (Ii : In i (seq 0 15)) by (apply in_seq; lia). assert (Ij : In j (seq 0 15)) by (apply in_seq; lia).
  rewrite forallb_forall in C. specialize (C i Ii). rewrite forallb_forall in C. specialize (C j Ij).
  rewrite Ei, Ej in C. replace (i <? j) with true in C by (symmetry; apply Nat.ltb_lt; lia). cbn [negb orb] in C.
  apply orb_true_iff in C. destruct C as [C|C]; [left; now apply Nat.ltb_lt|right]. apply andb_true_iff in C. destruct C as [C1 C2].
  split; [now apply Nat.eqb_eq|now apply Nat.ltb_lt].
Qed.
Lemma EB_order : forall d s, wf d -> by_entity (EB d (pos s)).
Proof.
  intros d s Hwf L1 a L2 b L3 E. unfold EB in E. apply flat_map_split in E. destruct E as (P1 & p & P2 & l1 & l2 & EP & E & EL).
  assert (X : forall q lo, In q (pos s) -> In lo (eb d (fst q) (snd q)) -> geom_dim (lo_type lo) = fst q /\ lo_elem lo = snd q).
  { intros [q e] lo Hq Hl. apply filter_In in Hq. destruct Hq as [Hq _]. apply in_all_entities in Hq. cbn [fst snd] in *. apply in_eb in Hl; auto. split; apply Hl. }
  assert (Ip : In p (pos s)) by (rewrite EP, in_app_iff; cbn; auto).
  destruct (X p a Ip) as [A1 A2]; [rewrite E, in_app_iff; cbn; auto|].
  symmetry in EL. unfold before_or_at.
  assert (Hb : In b (l2 ++ flat_map (fun p => eb d (fst p) (snd p)) P2)) by (rewrite EL, in_app_iff; cbn; auto).
  apply in_app_iff in Hb. destruct Hb as [Hb|Hb].
  - destruct (X p b Ip) as [B1 B2]; [rewrite E, in_app_iff; cbn; auto|]. right. rewrite A1, B1, A2, B2. auto.
  - apply in_flat_map in Hb. destruct Hb as (p' & Hp' & Hb). apply in_split in Hp'. destruct Hp' as (Q1 & Q2 & ->).
    destruct (X p' b) as [B1 B2]; [rewrite EP, in_app_iff; right; right; rewrite in_app_iff; cbn; auto|assumption|].
    pose proof (pos_sorted s P1 p Q1 p' Q2 EP). rewrite A1, A2, B1, B2. lia.
Qed.
