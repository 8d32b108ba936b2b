(** Elements and dimensions, the whole walk *)
From Coq Require Import Sorted.
From Verif Require Import Prelude DofModel DofSpec DofProofs EnumModel EnumSpec EnumProofs GwModel GwSpec GwProofs GwProofs2.

Local Arguments has : simpl never.
Local Arguments items : simpl never.
Lemma leading_le : forall L, leading L <= length L.
Proof. induction L as [|[] L IH]; cbn; lia. Qed.
Lemma next_le : forall m d lid, lid < length (m d) -> next_lid m d lid <= length (m d).
Proof. intros m d lid H. unfold next_lid. pose proof (leading_le (skipn (S lid) (m d))) as Q. rewrite skipn_length in Q. lia. Qed.
Lemma filter_at : forall P n a pre x post, filter P (seq a n) = pre ++ x :: post -> a <= x < a + n /\ post = filter P (seq (S x) (a + n - S x)).
Proof.
  intros P. induction n as [|n IH]; intros a pre x post E; [destruct pre; discriminate|]. cbn [seq filter] in E. destruct (P a) eqn:Ea.
  - destruct pre as [|y pre]; injection E as <- E.
    + subst post. split; [lia|]. do 2 f_equal. lia.
    + destruct (IH _ _ _ _ E) as (H & ->). split; [lia|]. do 2 f_equal. lia.
  - destruct (IH _ _ _ _ E) as (H & ->). split; [lia|]. do 2 f_equal. lia.
Qed.
Lemma hd_or_none : forall X (L : list X), hd_or L None = hd_error L.
Proof. intros X [|x L]; reflexivity. Qed.
Lemma hd_error_app : forall X (A B : list X), hd_error (A ++ B) = match hd_error A with Some x => Some x | None => hd_error B end.
Proof. intros X [|a A] B; reflexivity. Qed.

Section Walk.
Variables (l : list dmap) (m : mesh) (s : slice).
Hypothesis Hw : wf (Complex l).
Hypothesis Hv : forall v, s_var s = Some v -> v < length l.
Hypothesis Hs : sound_mask l s.
Local Notation k0 := (any_or (s_dim s) 0).
Local Notation p0 := (any_or (s_dof s) 0).
Local Notation i0 := (any_or (s_lid s) 0).
Local Notation next := (next_by_geom l m s).

Lemma no_eitems : forall d, ditems l s d = [] -> eitems l m s d = [].
Proof. intros d H. unfold eitems. rewrite H. apply flat_nil. reflexivity. Qed.
Lemma stage_elem : forall d, d < 4 -> links next (eitems l m s d) (next_dim l m s (t_start s d) k0 p0 i0).
Proof.
  intros d Hd. unfold eitems. apply (links_flat _ _ _ (fun lid => next_elem l m s d (t_start s d) k0 p0 lid)).
  - intros lid _ _. now apply stage_type.
  - intros pre lid post E H. assert (Hm : dim_mask s d = true).
    { destruct (dim_mask s d) eqn:Em; [reflexivity|]. exfalso. apply H. now rewrite no_mask. }
    destruct (start_lt s d Hd) as (Ht & _). unfold next_elem. unfold lids in E. destruct (s_lid s) as [i|]; cbn [vals any_or] in *.
    + destruct (i <? length (m d)); [|destruct pre; discriminate]. cbn [filter] in E. destruct (is_owned m d i); [|destruct pre; discriminate].
      destruct pre as [|? pre]; [|destruct pre; discriminate]. injection E as <- <-. reflexivity.
    + apply filter_at in E. destruct E as (Hl & ->). pose proof (next_gt m s d lid). pose proof (next_le m d lid ltac:(lia)). unfold last_lid. rewrite choose_element_ok by (try assumption; lia).
      rewrite from_start by assumption. rewrite Nat.add_0_l, (filter_seq_skip s _ (S lid) (next_lid m d lid) (length (m d))) by (try lia; intros i Hi; apply (next_skip m s d lid); lia).
      now rewrite hd_or_match.
Qed.
Lemma next_dims_ok : forall ds, Forall (fun d => d < 4) ds -> next_dims l m s k0 p0 i0 ds = hd_error (flat_map (eitems l m s) ds).
Proof.
  induction ds as [|d ds IH]; intros H; [reflexivity|]. inversion H as [|? ? Hd Hds]; subst. cbn [next_dims flat_map]. rewrite hd_error_app, IH by assumption.
  destruct (dim_mask s d) eqn:Em; [|cbn [andb]; now rewrite no_eitems by now apply no_mask]. cbn [andb].
  assert (Ht : first_type d < 6) by (destruct d as [|[|[|[|d]]]]; cbn; lia).
  unfold eitems, lids. destruct (s_lid s) as [i|]; cbn [any_or vals].
  - unfold last_lid. destruct (length (m d) <=? i) eqn:E1; cbn [orb negb].
    + apply Nat.leb_le in E1. rewrite (proj2 (Nat.ltb_ge _ _)) by assumption. reflexivity.
    + apply Nat.leb_gt in E1. rewrite (proj2 (Nat.ltb_lt _ _)) by assumption. destruct (status m d i) eqn:Es; cbn [negb].
      * cbn [filter]. unfold is_owned. rewrite Es. reflexivity.
      * rewrite choose_element_ok by (try assumption; lia). rewrite from_first by assumption. replace (i + 1 - i) with 1 by lia. reflexivity.
      * rewrite choose_element_ok by (try assumption; lia). rewrite from_first by assumption. replace (i + 1 - i) with 1 by lia. reflexivity.
  - cbn [negb]. unfold last_lid. rewrite choose_element_ok by (try assumption; lia). rewrite from_first by assumption. now rewrite Nat.sub_0_r.
Qed.
Lemma next_dim_ok : forall d, d < 4 -> next_dim l m s (t_start s d) k0 p0 i0 = hd_error (flat_map (eitems l m s) (seq (S d) (3 - d))).
Proof.
  intros d Hd. destruct (start_lt s d Hd) as (Ht & Hg). unfold next_dim. rewrite Hg.
  assert (Q : Forall (fun d => d < 4) (seq (S d) (3 - d))) by (apply Forall_forall; intros e He; apply in_seq in He; lia).
  destruct (Nat.shiftr (s_mask s) (if unoriented (t_start s d) then S (t_start s d) else t_start s d) =? 0) eqn:E; cbn [orb].
  - apply Nat.eqb_eq in E. symmetry. rewrite flat_nil; [reflexivity|]. intros e He. apply in_seq in He. apply no_eitems, no_mask; [lia|].
    assert (P : forall t, (if unoriented (t_start s d) then S (t_start s d) else t_start s d) <= t -> has s t = false).
    { intros t Hle. unfold has. rewrite <- (Nat.sub_add _ _ Hle), <- Nat.shiftr_spec', E. apply Nat.bits_0. }
    assert (G : (if unoriented (t_start s d) then S (t_start s d) else t_start s d) <= first_type (S d)).
    { unfold t_start. destruct d as [|[|[|[|d]]]]; [| | | |lia]; cbn; try lia; destruct (has s _); cbn; lia. }
    destruct d as [|[|[|[|d]]]]; [| | | |lia]; cbn [first_type nth] in G; destruct e as [|[|[|[|e]]]]; try lia; unfold dim_mask; rewrite ?P by lia; reflexivity.
  - destruct (t_start s d =? 5) eqn:E5; [|now apply next_dims_ok]. apply Nat.eqb_eq in E5. rewrite E5 in Hg. cbn in Hg. subst d. reflexivity.
Qed.
Lemma next_places : links next (places l m s) None.
Proof.
  unfold places. apply (links_flat _ _ _ (fun d => next_dim l m s (t_start s d) k0 p0 i0)).
  - intros d Hd _. apply stage_elem. cbn in Hd. intuition lia.
  - intros pre d post E _. change [0; 1; 2; 3] with (seq 0 4) in E. apply seq_at in E. destruct E as (Hd & ->). rewrite next_dim_ok by lia. now rewrite hd_or_none.
Qed.
Lemma begin_dims_ok : forall ds, Forall (fun d => d < 4) ds -> begin_dims l m s ds = hd_error (flat_map (eitems l m s) ds).
Proof.
  induction ds as [|d ds IH]; intros H; [reflexivity|]. inversion H as [|? ? Hd Hds]; subst. cbn [begin_dims flat_map]. rewrite hd_error_app, IH by assumption.
  destruct (dim_mask s d) eqn:Em; [|now rewrite no_eitems by now apply no_mask].
  assert (Ht : first_type d < 6) by (destruct d as [|[|[|[|d]]]]; cbn; lia).
  unfold eitems, lids, last_lid. rewrite choose_element_ok by (try assumption; lia). rewrite from_first by assumption. destruct (s_lid s) as [i|]; cbn [any_or vals].
  - destruct (i <? length (m d)) eqn:E1; [apply Nat.ltb_lt in E1|apply Nat.ltb_ge in E1].
    + rewrite Nat.min_r by lia. replace (i + 1 - i) with 1 by lia. reflexivity.
    + rewrite Nat.min_l by lia. replace (length (m d) - i) with 0 by lia. reflexivity.
  - now rewrite Nat.sub_0_r.
Qed.
Lemma begin_places : begin_by_geom l m s = Some (hd_error (places l m s)).
Proof.
  unfold begin_by_geom. assert (E : match s_var s with None => true | Some v => v <? length l end = true) by (destruct (s_var s) as [v|] eqn:E; [apply Nat.ltb_lt; now apply Hv|reflexivity]).
  rewrite E. cbn [guard obind]. rewrite begin_dims_ok; [reflexivity|]. repeat constructor.
Qed.
Lemma walk_suffix : forall post pre fuel, places l m s = pre ++ post -> walk_from l m s fuel (hd_error post) = (firstn fuel post, length post <=? fuel).
Proof.
  induction post as [|x post IH]; intros pre fuel E; [now destruct fuel|]. destruct fuel as [|f]; [reflexivity|]. cbn [hd_error walk_from].
  rewrite (next_places pre x post E), hd_or_none, (IH (pre ++ [x]) f) by (now rewrite <- app_assoc). reflexivity.
Qed.
Lemma walk_places : forall fuel, walk l m s fuel = Some (firstn fuel (places l m s), length (places l m s) <=? fuel).
Proof. intros fuel. unfold walk. rewrite begin_places. cbn [obind]. now rewrite (walk_suffix (places l m s) []). Qed.
End Walk.

(** *** which places, in which order *)
Lemma types_dim : forall t d, d < 4 -> In t (types_of_dim d) <-> t < 6 /\ geom_dim t = d.
Proof.
  intros t d Hd. split.
  - destruct d as [|[|[|[|d]]]]; [| | | |lia]; cbn; intros H; intuition (subst; cbn; lia).
  - intros (Ht & <-). destruct t as [|[|[|[|[|[|t]]]]]]; cbn; try tauto; lia.
Qed.
Lemma in_places : forall l m s x, In x (places l m s) <-> selected l m s x.
Proof.
  intros l m s [d lid x]. unfold places, selected. rewrite in_flat_map. cbn [p_dim p_lid p_desc]. split.
  - intros (d' & Hd & H). unfold eitems in H. apply in_flat_map in H. destruct H as (i & Hi & H). apply in_map_iff in H. destruct H as (y & E & H). injection E as -> -> ->.
    assert (Hd4 : d < 4) by (cbn in Hd; intuition lia). unfold ditems in H. apply in_flat_map in H. destruct H as (t & Ht & H). apply filter_In in Ht. destruct Ht as (Ht & Hh). apply types_dim in Ht; [|assumption].
    apply in_items in H; [|tauto]. destruct H as (H1 & <- & H2 & H3 & H4). unfold lids in Hi. apply filter_In in Hi. destruct Hi as (Hi & Ho). apply in_vals in Hi. unfold is_owned in Ho. destruct (status m d lid); try discriminate. tauto.
  - intros (Hd & Hl & Ho & H1 & Hg & H2 & H3 & H4 & Hh & H5). exists d. split; [cbn; lia|]. unfold eitems. apply in_flat_map. exists lid. split.
    + unfold lids. apply filter_In. split; [now apply in_vals|]. unfold is_owned. now rewrite Ho.
    + apply in_map_iff. exists x. split; [reflexivity|]. unfold ditems. apply in_flat_map. exists (x_type x). pose proof H1 as (Ht & _). split; [|apply in_items; tauto]. apply filter_In. split; [now apply types_dim|assumption].
Qed.

Lemma sorted_app : forall X (P : X -> X -> Prop) A B, StronglySorted P A -> StronglySorted P B -> (forall x y, In x A -> In y B -> P x y) -> StronglySorted P (A ++ B).
Proof.
  intros X P A B HA HB H. induction HA as [|a A HA IH Ha]; [exact HB|]. cbn. constructor; [apply IH; intros x y Hx; apply H; now right|].
  apply Forall_app. split; [exact Ha|]. apply Forall_forall. intros y Hy. apply H; [now left|exact Hy].
Qed.
Lemma sorted_flat : forall A X (P : X -> X -> Prop) (g : A -> list X) (key : A -> nat) L, StronglySorted (fun a b => key a < key b) L -> (forall a, In a L -> StronglySorted P (g a)) ->
  (forall a b x y, key a < key b -> In x (g a) -> In y (g b) -> P x y) -> StronglySorted P (flat_map g L).
Proof.
  intros A X P g key L HL H1 H2. induction HL as [|a L HL IH Ha]; [constructor|]. cbn. apply sorted_app; [apply H1; now left|apply IH; intros b Hb; apply H1; now right|].
  intros x y Hx Hy. apply in_flat_map in Hy. destruct Hy as (b & Hb & Hy). rewrite Forall_forall in Ha. now apply (H2 a b x y (Ha b Hb)).
Qed.
Lemma sorted_seq : forall n a, StronglySorted lt (seq a n).
Proof. induction n as [|n IH]; intros a; cbn; constructor; [apply IH|]. apply Forall_forall. intros x Hx. apply in_seq in Hx. lia. Qed.
Lemma sorted_vals : forall o n, StronglySorted lt (vals o n).
Proof. intros [i|] n; cbn [vals]; [destruct (i <? n); repeat constructor|apply sorted_seq]. Qed.
Lemma sorted_filter : forall P L, StronglySorted lt L -> StronglySorted lt (filter P L).
Proof.
  intros P L H. induction H as [|a L H IH Ha]; [constructor|]. cbn. destruct (P a); [|exact IH]. constructor; [exact IH|]. apply Forall_forall. intros x Hx. apply filter_In in Hx. rewrite Forall_forall in Ha. now apply Ha.
Qed.
Lemma sorted_map : forall A X (P : X -> X -> Prop) (Q : A -> A -> Prop) (h : A -> X) L, StronglySorted Q L -> (forall a b, Q a b -> P (h a) (h b)) -> StronglySorted P (map h L).
Proof.
  intros A X P Q h L H HQ. induction H as [|a L H IH Ha]; [constructor|]. cbn. constructor; [exact IH|]. apply Forall_forall. intros x Hx. apply in_map_iff in Hx. destruct Hx as (b & <- & Hb). rewrite Forall_forall in Ha. apply HQ, Ha, Hb.
Qed.
Definition dbefore (x y : desc) : Prop := lex_le (x_type x) (x_type y) (lex_le (x_var x) (x_var y) (lex_le (x_dim x) (x_dim y) (x_pos x < x_pos y))).
Lemma sorted_vitems : forall l s t v, StronglySorted dbefore (vitems l s t v).
Proof.
  intros l s t v. unfold vitems. apply (sorted_flat _ _ _ _ (fun k => k)); [apply sorted_vals| |].
  - intros k _. apply (sorted_map _ _ _ lt); [apply sorted_vals|]. intros a b H. unfold dbefore, lex_le. cbn. tauto.
  - intros a b x y H Hx Hy. apply in_map_iff in Hx, Hy. destruct Hx as (p & <- & _), Hy as (q & <- & _). unfold dbefore, lex_le. cbn. tauto.
Qed.
Lemma sorted_items : forall l s t, StronglySorted dbefore (items l s t).
Proof.
  intros l s t. unfold items. apply (sorted_flat _ _ _ _ (fun k => k)); [apply sorted_vals|intros v _; apply sorted_vitems|].
  intros a b x y H Hx Hy. apply in_vitems in Hx, Hy. cbn zeta in *. destruct Hx as (Ex & Ew & _), Hy as (Ey & Ev & _). unfold dbefore, lex_le. rewrite Ex, Ew, Ey, Ev. tauto.
Qed.
Lemma items_type : forall l s t x, In x (items l s t) -> x_type x = t.
Proof. intros l s t x H. unfold items in H. apply in_flat_map in H. destruct H as (v & _ & H). apply in_vitems in H. cbn zeta in H. tauto. Qed.
Lemma sorted_ditems : forall l s d, StronglySorted dbefore (ditems l s d).
Proof.
  intros l s d. unfold ditems. apply (sorted_flat _ _ _ _ (fun k => k)); [|intros v _; apply sorted_items|].
  - apply sorted_filter. destruct d as [|[|[|[|d]]]]; cbn; repeat constructor; destruct d; constructor.
  - intros a b x y H Hx Hy. apply items_type in Hx, Hy. unfold dbefore, lex_le. rewrite Hx, Hy. tauto.
Qed.
Lemma sorted_eitems : forall l m s d, StronglySorted before (eitems l m s d).
Proof.
  intros l m s d. unfold eitems. apply (sorted_flat _ _ _ _ (fun k => k)); [apply sorted_filter, sorted_vals| |].
  - intros i _. apply (sorted_map _ _ _ dbefore); [apply sorted_ditems|]. intros a b H. unfold before, lex_le. cbn. unfold dbefore, lex_le in H. tauto.
  - intros a b x y H Hx Hy. apply in_map_iff in Hx, Hy. destruct Hx as (p & <- & _), Hy as (q & <- & _). unfold before, lex_le. cbn. tauto.
Qed.
Lemma sorted_places : forall l m s, StronglySorted before (places l m s).
Proof.
  intros l m s. unfold places. apply (sorted_flat _ _ _ _ (fun k => k)); [repeat constructor|intros d _; apply sorted_eitems|].
  intros a b x y H Hx Hy. unfold eitems in Hx, Hy. apply in_flat_map in Hx, Hy. destruct Hx as (i & _ & Hx), Hy as (j & _ & Hy). apply in_map_iff in Hx, Hy. destruct Hx as (p & <- & _), Hy as (q & <- & _). unfold before, lex_le. cbn. tauto.
Qed.
Lemma sorted_nth : forall X (P : X -> X -> Prop) L, StronglySorted P L -> forall i j x y, i < j -> nth_error L i = Some x -> nth_error L j = Some y -> P x y.
Proof.
  intros X P L H. induction H as [|a L H IH Ha]; intros i j x y Hij Hx Hy; [destruct i; discriminate|]. destruct j as [|j]; [lia|]. cbn in Hy. destruct i as [|i].
  - injection Hx as <-. rewrite Forall_forall in Ha. apply Ha. now apply nth_error_In in Hy.
  - apply (IH i j); [lia|exact Hx|exact Hy].
Qed.
Lemma places_ordered : forall l m s, ordered (places l m s).
Proof. intros l m s i j x y. apply sorted_nth, sorted_places. Qed.
Lemma before_irrefl : forall x, ~ before x x.
Proof. intros x. unfold before, lex_le. lia. Qed.
Lemma places_nodup : forall l m s, NoDup (places l m s).
Proof.
  intros l m s. pose proof (sorted_places l m s) as H. induction H as [|a L H IH Ha]; constructor; [|exact IH]. intros Hin. rewrite Forall_forall in Ha. exact (before_irrefl a (Ha a Hin)).
Qed.

(** *** how many *)
Lemma filter_nth : forall (P : state -> bool) L, length (filter (fun i => P (nth i L Deleted)) (seq 0 (length L))) = length (filter P L).
Proof.
  intros P L. assert (G : forall a, length (filter (fun i => P (nth (i - a) L Deleted)) (seq a (length L))) = length (filter P L)).
  { induction L as [|x L IH]; intros a; [reflexivity|]. cbn [length seq filter]. rewrite Nat.sub_diag. change (nth 0 (x :: L) Deleted) with x.
    assert (E : filter (fun i => P (nth (i - a) (x :: L) Deleted)) (seq (S a) (length L)) = filter (fun i => P (nth (i - S a) L Deleted)) (seq (S a) (length L))).
    { apply filter_ext_in. intros i Hi. apply in_seq in Hi. now replace (i - a) with (S (i - S a)) by lia. }
    rewrite E. destruct (P x); cbn [length]; now rewrite IH. }
  rewrite <- (G 0). f_equal. apply filter_ext. intros i. now rewrite Nat.sub_0_r.
Qed.
Lemma flat_const : forall A X (g : A -> list X) c L, (forall a, In a L -> length (g a) = c) -> length (flat_map g L) = length L * c.
Proof. intros A X g c L H. induction L as [|a L IH]; [reflexivity|]. cbn. rewrite app_length, (H a) by now left. rewrite IH by (intros b Hb; apply H; now right). reflexivity. Qed.
Lemma ditems_all : forall l d, d < 4 -> ditems l everything d = descs l d.
Proof. intros l d Hd. destruct d as [|[|[|[|d]]]]; [reflexivity..|lia]. Qed.
Lemma places_count : forall l m, wf (Complex l) -> length (places l m everything) =
  list_sum (map (fun d => owned_count m d * list_sum (map (cnt (Complex l)) (types_of_dim d))) [0; 1; 2; 3]).
Proof.
  intros l m Hw. unfold places. rewrite length_flat_map'. f_equal. apply map_ext_in. intros d Hd. assert (Hd4 : d < 4) by (cbn in Hd; intuition lia).
  unfold eitems. rewrite (flat_const _ _ _ (length (ditems l everything d))) by (intros; apply map_length). f_equal.
  - unfold lids. cbn [everything s_lid vals]. unfold owned_count. rewrite <- filter_nth. reflexivity.
  - rewrite ditems_all by assumption. unfold descs. rewrite length_flat_map'. f_equal. apply map_ext. intros t. apply length_descs_type.
Qed.
