(** The walk by geometry visits the list of the selected places *)
From Verif Require Import Prelude DofModel DofSpec DofProofs EnumModel EnumSpec EnumProofs GwModel GwSpec.

(** *** lists and successors *)
Definition hd_or {X} (L : list X) (o : option X) : option X := match L with x :: _ => Some x | [] => o end.
Definition links {X} (f : X -> option X) (L : list X) (fin : option X) : Prop := forall pre x post, L = pre ++ x :: post -> f x = hd_or post fin.
Lemma hd_or_app : forall X (A B : list X) o, hd_or (A ++ B) o = hd_or A (hd_or B o).
Proof. intros X [|a A] B o; reflexivity. Qed.
Lemma hd_or_match : forall X (A : list X) o, hd_or A o = match hd_error A with Some x => Some x | None => o end.
Proof. intros X [|a A] o; reflexivity. Qed.
Lemma split_app : forall X (A B pre post : list X) x, A ++ B = pre ++ x :: post ->
  (exists q, A = pre ++ x :: q /\ post = q ++ B) \/ (exists q, pre = A ++ q /\ B = q ++ x :: post).
Proof.
  induction A as [|a A IH]; intros B pre post x H.
  - right. exists pre. auto.
  - destruct pre as [|y pre]; cbn in H; injection H as -> H.
    + left. exists A. auto.
    + destruct (IH B pre post x H) as [(q & -> & ->)|(q & -> & ->)]; [left|right]; exists q; auto.
Qed.
Lemma links_app : forall X f (A B : list X) fin, links f A (hd_or B fin) -> links f B fin -> links f (A ++ B) fin.
Proof.
  intros X f A B fin HA HB pre x post E. destruct (split_app _ _ _ _ _ _ E) as [(q & EA & ->)|(q & -> & EB)].
  - rewrite hd_or_app. now apply (HA pre).
  - now apply (HB q).
Qed.
Lemma links_flat : forall A X (g : A -> list X) nx f fin la, (forall a, In a la -> g a <> [] -> links f (g a) (nx a)) ->
  (forall pre a post, la = pre ++ a :: post -> g a <> [] -> nx a = hd_or (flat_map g post) fin) -> links f (flat_map g la) fin.
Proof.
  intros A X g nx f fin. induction la as [|a la IH]; intros H1 H2.
  - intros pre x post E. destruct pre; discriminate.
  - cbn [flat_map]. apply links_app.
    + destruct (g a) as [|y r] eqn:Eg; [intros pre x post E; destruct pre; discriminate|]. rewrite <- Eg. rewrite <- (H2 [] a la eq_refl) by congruence. apply H1; [now left|congruence].
    + apply IH; [intros b Hb; apply H1; now right|]. intros pre b post E. apply (H2 (a :: pre)). cbn. now rewrite E.
Qed.
Lemma links_map : forall A X (h : A -> X) f nx fin la, (forall a, In a la -> f (h a) = nx a) ->
  (forall pre a post, la = pre ++ a :: post -> nx a = hd_or (map h post) fin) -> links f (map h la) fin.
Proof.
  intros A X h f nx fin la H1 H2. rewrite <- (app_nil_r (map h la)). change (map h la ++ []) with (map h la ++ []).
  replace (map h la ++ []) with (flat_map (fun a => [h a]) la) by (rewrite app_nil_r; clear; induction la; cbn; congruence).
  apply (links_flat _ _ _ nx).
  - intros a Ha _ pre x post E. destruct pre as [|y pre]; [|destruct pre; discriminate]. injection E as <- <-. now apply H1.
  - intros pre a post E _. rewrite (H2 pre a post E). replace (flat_map (fun a => [h a]) post) with (map h post) by (clear; induction post; cbn; congruence). reflexivity.
Qed.
Lemma seq_at : forall n st pre a post, seq st n = pre ++ a :: post -> st <= a < st + n /\ post = seq (S a) (st + n - S a).
Proof.
  induction n as [|n IH]; intros st pre a post E; [destruct pre; discriminate|]. cbn [seq] in E. destruct pre as [|y pre]; injection E as <- E.
  - subst post. split; [lia|]. f_equal. lia.
  - destruct (IH _ _ _ _ E) as (H & ->). split; [lia|]. f_equal. lia.
Qed.
Lemma map_hd : forall A X (h : A -> X) L, hd_error (map h L) = match hd_error L with Some x => Some (h x) | None => None end.
Proof. intros A X h [|a L]; reflexivity. Qed.
Lemma flat_nil : forall A X (g : A -> list X) L, (forall a, In a L -> g a = []) -> flat_map g L = [].
Proof. intros A X g L H. induction L as [|a L IH]; [reflexivity|]. cbn. rewrite (H a (or_introl eq_refl)). apply IH. intros b Hb. apply H. now right. Qed.

(** *** the places *)
Definition vals (o : option nat) (n : nat) : list nat := match o with None => seq 0 n | Some i => if i <? n then [i] else [] end.
Definition vitems (l : list dmap) (s : slice) (t v : nat) : list desc :=
  let b := nth v l (Complex []) in flat_map (fun k => map (fun p => Desc t v k p) (vals (s_dof s) (per_comp b t))) (vals (s_dim s) (ncomp b)).
Definition items (l : list dmap) (s : slice) (t : nat) : list desc := flat_map (vitems l s t) (vals (s_var s) (length l)).
Definition ditems (l : list dmap) (s : slice) (d : nat) : list desc := flat_map (items l s) (filter (has s) (types_of_dim d)).
Definition lids (m : mesh) (s : slice) (d : nat) : list nat := filter (is_owned m d) (vals (s_lid s) (length (m d))).
Definition eitems (l : list dmap) (m : mesh) (s : slice) (d : nat) : list place := flat_map (fun lid => map (Place d lid) (ditems l s d)) (lids m s d).
Definition places (l : list dmap) (m : mesh) (s : slice) : list place := flat_map (eitems l m s) [0; 1; 2; 3].

Lemma in_vals : forall o n i, In i (vals o n) <-> i < n /\ fits o i.
Proof.
  intros [a|] n i; cbn [vals fits].
  - destruct (a <? n) eqn:E; [apply Nat.ltb_lt in E|apply Nat.ltb_ge in E]; cbn; split; try tauto; try lia.
  - rewrite in_seq. split; [split; [lia|exact I]|lia].
Qed.
Lemma hd_vals : forall o n, hd_error (vals o n) = if any_or o 0 <? n then Some (any_or o 0) else None.
Proof. intros [a|] n; cbn [vals any_or]; [now destruct (a <? n)|now destruct n]. Qed.
Lemma vals_nil : forall o n, any_or o 0 <? n = false -> vals o n = [].
Proof. intros [a|] n; cbn [vals any_or]; [now intros ->|intros H; apply Nat.ltb_ge in H; now replace n with 0 by lia]. Qed.
Lemma vals_at : forall o n pre a post, vals o n = pre ++ a :: post -> a < n /\ match o with None => post = seq (S a) (n - S a) | Some i => a = i /\ post = [] end.
Proof.
  intros [i|] n pre a post E; cbn [vals] in E.
  - destruct (i <? n) eqn:Ei; [|destruct pre; discriminate]. apply Nat.ltb_lt in Ei. destruct pre as [|y pre]; [injection E as <- <-; auto|destruct pre; discriminate].
  - apply seq_at in E. destruct E as (H & ->). split; [lia|reflexivity].
Qed.

Lemma nth_wf' : forall l v, wf (Complex l) -> wf (nth v l (Complex [])).
Proof. intros l v Hw. destruct (nth_error l v) as [b|] eqn:E; [rewrite (nth_error_nth _ _ _ E); eapply nth_wf; eassumption|]. rewrite nth_overflow by now apply nth_error_None. exact I. Qed.
Lemma comp_ok : forall b t, wf b -> t < 6 -> 0 < num_dof b t -> comp_dofs b t = (ncomp b, per_comp b t).
Proof.
  intros b t Hw Ht H. unfold comp_dofs. destruct b as [nd sy|k c|l]; cbn [ncomp per_comp]; try (now rewrite num_dof_cnt).
  rewrite num_dof_cnt in * by assumption. cbn [cnt] in *. f_equal. rewrite Nat.mul_comm. apply Nat.div_mul. intros ->. lia.
Qed.
Lemma hd_vitems : forall l s t v, wf (Complex l) -> t < 6 -> hd_error (vitems l s t v) =
  if (let b := nth v l (Complex []) in if 0 <? num_dof b t then let '(ndim, nd) := comp_dofs b t in negb ((ndim <=? any_or (s_dim s) 0) || (nd <=? any_or (s_dof s) 0)) else false)
  then Some (Desc t v (any_or (s_dim s) 0) (any_or (s_dof s) 0)) else None.
Proof.
  intros l s t v Hw Ht. cbn zeta. unfold vitems. set (b := nth v l (Complex [])). assert (Hb : wf b) by now apply nth_wf'.
  pose proof (num_dof_cnt b t Hb Ht) as En. rewrite cnt_split in En.
  pose proof (hd_vals (s_dim s) (ncomp b)) as H1. pose proof (hd_vals (s_dof s) (per_comp b t)) as H2.
  destruct (any_or (s_dim s) 0 <? ncomp b) eqn:E1; destruct (any_or (s_dof s) 0 <? per_comp b t) eqn:E2.
  - apply Nat.ltb_lt in E1, E2. assert (0 < num_dof b t) by nia. rewrite (proj2 (Nat.ltb_lt _ _)) by assumption. rewrite comp_ok by assumption.
    replace (ncomp b <=? any_or (s_dim s) 0) with false by (symmetry; now apply Nat.leb_gt). replace (per_comp b t <=? any_or (s_dof s) 0) with false by (symmetry; now apply Nat.leb_gt). cbn [orb negb].
    destruct (vals (s_dim s) (ncomp b)) as [|k r]; [discriminate|]. destruct (vals (s_dof s) (per_comp b t)) as [|p q]; [discriminate|]. cbn in *. injection H1 as ->. injection H2 as ->. reflexivity.
  - apply Nat.ltb_ge in E2. rewrite flat_nil.
    + destruct (0 <? num_dof b t) eqn:E0; [|reflexivity]. apply Nat.ltb_lt in E0. rewrite comp_ok by assumption. rewrite (proj2 (Nat.leb_le _ _) E2), orb_true_r. reflexivity.
    + intros k _. rewrite vals_nil; [reflexivity|]. now apply Nat.ltb_ge.
  - apply Nat.ltb_ge in E1. rewrite (vals_nil (s_dim s) (ncomp b)) by now apply Nat.ltb_ge. cbn [flat_map hd_error].
    destruct (0 <? num_dof b t) eqn:E0; [|reflexivity]. apply Nat.ltb_lt in E0. rewrite comp_ok by assumption. rewrite (proj2 (Nat.leb_le _ _) E1). reflexivity.
  - apply Nat.ltb_ge in E1. rewrite (vals_nil (s_dim s) (ncomp b)) by now apply Nat.ltb_ge. cbn [flat_map hd_error].
    destruct (0 <? num_dof b t) eqn:E0; [|reflexivity]. apply Nat.ltb_lt in E0. rewrite comp_ok by assumption. rewrite (proj2 (Nat.leb_le _ _) E1). reflexivity.
Qed.

Section Walk.
Variables (l : list dmap) (m : mesh) (s : slice).
Hypothesis Hw : wf (Complex l).
Hypothesis Hv : forall v, s_var s = Some v -> v < length l.
Let k0 := any_or (s_dim s) 0.
Let p0 := any_or (s_dof s) 0.

Lemma choose_var_ok : forall t st n, t < 6 ->
  match choose_var l t k0 p0 st n with Some v => Some (Desc t v k0 p0) | None => None end = hd_error (flat_map (vitems l s t) (seq st (n - st))).
Proof.
  intros t st n Ht. unfold choose_var. generalize (n - st). intros q. revert st. induction q as [|q IH]; intros st; [reflexivity|].
  cbn [seq find flat_map]. pose proof (hd_vitems l s t st Hw Ht) as H. fold k0 p0 in H. cbv beta. cbn zeta in *.
  destruct (if 0 <? num_dof (nth st l (Complex [])) t then _ else false).
  - destruct (vitems l s t st) as [|y r]; [discriminate|]. cbn in *. congruence.
  - rewrite IH. destruct (vitems l s t st) as [|y r]; [reflexivity|discriminate].
Qed.
Lemma vals_var : vals (s_var s) (length l) = seq (var_first s) (var_last l s - var_first s).
Proof.
  unfold var_first, var_last. destruct (s_var s) as [v|] eqn:E; cbn [vals].
  - rewrite (proj2 (Nat.ltb_lt _ _) (Hv v eq_refl)). now replace (S v - v) with 1 by lia.
  - now rewrite Nat.sub_0_r.
Qed.
Lemma choose_all : forall t, t < 6 -> match choose_var l t k0 p0 (var_first s) (var_last l s) with Some v => Some (Desc t v k0 p0) | None => None end = hd_error (items l s t).
Proof. intros t Ht. unfold items. rewrite vals_var. now apply choose_var_ok. Qed.

(** what an element offers when the search starts with type t *)
Definition from_type (t : nat) : list desc := items l s t ++ (if unoriented t && has s (S t) then items l s (S t) else []).
Lemma choose_on_ok : forall t, t < 6 -> choose_on l s t k0 p0 = hd_error (from_type t).
Proof.
  intros t Ht. unfold choose_on, from_type. pose proof (choose_all t Ht) as H.
  destruct (choose_var l t k0 p0 (var_first s) (var_last l s)) as [v|].
  - destruct (items l s t) as [|y r]; [discriminate|]. cbn in *. exact H.
  - destruct (items l s t) as [|y r]; [|discriminate]. cbn [app].
    destruct (unoriented t && has s (S t)) eqn:E; [|reflexivity]. apply choose_all.
    unfold unoriented in E. apply andb_prop in E. destruct E as [E _]. apply orb_prop in E. destruct E as [E|E]; apply Nat.eqb_eq in E; lia.
Qed.

Lemma leading_deleted : forall (L : list state) i, i < leading L -> nth i L Deleted = Deleted.
Proof. induction L as [|x L IH]; intros i H; [now destruct i|]. destruct x; cbn in H; try lia. destruct i; [reflexivity|]. cbn. apply IH. lia. Qed.
Lemma next_skip : forall d lid i, lid < i < next_lid m d lid -> is_owned m d i = false.
Proof.
  intros d lid i H. unfold is_owned, status. unfold next_lid in H. pose proof (leading_deleted (skipn (S lid) (m d)) (i - S lid) ltac:(lia)) as Q.
  assert (E : nth (i - S lid) (skipn (S lid) (m d)) Deleted = nth i (m d) Deleted).
  { clear -H. rewrite <- (firstn_skipn (S lid) (m d)) at 2. destruct (Nat.le_gt_cases (S lid) (length (m d))) as [Hl|Hl].
    - rewrite app_nth2; rewrite firstn_length, Nat.min_l by assumption; [reflexivity|lia].
    - rewrite skipn_all2, app_nil_r by lia. rewrite firstn_all2 by lia. rewrite (nth_overflow (m d)) by lia. now destruct (i - S lid). }
  rewrite E in Q. now rewrite Q.
Qed.
Lemma filter_seq_skip : forall P a b n, a <= b -> b <= n -> (forall i, a <= i < b -> P i = false) -> filter P (seq a (n - a)) = filter P (seq b (n - b)).
Proof.
  intros P a b n H. induction H as [|b H IH]; intros Hb HP; [reflexivity|]. rewrite IH by (try lia; intros i Hi; apply HP; lia).
  replace (n - b) with (S (n - S b)) by lia. cbn [seq filter]. now rewrite HP by lia.
Qed.
Lemma next_gt : forall d lid, lid < next_lid m d lid.
Proof. intros d lid. unfold next_lid. lia. Qed.
Lemma choose_element_ok : forall d t fuel lid ed, t < 6 -> ed - lid < fuel ->
  choose_element fuel l m s d t k0 p0 lid ed = hd_error (flat_map (fun i => map (Place d i) (from_type t)) (filter (is_owned m d) (seq lid (ed - lid)))).
Proof.
  intros d t fuel. induction fuel as [|f IH]; intros lid ed Ht Hf; [lia|]. cbn [choose_element]. destruct (lid <? ed) eqn:E.
  - apply Nat.ltb_lt in E. destruct (is_owned m d lid) eqn:Eo.
    + rewrite choose_on_ok by assumption. replace (ed - lid) with (S (ed - S lid)) by lia. cbn [seq filter]. rewrite Eo. cbn [flat_map].
      destruct (from_type t) as [|y r] eqn:Ef; [|reflexivity]. cbn [map app hd_error]. now rewrite flat_nil.
    + pose proof (next_gt d lid). assert (Hs : forall i, lid <= i < next_lid m d lid -> is_owned m d i = false) by (intros i Hi; destruct (Nat.eq_dec i lid) as [->|]; [exact Eo|apply (next_skip d lid); lia]).
      destruct (Nat.le_gt_cases ed (next_lid m d lid)) as [Hn|Hn].
      * rewrite IH by lia. replace (ed - next_lid m d lid) with 0 by lia. cbn [seq filter flat_map].
        rewrite (filter_seq_skip _ lid ed ed) by (try lia; intros i Hi; apply Hs; lia). now rewrite Nat.sub_diag.
      * rewrite IH by lia. rewrite (filter_seq_skip _ lid (next_lid m d lid) ed) by (try lia; intros i Hi; apply Hs; lia). reflexivity.
  - apply Nat.ltb_ge in E. now replace (ed - lid) with 0 by lia.
Qed.
End Walk.
