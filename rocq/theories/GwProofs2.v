(** The stages of operator++ *)
From Verif Require Import Prelude DofModel DofSpec DofProofs EnumModel EnumSpec EnumProofs GwModel GwSpec GwProofs.

Lemma map_flat : forall A B C (f : B -> C) (g : A -> list B) L, map f (flat_map g L) = flat_map (fun a => map f (g a)) L.
Proof. intros A B C f g L. induction L as [|a L IH]; [reflexivity|]. cbn. now rewrite map_app, IH. Qed.
Lemma hd_or_map : forall A X (h : A -> X) L o, hd_or (map h L) o = match hd_error L with Some x => Some (h x) | None => o end.
Proof. intros A X h [|a L] o; reflexivity. Qed.

Lemma in_vitems : forall l s t v x, In x (vitems l s t v) <-> let b := nth v l (Complex []) in x_type x = t /\ x_var x = v /\ x_dim x < ncomp b /\ fits (s_dim s) (x_dim x) /\ x_pos x < per_comp b t /\ fits (s_dof s) (x_pos x).
Proof.
  intros l s t v [t' v' k p]. unfold vitems. cbn zeta. rewrite in_flat_map. cbn [x_type x_var x_dim x_pos]. split.
  - intros (k' & Hk & H). apply in_map_iff in H. destruct H as (p' & E & Hp). injection E as -> -> -> ->. apply in_vals in Hk, Hp. tauto.
  - intros (-> & -> & H1 & H2 & H3 & H4). exists k. split; [now apply in_vals|]. apply in_map_iff. exists p. split; [reflexivity|now apply in_vals].
Qed.
Lemma in_items : forall l s t x, t < 6 -> In x (items l s t) <-> valid_desc l x /\ x_type x = t /\ fits (s_var s) (x_var x) /\ fits (s_dim s) (x_dim x) /\ fits (s_dof s) (x_pos x).
Proof.
  intros l s t x Ht. unfold items. rewrite in_flat_map. split.
  - intros (v & Hv & H). apply in_vals in Hv. apply in_vitems in H. cbn zeta in H. destruct H as (E & <- & H). destruct Hv as (Hl & Hf). split; [|tauto]. split; [lia|].
    exists (nth (x_var x) l (Complex [])). split; [now apply nth_error_nth'|]. rewrite E. tauto.
  - intros ((_ & b & Eb & Hc & Hp) & <- & H1 & H2 & H3). destruct (nth_of_error l _ b Eb) as (En & Hl). exists (x_var x). split; [now apply in_vals|]. apply in_vitems. cbn zeta. rewrite En. tauto.
Qed.

Local Arguments has : simpl never.
Local Arguments items : simpl never.
Section Walk.
Variables (l : list dmap) (m : mesh) (s : slice).
Hypothesis Hw : wf (Complex l).
Hypothesis Hv : forall v, s_var s = Some v -> v < length l.
Hypothesis Hs : sound_mask l s.
Local Notation k0 := (any_or (s_dim s) 0).
Local Notation p0 := (any_or (s_dof s) 0).
Local Notation next := (next_by_geom l m s).

Lemma no_items : forall t, t = 1 \/ t = 3 -> has s (S t) = true -> has s t = false -> items l s t = [].
Proof.
  intros t Ht H1 H0. destruct (Hs t Ht H1) as [H|H]; [congruence|]. destruct (items l s t) as [|x r] eqn:E; [reflexivity|]. exfalso.
  assert (Hx : In x (items l s t)) by (rewrite E; now left). apply in_items in Hx; [|lia]. apply (H x); tauto.
Qed.
Definition t_start (d : nat) : nat := if has s (first_type d) then first_type d else match d with 1 => 2 | 2 => 4 | _ => first_type d end.
Lemma from_first : forall d, d < 4 -> dim_mask s d = true -> from_type l s (first_type d) = ditems l s d.
Proof.
  intros d Hd H. unfold from_type, ditems. destruct d as [|[|[|[|d]]]]; [| | | |lia]; cbn -[items has] in *; rewrite ?app_nil_r.
  - rewrite H. cbn -[items has]. now rewrite ?app_nil_r.
  - destruct (has s 1) eqn:E1; destruct (has s 2) eqn:E2; try discriminate; cbn -[items has]; rewrite ?app_nil_r; try reflexivity. now rewrite (no_items 1) by auto.
  - destruct (has s 3) eqn:E1; destruct (has s 4) eqn:E2; try discriminate; cbn -[items has]; rewrite ?app_nil_r; try reflexivity. now rewrite (no_items 3) by auto.
  - rewrite H. cbn -[items has]. now rewrite ?app_nil_r.
Qed.
Lemma from_start : forall d, d < 4 -> dim_mask s d = true -> from_type l s (t_start d) = ditems l s d.
Proof.
  intros d Hd H. unfold t_start. destruct (has s (first_type d)) eqn:E; [now apply from_first|]. unfold from_type, ditems.
  destruct d as [|[|[|[|d]]]]; [| | | |lia]; cbn [first_type nth types_of_dim dim_mask filter] in *; try congruence.
  - rewrite E in *. cbn in H. rewrite H. cbn. now rewrite !app_nil_r.
  - rewrite E in *. cbn in H. rewrite H. cbn. now rewrite !app_nil_r.
Qed.
Lemma no_mask : forall d, d < 4 -> dim_mask s d = false -> ditems l s d = [].
Proof.
  intros d Hd H. unfold ditems. destruct d as [|[|[|[|d]]]]; [| | | |lia]; cbn [nth types_of_dim dim_mask filter] in *; try (rewrite H; reflexivity); apply orb_false_elim in H; destruct H as [-> ->]; reflexivity.
Qed.
Lemma start_lt : forall d, d < 4 -> t_start d < 6 /\ geom_dim (t_start d) = d.
Proof. intros d Hd. unfold t_start. destruct d as [|[|[|[|d]]]]; [| | | |lia]; cbn [first_type nth]; destruct (has s _); cbn; lia. Qed.

Lemma stage_pos : forall d t v k lid, t < 6 -> let b := nth v l (Complex []) in 0 < num_dof b t ->
  links next (map (fun p => Place d lid (Desc t v k p)) (vals (s_dof s) (per_comp b t))) (next_comp l m s d t v k p0 lid (ncomp b)).
Proof.
  intros d t v k lid Ht b Hb. assert (Hwb : wf b) by now apply nth_wf'.
  apply (links_map _ _ _ _ (fun p => match s_dof s with None => if p + 1 <? per_comp b t then Some (Place d lid (Desc t v k (p + 1))) else next_comp l m s d t v k 0 lid (ncomp b) | Some _ => next_comp l m s d t v k p lid (ncomp b) end)).
  - intros p _. unfold next_by_geom. fold b. rewrite comp_ok by assumption. reflexivity.
  - intros pre p post E. apply vals_at in E. destruct E as (Hp & E). destruct (s_dof s) as [i|].
    + destruct E as (-> & ->). reflexivity.
    + subst post. cbn [any_or]. destruct (p + 1 <? per_comp b t) eqn:E1.
      * apply Nat.ltb_lt in E1. replace (per_comp b t - S p) with (S (per_comp b t - S (S p))) by lia. cbn. now rewrite Nat.add_1_r.
      * apply Nat.ltb_ge in E1. replace (per_comp b t - S p) with 0 by lia. reflexivity.
Qed.
Lemma stage_comp : forall d t v lid, t < 6 -> links next (map (Place d lid) (vitems l s t v)) (next_var l m s d t v k0 p0 lid).
Proof.
  intros d t v lid Ht. unfold vitems. set (b := nth v l (Complex [])). assert (Hwb : wf b) by now apply nth_wf'. rewrite map_flat.
  assert (P : forall k, In k (vals (s_dim s) (ncomp b)) -> map (Place d lid) (map (fun p => Desc t v k p) (vals (s_dof s) (per_comp b t))) <> [] -> 0 < num_dof b t).
  { intros k Hk H. rewrite num_dof_cnt, cnt_split by assumption. apply in_vals in Hk. destruct (vals (s_dof s) (per_comp b t)) as [|p q] eqn:E; [now cbn in H|].
    assert (Hp : In p (vals (s_dof s) (per_comp b t))) by (rewrite E; now left). apply in_vals in Hp. nia. }
  apply (links_flat _ _ _ (fun k => next_comp l m s d t v k p0 lid (ncomp b))).
  - intros k Hk H. rewrite map_map. apply stage_pos; [assumption|]. now apply (P k).
  - intros pre k post E H. assert (Hk : In k (vals (s_dim s) (ncomp b))) by (rewrite E; apply in_elt). apply vals_at in E. destruct E as (Hkn & E). unfold next_comp. destruct (s_dim s) as [i|] eqn:Ed.
    + destruct E as (-> & ->). reflexivity.
    + subst post. cbn [any_or]. destruct (k + 1 <? ncomp b) eqn:E1.
      * apply Nat.ltb_lt in E1. replace (ncomp b - S k) with (S (ncomp b - S (S k))) by lia. cbn [seq flat_map]. rewrite hd_or_app, map_map, hd_or_map, hd_vals.
        destruct (p0 <? per_comp b t) eqn:E2; [now rewrite Nat.add_1_r|]. exfalso. apply H. now rewrite vals_nil.
      * apply Nat.ltb_ge in E1. replace (ncomp b - S k) with 0 by lia. reflexivity.
Qed.
Lemma stage_var : forall d t lid, t < 6 -> links next (map (Place d lid) (items l s t)) (next_type l m s d t k0 p0 lid).
Proof.
  intros d t lid Ht. unfold items. rewrite map_flat. apply (links_flat _ _ _ (fun v => next_var l m s d t v k0 p0 lid)).
  - intros v _ _. now apply stage_comp.
  - intros pre v post E _. apply vals_at in E. destruct E as (Hvl & E). unfold next_var. destruct (s_var s) as [i|].
    + destruct E as (-> & ->). reflexivity.
    + subst post. rewrite <- map_flat, hd_or_map, <- (choose_var_ok l s Hw) by assumption. now destruct (choose_var l t k0 p0 (S v) (length l)).
Qed.
Lemma types_at : forall d pre t post, d < 4 -> filter (has s) (types_of_dim d) = pre ++ t :: post -> t < 6 /\ has s t = true /\
  ((t = first_type d /\ post = if unoriented t && has s (S t) then [S t] else []) \/ (t = S (first_type d) /\ oriented t = true /\ post = [])).
Proof.
  intros d pre t post Hd E. destruct d as [|[|[|[|d]]]]; [| | | |lia]; cbn [types_of_dim nth filter] in E.
  - destruct (has s 0) eqn:E0; [|destruct pre; discriminate]. destruct pre as [|? pre]; [|destruct pre; discriminate]. injection E as <- <-. cbn. auto.
  - destruct (has s 1) eqn:E1; destruct (has s 2) eqn:E2; destruct pre as [|a [|a' [|a'' pre]]]; try discriminate; injection E; intros; subst; cbn; rewrite ?E1, ?E2; split; try lia; split; auto.
  - destruct (has s 3) eqn:E1; destruct (has s 4) eqn:E2; destruct pre as [|a [|a' [|a'' pre]]]; try discriminate; injection E; intros; subst; cbn; rewrite ?E1, ?E2; split; try lia; split; auto.
  - destruct (has s 5) eqn:E0; [|destruct pre; discriminate]. destruct pre as [|? pre]; [|destruct pre; discriminate]. injection E as <- <-. cbn. auto.
Qed.
Lemma stage_type : forall d lid, d < 4 -> links next (map (Place d lid) (ditems l s d)) (next_elem l m s d (t_start d) k0 p0 lid).
Proof.
  intros d lid Hd. unfold ditems. rewrite map_flat. apply (links_flat _ _ _ (fun t => next_type l m s d t k0 p0 lid)).
  - intros t Ht _. apply filter_In in Ht. apply stage_var. destruct Ht as [Ht _]. destruct d as [|[|[|[|d]]]]; [| | | |lia]; cbn in Ht; intuition lia.
  - intros pre t post E _. destruct (types_at d pre t post Hd E) as (Ht & Hh & [(E1 & ->)|(E1 & Ho & ->)]); unfold next_type.
    + destruct (unoriented t && has s (S t)) eqn:Eu.
      * assert (Ht' : S t < 6) by (unfold unoriented in Eu; apply andb_prop in Eu; destruct Eu as [Eu _]; apply orb_prop in Eu; destruct Eu as [Eu|Eu]; apply Nat.eqb_eq in Eu; lia).
        cbn [flat_map]. rewrite app_nil_r, hd_or_map, <- (choose_all l s Hw Hv) by assumption. destruct (choose_var l (S t) k0 p0 (var_first s) (var_last l s)); [reflexivity|].
        assert (Eo : oriented (S t) = true) by (unfold oriented, unoriented in *; apply andb_prop in Eu; destruct Eu as [Eu _]; apply orb_prop in Eu; destruct Eu as [Eu|Eu]; apply Nat.eqb_eq in Eu; rewrite Eu; reflexivity).
        rewrite Eo. replace (S t - 1) with t by lia. rewrite Hh. cbn [andb hd_or]. unfold t_start. rewrite <- E1, Hh. reflexivity.
      * cbn [flat_map hd_or]. assert (Eo : oriented t && has s (t - 1) = false).
        { rewrite E1. destruct d as [|[|[|[|d]]]]; [| | | |lia]; reflexivity. }
        rewrite Eo. unfold t_start. rewrite <- E1, Hh. reflexivity.
    + assert (Eu : unoriented t = false) by (unfold oriented, unoriented in *; apply orb_prop in Ho; destruct Ho as [Ho|Ho]; apply Nat.eqb_eq in Ho; rewrite Ho; reflexivity).
      rewrite Eu. cbn [andb flat_map hd_or]. rewrite Ho. cbn [andb]. replace (t - 1) with (first_type d) by lia. unfold t_start. destruct (has s (first_type d)); [reflexivity|].
      unfold oriented in Ho. destruct d as [|[|[|[|d]]]]; [| | | |lia]; cbn in *; subst t; try discriminate; reflexivity.
Qed.
End Walk.
