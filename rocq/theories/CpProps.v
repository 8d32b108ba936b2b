(** C63: copies of degrees of freedom between vectors and tags *)
From Coq Require Import Permutation.
From Verif Require Import Prelude DofModel DofSpec DofProofs EnumModel EnumSpec EnumProofs EnumProofs2 EnumProps GwModel GwSpec GwProofs GwProofs2 GwProofs3 CpModel CpSpec CpProofs CpProofs2.

Section Geom.
Variables (A : Type) (l : list dmap) (m : mesh) (idx : place -> option nat) (b e : nat).
Hypothesis Hw : wf (Complex l).
Hypothesis He : enumerates l m idx b e.
Let vc (x : place) : list nat := match idx x with Some n => [n] | None => [] end.
Let uc (x : place) : list nat := [p_dim x; p_lid x; local_id l (p_desc x)].
Let sc (x : place) : list nat := [p_dim x; p_lid x; vpos l (p_desc x)].
Let tc (x : place) : list nat := x_var (p_desc x) :: sc x.
Lemma vc_iff : forall x a, own_dof l m x -> vec_cell idx x a <-> a = vc x.
Proof. intros x a Hx. destruct He as (H1 & _). destruct (H1 x Hx) as (n & En & _). unfold vec_cell, vc. rewrite En. split; [intros (k & Ek & ->); now injection Ek as ->|intros ->; eauto]. Qed.
Lemma vc_inj : forall x y, own_dof l m x -> own_dof l m y -> vc x = vc y -> x = y.
Proof. intros x y Hx Hy E. destruct He as (H1 & H2 & _). destruct (H1 x Hx) as (n & En & _), (H1 y Hy) as (k & Ek & _). unfold vc in E. rewrite En, Ek in E. injection E as ->. now apply (H2 x y k). Qed.
Lemma uc_iff : forall x a, own_dof l m x -> union_cell l x a <-> a = uc x.
Proof. intros x a (Hx & _). now apply (union_cell_iff l m). Qed.
Lemma uc_inj : forall x y, own_dof l m x -> own_dof l m y -> uc x = uc y -> x = y.
Proof. intros x y Hx Hy E. apply (union_inj l m x y (uc x) Hw (proj1 Hx) (proj1 Hy)); [now apply uc_iff|apply uc_iff; [exact Hy|exact E]]. Qed.
Lemma sc_iff : forall x a, own_dof l m x -> var_cell l x a <-> a = sc x.
Proof. intros x a (Hx & _). now apply (var_cell_iff l m). Qed.
Lemma tc_iff : forall x a, own_dof l m x -> tags_cell l x a <-> a = tc x.
Proof. intros x a (Hx & _). now apply (tags_cell_iff l m). Qed.
Lemma tc_inj : forall x y, own_dof l m x -> own_dof l m y -> tc x = tc y -> x = y.
Proof. intros x y Hx Hy E. apply (tags_inj l x y (tc x)); [now apply tc_iff|apply tc_iff; [exact Hy|exact E]]. Qed.
Lemma fd : forall x, own_dof l m x -> full_desc l (p_desc x) = Some (ext_of l (p_desc x)) /\ exists n, idx x = Some n.
Proof. intros x Hx. destruct He as (H1 & _). destruct (H1 x Hx) as (n & En & _). split; [apply full_desc_ok; [exact Hw|apply Hx]|eauto]. Qed.
Lemma interval_room : forall (junk : nat -> A), room (own_dof l m) (vec_cell idx) (interval b e junk).
Proof. intros junk x a Hx (n & En & ->). destruct He as (H1 & _). destruct (H1 x Hx) as (k & Ek & Hk). rewrite En in Ek. injection Ek as <-. unfold interval. rewrite (proj2 (Nat.leb_le _ _)), (proj2 (Nat.ltb_lt _ _)) by lia. discriminate. Qed.
Lemma no_var : forall v, s_var everything = Some v -> v < length l. Proof. discriminate. Qed.

Lemma v2t : forall from to : mem A, room (own_dof l m) (vec_cell idx) from -> room (own_dof l m) (union_cell l) to ->
  exists to', (exists n, forall fuel, n <= fuel -> vec_to_tag idx l m fuel from to = Some to') /\ copied (own_dof l m) (vec_cell idx) (union_cell l) from to to'.
Proof.
  intros from to R1 R2. apply (geom_copy A l m everything (own_dof l m) _ _ from to _ vc uc Hw no_var eq_refl (own_selected l m)); auto using vc_iff, uc_iff, uc_inj.
  intros x to0 Hx. destruct (fd x Hx) as (-> & n & En). unfold vc, uc. rewrite En. cbn [obind]. now rewrite elem_id_tpos.
Qed.
Lemma t2v : forall (junk : nat -> A) from, room (own_dof l m) (union_cell l) from ->
  exists to', (exists n, forall fuel, n <= fuel -> tag_to_vec idx l m fuel b e junk from = Some to') /\ copied (own_dof l m) (union_cell l) (vec_cell idx) from (interval b e junk) to'.
Proof.
  intros junk from R1. apply (geom_copy A l m everything (own_dof l m) _ _ from (interval b e junk) _ uc vc Hw no_var eq_refl (own_selected l m)); auto using vc_iff, uc_iff, vc_inj, interval_room.
  intros x to0 Hx. destruct (fd x Hx) as (-> & n & En). unfold vc, uc. rewrite En. cbn [obind]. now rewrite elem_id_tpos.
Qed.
Lemma v2ts : forall from to : mem A, room (own_dof l m) (vec_cell idx) from -> room (own_dof l m) (tags_cell l) to ->
  exists to', (exists n, forall fuel, n <= fuel -> vec_to_tags idx l m fuel from to = Some to') /\ copied (own_dof l m) (vec_cell idx) (tags_cell l) from to to'.
Proof.
  intros from to R1 R2. apply (geom_copy A l m everything (own_dof l m) _ _ from to _ vc tc Hw no_var eq_refl (own_selected l m)); auto using vc_iff, tc_iff, tc_inj.
  intros x to0 Hx. destruct (fd x Hx) as (-> & n & En). unfold vc, tc, sc. rewrite En. cbn [obind]. now rewrite single_id_vpos.
Qed.
Lemma ts2v : forall (junk : nat -> A) from, room (own_dof l m) (tags_cell l) from ->
  exists to', (exists n, forall fuel, n <= fuel -> tags_to_vec idx l m fuel b e junk from = Some to') /\ copied (own_dof l m) (tags_cell l) (vec_cell idx) from (interval b e junk) to'.
Proof.
  intros junk from R1. apply (geom_copy A l m everything (own_dof l m) _ _ from (interval b e junk) _ tc vc Hw no_var eq_refl (own_selected l m)); auto using vc_iff, tc_iff, vc_inj, interval_room.
  intros x to0 Hx. destruct (fd x Hx) as (-> & n & En). unfold vc, tc, sc. rewrite En. cbn [obind]. now rewrite single_id_vpos.
Qed.
Lemma v2s : forall v (from to : mem A), v < length l -> let P := fun x => own_dof l m x /\ x_var (p_desc x) = v in room P (vec_cell idx) from -> room P (var_cell l) to ->
  exists to', (exists n, forall fuel, n <= fuel -> vec_to_var idx l m fuel v from to = Some to') /\ copied P (vec_cell idx) (var_cell l) from to to'.
Proof.
  intros v from to Hv P R1 R2. unfold vec_to_var. destruct (nth_error l v) as [d|] eqn:Ed; [|apply nth_error_None in Ed; lia]. cbn [obind].
  apply (geom_copy A l m (Slice (Some v) None None 63 None) P _ _ from to _ vc sc Hw); auto.
  - cbn. intros w E. now injection E as <-.
  - intros x. apply own_selected_var.
  - intros x to0 (Hx & _). destruct (fd x Hx) as (-> & n & En). unfold vc, sc. rewrite En. cbn [obind]. now rewrite single_id_vpos.
  - intros x a (Hx & _). now apply vc_iff.
  - intros x a (Hx & _). now apply sc_iff.
  - intros x y (Hx & Ex) (Hy & Ey) E. apply (var_inj l x y (sc x)); [congruence|now apply sc_iff|apply sc_iff; [exact Hy|exact E]].
Qed.
End Geom.

(** The four copies between a vector and tags: every owned dof is copied between its unknown and its cell, nothing else changes *)
Theorem C63_vec_to_tag : forall A l m idx b e (from to : mem A), wf (Complex l) -> enumerates l m idx b e -> room (own_dof l m) (vec_cell idx) from -> room (own_dof l m) (union_cell l) to ->
  exists to', (exists n, forall fuel, n <= fuel -> vec_to_tag idx l m fuel from to = Some to') /\ copied (own_dof l m) (vec_cell idx) (union_cell l) from to to'.
Proof. intros. eapply v2t; eassumption. Qed.
Print Assumptions C63_vec_to_tag.
Theorem C63_tag_to_vec : forall A l m idx b e (junk : nat -> A) from, wf (Complex l) -> enumerates l m idx b e -> room (own_dof l m) (union_cell l) from ->
  exists to', (exists n, forall fuel, n <= fuel -> tag_to_vec idx l m fuel b e junk from = Some to') /\ copied (own_dof l m) (union_cell l) (vec_cell idx) from (interval b e junk) to'.
Proof. intros. now apply t2v. Qed.
Print Assumptions C63_tag_to_vec.
Theorem C63_vec_to_tags : forall A l m idx b e (from to : mem A), wf (Complex l) -> enumerates l m idx b e -> room (own_dof l m) (vec_cell idx) from -> room (own_dof l m) (tags_cell l) to ->
  exists to', (exists n, forall fuel, n <= fuel -> vec_to_tags idx l m fuel from to = Some to') /\ copied (own_dof l m) (vec_cell idx) (tags_cell l) from to to'.
Proof. intros. eapply v2ts; eassumption. Qed.
Print Assumptions C63_vec_to_tags.
Theorem C63_tags_to_vec : forall A l m idx b e (junk : nat -> A) from, wf (Complex l) -> enumerates l m idx b e -> room (own_dof l m) (tags_cell l) from ->
  exists to', (exists n, forall fuel, n <= fuel -> tags_to_vec idx l m fuel b e junk from = Some to') /\ copied (own_dof l m) (tags_cell l) (vec_cell idx) from (interval b e junk) to'.
Proof. intros. now apply ts2v. Qed.
Print Assumptions C63_tags_to_vec.
(** the same for one variable *)
Theorem C63_vec_to_var : forall A l m idx b e v (from to : mem A), wf (Complex l) -> enumerates l m idx b e -> v < length l -> let P := fun x => own_dof l m x /\ x_var (p_desc x) = v in
  room P (vec_cell idx) from -> room P (var_cell l) to ->
  exists to', (exists n, forall fuel, n <= fuel -> vec_to_var idx l m fuel v from to = Some to') /\ copied P (vec_cell idx) (var_cell l) from to to'.
Proof. intros. eapply v2s; eassumption. Qed.
Print Assumptions C63_vec_to_var.

(** A vector copied to a tag, or to the tags of the variables, and back is the same vector, whatever was in the memory *)
Theorem C63_vec_round_trip : forall A l m idx b e (v to tos : mem A) junk, wf (Complex l) -> enumerates l m idx b e -> (forall a, v a <> None <-> exists n, a = [n] /\ b <= n < e) ->
  room (own_dof l m) (union_cell l) to -> room (own_dof l m) (tags_cell l) tos -> exists n, forall fuel, n <= fuel ->
  (exists t w, vec_to_tag idx l m fuel v to = Some t /\ tag_to_vec idx l m fuel b e junk t = Some w /\ forall a, w a = v a) /\
  (exists t w, vec_to_tags idx l m fuel v tos = Some t /\ tags_to_vec idx l m fuel b e junk t = Some w /\ forall a, w a = v a).
Proof.
  intros A l m idx b e v to tos junk Hw He Hv R1 R2. pose proof He as (E1 & E2 & E3).
  assert (Rv : room (own_dof l m) (vec_cell idx) v) by (intros x a Hx (n & En & ->); apply Hv; exists n; split; [reflexivity|]; destruct (E1 x Hx) as (k & Ek & Hk); congruence).
  assert (G : forall (c : place -> list nat -> Prop) to t w, (forall x, own_dof l m x -> exists a, c x a) -> copied (own_dof l m) (vec_cell idx) c v to t -> copied (own_dof l m) c (vec_cell idx) t (interval b e junk) w -> forall a, w a = v a).
  { intros c to0 t w Hc (C1 & _) (C2 & K2) a. destruct (v a) as [z|] eqn:Ea.
    - destruct (proj1 (Hv a)) as (n & -> & Hn); [congruence|]. destruct (E3 n Hn) as (x & Hx & En). destruct (Hc x Hx) as (ca & Hca). rewrite (C2 x ca [n] Hx Hca) by (exists n; auto). rewrite (C1 x [n] ca Hx) by (assumption || (exists n; auto)). exact Ea.
    - assert (N : forall n, a = [n] -> ~ b <= n < e) by (intros n -> Hn; apply (proj2 (Hv [n])); [eauto|exact Ea]).
      rewrite K2.
      + destruct a as [|n [|k a]]; cbn [interval]; try reflexivity. destruct (b <=? n) eqn:E4; [|reflexivity]. destruct (n <? e) eqn:E5; [|reflexivity]. apply Nat.leb_le in E4. apply Nat.ltb_lt in E5. exfalso. apply (N n eq_refl). lia.
      + intros x Hx (n & En & ->). destruct (E1 x Hx) as (k & Ek & Hk). apply (N n eq_refl). congruence. }
  destruct (v2t A l m idx b e Hw He v to Rv R1) as (t & (n1 & F1) & C1).
  destruct (t2v A l m idx b e Hw He junk t) as (w & (n2 & F2) & C2).
  { intros x a Hx Ha. destruct (E1 x Hx) as (k & Ek & _). rewrite (proj1 C1 x [k] a Hx) by (assumption || (exists k; auto)). apply (Rv x); [exact Hx|exists k; auto]. }
  destruct (v2ts A l m idx b e Hw He v tos Rv R2) as (t' & (n3 & F3) & C3).
  destruct (ts2v A l m idx b e Hw He junk t') as (w' & (n4 & F4) & C4).
  { intros x a Hx Ha. destruct (E1 x Hx) as (k & Ek & _). rewrite (proj1 C3 x [k] a Hx) by (assumption || (exists k; auto)). apply (Rv x); [exact Hx|exists k; auto]. }
  exists (n1 + n2 + n3 + n4). intros fuel Hf. split.
  - exists t, w. split; [apply F1; lia|]. split; [apply F2; lia|]. apply (G (union_cell l) to t w); try assumption. intros x Hx. eexists. apply (union_cell_iff l m); [exact Hw|apply Hx|reflexivity].
  - exists t', w'. split; [apply F3; lia|]. split; [apply F4; lia|]. apply (G (tags_cell l) tos t' w'); try assumption. intros x Hx. eexists. apply (tags_cell_iff l m); [apply Hx|reflexivity].
Qed.
Print Assumptions C63_vec_round_trip.

(** Tag to tag of the same layout, also for elements of other processes *)
Theorem C63_tag_to_tag : forall A l m (from to : mem A), wf (Complex l) -> room (dof_of l m) (union_cell l) from -> room (dof_of l m) (union_cell l) to ->
  exists to', tag_to_tag l m from to = Some to' /\ copied (dof_of l m) (union_cell l) (union_cell l) from to to'.
Proof.
  intros A l m from to Hw R1 R2. unfold tag_to_tag. apply (cells_copy A m (Complex l) (dof_of l m) (descs l)); try assumption.
  - intros d Hd. rewrite length_descs, i_nd_cnt, nd_cnt by assumption. reflexivity.
  - intros x. unfold dof_of. split; intros (H1 & H2 & H3 & H4).
    + split; [exact H1|]. split; [exact H2|]. split; [exact H3|]. now apply in_descs.
    + apply in_descs in H4; tauto.
  - intros x a _. reflexivity.
  - intros x a a' Hx Ha Ha'. apply (union_cell_iff l m) in Ha, Ha'; try assumption. congruence.
Qed.
Print Assumptions C63_tag_to_tag.
Theorem C63_var_to_var : forall A l m v (from to : mem A), wf (Complex l) -> v < length l -> let P := fun x => dof_of l m x /\ x_var (p_desc x) = v in
  room P (var_cell l) from -> room P (var_cell l) to -> exists to', var_to_var l m v from to = Some to' /\ copied P (var_cell l) (var_cell l) from to to'.
Proof.
  intros A l m v from to Hw Hv P R1 R2. unfold var_to_var. destruct (nth_error l v) as [d|] eqn:Ed; [|apply nth_error_None in Ed; lia]. cbn [obind]. destruct (nth_of_error l v d Ed) as (En & _).
  apply (cells_copy A m d P (descs_var l v)); try assumption.
  - intros k Hk. rewrite length_descs_var, En. symmetry. apply nd_cnt; [eapply nth_wf; eassumption|exact Hk].
  - intros x. unfold P, dof_of. split.
    + intros ((H1 & H2 & H3 & H4 & H5) & H6). split; [exact H1|]. split; [exact H2|]. split; [exact H3|]. pose proof (descs_var_at l _ H4) as Q. rewrite H5, H6 in Q. now apply nth_error_In in Q.
    + intros (H1 & H2 & H3 & H4). apply in_descs_var in H4; tauto.
  - intros x a (_ & Ex). unfold var_cell. rewrite Ex. reflexivity.
  - intros x a a' (Hx & _) Ha Ha'. apply (var_cell_iff l m) in Ha, Ha'; try assumption. congruence.
Qed.
Print Assumptions C63_var_to_var.

(** Between the common tag and the tags of the variables *)
Lemma all_vars : forall l m x, dof_of l m x <-> dof_of l m x /\ In (x_var (p_desc x)) (seq 0 (length l)).
Proof. intros l m x. split; [|tauto]. intros H. split; [exact H|]. apply in_seq. split; [lia|]. apply var_lt, H. Qed.
Theorem C63_tag_to_tags_partial : forall A l m (from to : mem A), wf (Complex l) -> small_shifts l -> room (dof_of l m) (union_cell l) from -> room (dof_of l m) (tags_cell l) to ->
  exists to', tag_to_tags l m from to = Some to' /\ copied (dof_of l m) (union_cell l) (tags_cell l) from to to'.
Proof.
  intros A l m from to Hw Hs R1 R2. unfold tag_to_tags. rewrite (each_tuples _ l _ _ (fun d i v a b to => copy from [d; i; a] to [v; d; i; b])).
  apply (tuples_copy A l m Hw Hs (Complex l) (seq 0 (length l)) (dof_of l m) (tags_cell l) (fun v d i k => [v; d; i; k])); try assumption.
  - intros v Hv. apply in_seq in Hv. lia.
  - apply all_vars.
  - intros x Hx. apply cnt_desc, Hx.
  - intros x a Hx. now apply (tags_cell_iff l m).
  - intros x y a _ _. apply tags_inj.
Qed.
Print Assumptions C63_tag_to_tags_partial.
Theorem C63_tags_to_tag_partial : forall A l m (from to : mem A), wf (Complex l) -> small_shifts l -> room (dof_of l m) (tags_cell l) from -> room (dof_of l m) (union_cell l) to ->
  exists to', tags_to_tag l m from to = Some to' /\ copied (dof_of l m) (tags_cell l) (union_cell l) from to to'.
Proof.
  intros A l m from to Hw Hs R1 R2. unfold tags_to_tag. rewrite (each_tuples _ l _ _ (fun d i v a b to => copy from [v; d; i; b] to [d; i; a])).
  apply (tuples_copy A l m Hw Hs (Complex l) (seq 0 (length l)) (dof_of l m) (tags_cell l) (fun v d i k => [v; d; i; k])); try assumption.
  - intros v Hv. apply in_seq in Hv. lia.
  - apply all_vars.
  - intros x Hx. apply cnt_desc, Hx.
  - intros x a Hx. now apply (tags_cell_iff l m).
  - intros x y a _ _. apply tags_inj.
Qed.
Print Assumptions C63_tags_to_tag_partial.
Lemma each_one : forall X M (f : X -> M -> option M) v m, each [v] f m = f v m.
Proof. intros X M f v m. cbn. now destruct (f v m). Qed.
Theorem C63_tag_to_var_partial : forall A l m v (from to : mem A), wf (Complex l) -> small_shifts l -> v < length l -> let P := fun x => dof_of l m x /\ x_var (p_desc x) = v in
  room P (union_cell l) from -> room P (var_cell l) to -> exists to', tag_to_var l m v from to = Some to' /\ copied P (union_cell l) (var_cell l) from to to'.
Proof.
  intros A l m v from to Hw Hs Hv P R1 R2. unfold tag_to_var. destruct (nth_error l v) as [d|] eqn:Ed; [|apply nth_error_None in Ed; lia]. cbn [obind]. destruct (nth_of_error l v d Ed) as (En & _).
  rewrite (each_ext _ _ _ _ (fun '(d, i) => each (types_from d) (fun t => each [v] (fun v => per_dof l d t v (fun a b to => copy from [d; i; a] to [d; i; b]))))) by (intros [d' i'] to0 _; apply each_ext; intros; now rewrite each_one).
  rewrite (each_tuples _ l _ _ (fun d i v a b to => copy from [d; i; a] to [d; i; b])).
  apply (tuples_copy A l m Hw Hs d [v] P (var_cell l) (fun v d i k => [d; i; k])); try assumption.
  - eapply nth_wf; eassumption.
  - intros w [<-|[]]. exact Hv.
  - intros x. unfold P. cbn. intuition congruence.
  - intros x (Hx & Ex). rewrite <- En, <- Ex. apply cnt_desc, Hx.
  - intros x a (Hx & _). now apply (var_cell_iff l m).
  - intros x y a (_ & Ex) (_ & Ey). apply var_inj. congruence.
Qed.
Print Assumptions C63_tag_to_var_partial.
Theorem C63_var_to_tag_partial : forall A l m v (from to : mem A), wf (Complex l) -> small_shifts l -> v < length l -> let P := fun x => dof_of l m x /\ x_var (p_desc x) = v in
  room P (var_cell l) from -> room P (union_cell l) to -> exists to', var_to_tag l m v from to = Some to' /\ copied P (var_cell l) (union_cell l) from to to'.
Proof.
  intros A l m v from to Hw Hs Hv P R1 R2. unfold var_to_tag. destruct (nth_error l v) as [d|] eqn:Ed; [|apply nth_error_None in Ed; lia]. cbn [obind]. destruct (nth_of_error l v d Ed) as (En & _).
  rewrite (each_ext _ _ _ _ (fun '(d, i) => each (types_from d) (fun t => each [v] (fun v => per_dof l d t v (fun a b to => copy from [d; i; b] to [d; i; a]))))) by (intros [d' i'] to0 _; apply each_ext; intros; now rewrite each_one).
  rewrite (each_tuples _ l _ _ (fun d i v a b to => copy from [d; i; b] to [d; i; a])).
  apply (tuples_copy A l m Hw Hs d [v] P (var_cell l) (fun v d i k => [d; i; k])); try assumption.
  - eapply nth_wf; eassumption.
  - intros w [<-|[]]. exact Hv.
  - intros x. unfold P. cbn. intuition congruence.
  - intros x (Hx & Ex). rewrite <- En, <- Ex. apply cnt_desc, Hx.
  - intros x a (Hx & _). now apply (var_cell_iff l m).
  - intros x y a (_ & Ex) (_ & Ey). apply var_inj. congruence.
Qed.
Print Assumptions C63_var_to_tag_partial.
(** The common tag taken apart and put together again *)
Theorem C63_tags_round_trip_partial : forall A l m (t to back : mem A), wf (Complex l) -> small_shifts l -> room (dof_of l m) (union_cell l) t -> room (dof_of l m) (tags_cell l) to -> room (dof_of l m) (union_cell l) back ->
  exists ts t', tag_to_tags l m t to = Some ts /\ tags_to_tag l m ts back = Some t' /\ forall x a, dof_of l m x -> union_cell l x a -> t' a = t a.
Proof.
  intros A l m t to back Hw Hs R1 R2 R3. destruct (C63_tag_to_tags_partial A l m t to Hw Hs R1 R2) as (ts & E1 & C1 & _).
  assert (Q : forall x, dof_of l m x -> exists a c, union_cell l x a /\ tags_cell l x c) by (intros x Hx; do 2 eexists; split; [apply (union_cell_iff l m); [exact Hw|exact Hx|reflexivity]|apply (tags_cell_iff l m); [exact Hx|reflexivity]]).
  destruct (C63_tags_to_tag_partial A l m ts back Hw Hs) as (t' & E2 & C2 & _); [|exact R3|].
  - intros x c Hx Hc. destruct (Q x Hx) as (a & _ & Ha & _). rewrite (C1 x a c Hx Ha Hc). now apply (R1 x).
  - exists ts, t'. split; [exact E1|]. split; [exact E2|]. intros x a Hx Ha. destruct (Q x Hx) as (_ & c & _ & Hc). rewrite (C2 x c a Hx Hc Ha). now apply C1 with (x := x).
Qed.
Print Assumptions C63_tags_round_trip_partial.

(** Refuted: a variable with 256 or more unoriented and some oriented dofs on an edge; its last dof on every edge is not copied *)
Theorem C63_shift_refuted : forall l m v b i, wf (Complex l) -> nth_error l v = Some b -> 256 <= cnt b 1 -> 0 < cnt b 2 -> i < length (m 1) -> status m 1 i <> Deleted ->
  exists (from to to' : mem nat) x a c, tag_to_tags l m from to = Some to' /\ dof_of l m x /\ union_cell l x a /\ tags_cell l x c /\ to' c = to c /\ to' c <> from a.
Proof.
  intros l m v b i Hw Eb H1 H2 Hi Hs. destruct (nth_of_error l v b Eb) as (En & Hv). destruct (dtype_desc l 2 v (cnt b 2 - 1)) as (y & Hy & Ty & Vy & Ky); [lia|exact Hv|rewrite En; lia|].
  set (x := Place 1 i y). assert (Hx : dof_of l m x) by (unfold dof_of, x; cbn [p_dim p_lid p_desc]; rewrite Ty; repeat split; try assumption; try lia; apply Hy).
  set (c := [v; 1; i; vpos l y]). assert (Hc : tags_cell l x c) by (apply (tags_cell_iff l m); [exact Hx|]; cbn [x p_dim p_lid p_desc]; now rewrite Vy).
  set (a := [1; i; local_id l y]). assert (Ha : union_cell l x a) by (apply (union_cell_iff l m); [exact Hw|exact Hx|reflexivity]).
  pose (from := (fun _ => Some 0) : mem nat). pose (to := (fun _ => Some 1) : mem nat).
  pose (src := fun '((d, i), (t, (v, k))) => [d; i; tshift l d t + var_shift l t v + k] : list nat). pose (dst := fun '((d, i), (t, (v, k))) => [v; d; i; k + tvshift l d t v] : list nat).
  destruct (each_total _ nat from src dst (tuples l (elements m (Complex l)) (seq 0 (length l))) to) as (to' & E); [discriminate..|].
  assert (K : to' c = to c).
  { apply (each_keep _ _ _ _ _ _ _ _ c E). intros [[d j] [t [w k]]] Hin Ed. apply in_tuples in Hin. destruct Hin as (He & Ht & Hw' & Hk). cbn [dst] in Ed. unfold c in Ed. injection Ed as E1 E2 E3 E4. subst w d j.
    apply types_from_iff in Ht; [|lia]. destruct Ht as (Ht & Hg). rewrite shift_diff, En in Hk by assumption.
    assert (V : vpos l y = cnt b 1 + (cnt b 2 - 1)) by (unfold vpos; rewrite Ty, Vy, En in *; cbn [is_oriented Nat.eqb orb Nat.sub]; rewrite <- Ky, Nat.add_assoc; reflexivity). rewrite V in E4.
    destruct t as [|[|[|[|[|[|t]]]]]]; cbn in Hg; try lia; clear Hg.
    - assert (Z : tvshift l 1 1 v = 0) by reflexivity. rewrite Z in E4. lia.
    - assert (Z : tvshift l 1 2 v < 256) by (unfold tvshift, uchar; cbn [lookup nth Nat.sub seq fold_left]; apply Nat.mod_upper_bound; discriminate). lia. }
  exists from, to, to', x, a, c. split.
  - unfold tag_to_tags. rewrite (each_tuples _ l _ _ (fun d i v a b to => copy from [d; i; a] to [v; d; i; b])). rewrite <- E. apply each_ext. intros [[d j] [t [w k]]] m0 _. reflexivity.
  - split; [exact Hx|]. split; [exact Ha|]. split; [exact Hc|]. split; [exact K|]. rewrite K. discriminate.
Qed.
Print Assumptions C63_shift_refuted.
Example C63_many : wf (Complex [Unite [0; 256; 1; 0; 0; 0] None]) /\ 256 <= cnt (Unite [0; 256; 1; 0; 0; 0] None) 1.
Proof. split; [cbn; tauto|]. apply le_n. Qed.

(** The enumeration of type ANITYPE (C17) with consecutive GlobalIDs of the owned elements is such an enumeration *)
Definition owned_lids (m : mesh) (d : nat) : list nat := filter (is_owned m d) (seq 0 (length (m d))).
Theorem C63_anitype : forall l m total (gid : nat -> nat -> nat), wf (Complex l) -> let gids := fun d => map (gid d) (owned_lids m d) in consecutive gids -> let r := setup_rank l total gids in
  enumerates l m (fun x => simple_index ANITYPE l r (p_dim x) (gid (p_dim x) (p_lid x)) (p_desc x)) (r_begind r) (r_endind r).
Proof.
  intros l m total gid Hw gids Hc r.
  assert (Hin : forall x, own_dof l m x -> In (p_lid x) (owned_lids m (p_dim x)) /\ In (gid (p_dim x) (p_lid x)) (gids (p_dim x))).
  { intros x ((Hd & Hi & _) & Ho). assert (Q : In (p_lid x) (owned_lids m (p_dim x))) by (apply filter_In; split; [apply in_seq; lia|unfold is_owned; now rewrite Ho]). split; [exact Q|]. now apply (in_map (gid (p_dim x))). }
  split; [|split].
  - intros x Hx. destruct (Hin x Hx) as (_ & Hg). destruct Hx as ((_ & _ & _ & Hv & Ed) & _). rewrite <- Ed in *. now apply C17_anitype_in_range.
  - intros x y n Hx Hy Ex Ey. destruct (Hin x Hx) as (Lx & Gx), (Hin y Hy) as (Ly & Gy). destruct Hx as ((Hdx & _ & _ & Hvx & Edx) & _), Hy as ((_ & _ & _ & Hvy & Edy) & _).
    assert (Q : gid (p_dim x) (p_lid x) = gid (p_dim y) (p_lid y) /\ p_desc x = p_desc y).
    { rewrite <- Edx in Ex, Gx |- *. rewrite <- Edy in Ey, Gy |- *. now apply (C17_anitype_injective l total gids _ _ _ _ n). }
    destruct Q as (Qg & Qd). assert (Ed : p_dim x = p_dim y) by (rewrite <- Edx, <- Edy, Qd; reflexivity). apply place_eq; [exact Ed| |exact Qd]. rewrite <- Ed in *.
    destruct (Hc (p_dim x) Hdx) as (s & Hp). assert (N : NoDup (gids (p_dim x))) by (eapply Permutation_NoDup; [apply Permutation_sym; exact Hp|apply seq_NoDup]).
    clear - N Lx Ly Qg. unfold gids in N. induction (owned_lids m (p_dim x)) as [|z L IH]; [destruct Lx|]. cbn [map] in N. inversion N as [|? ? Hz HN]; subst. destruct Lx as [->|Lx], Ly as [->|Ly]; auto.
    + exfalso. apply Hz. rewrite Qg. now apply in_map.
    + exfalso. apply Hz. rewrite <- Qg. now apply in_map.
  - intros n Hn. destruct (C17_anitype_surjective l total gids n Hw Hc Hn) as (g & y & Hy & Hg & En). unfold gids in Hg. apply in_map_iff in Hg. destruct Hg as (i & <- & Hi). unfold owned_lids in Hi. apply filter_In in Hi. destruct Hi as (Hi & Ho). apply in_seq in Hi. unfold is_owned in Ho.
    exists (Place (geom_dim (x_type y)) i y). cbn [p_dim p_lid p_desc]. split; [|exact En]. unfold own_dof, dof_of. cbn [p_dim p_lid p_desc]. destruct (status m (geom_dim (x_type y)) i) eqn:Es; try discriminate.
    repeat split; try lia; try apply Hy; try discriminate. now apply (dim_lt4 l).
Qed.
Print Assumptions C63_anitype.

(** *** two nodes and an edge; a vector variable on nodes and a scalar with unoriented and oriented dofs on edges *)
Definition cm : mesh := fun d => match d with 0 => [Owned; Owned] | 1 => [Deleted; Owned] | _ => [] end.
Definition cl : list dmap := [Vector 2 (Unite [1; 1; 0; 0; 0; 0] None); Unite [0; 1; 1; 0; 0; 0] None].
Definition cidx (x : place) : option nat := simple_index ANITYPE cl (setup_rank cl (fun _ => 2) (fun d => match d with 0 => [0; 1] | 1 => [0] | _ => [] end)) (p_dim x) (p_lid x - p_dim x) (p_desc x).
Definition cells (t : option (mem nat)) (L : list (list nat)) : list (option nat) := match t with Some t => map t L | None => [] end.
Definition room3 : mem nat := fun a => match a with [d; i; k] => Some 99 | [v; d; i; k] => Some 98 | _ => None end.
Definition vec10 : mem nat := interval 0 8 (fun n => 10 + n).
Example C63_example_tag : cells (vec_to_tag cidx cl cm 20 vec10 room3) [[0; 0; 0]; [0; 0; 1]; [0; 1; 0]; [0; 1; 1]; [1; 1; 0]; [1; 1; 1]; [1; 1; 2]; [1; 1; 3]; [1; 0; 0]]
  = [Some 10; Some 12; Some 11; Some 13; Some 14; Some 15; Some 16; Some 17; Some 99].
Proof. reflexivity. Qed.
Example C63_example_tags : cells (vec_to_tags cidx cl cm 20 vec10 room3) [[0; 0; 0; 1]; [0; 1; 1; 0]; [0; 1; 1; 1]; [1; 1; 1; 0]; [1; 1; 1; 1]; [1; 0; 0; 0]]
  = [Some 12; Some 14; Some 15; Some 16; Some 17; Some 98].
Proof. reflexivity. Qed.
Example C63_example_split : cells (do t <- vec_to_tag cidx cl cm 20 vec10 room3; tag_to_tags cl cm t room3) [[0; 0; 0; 1]; [0; 1; 1; 0]; [0; 1; 1; 1]; [1; 1; 1; 0]; [1; 1; 1; 1]; [1; 0; 0; 0]]
  = [Some 12; Some 14; Some 15; Some 16; Some 17; Some 98].
Proof. reflexivity. Qed.
Example C63_example_back : cells (do t <- vec_to_tag cidx cl cm 20 vec10 room3; tag_to_vec cidx cl cm 20 0 8 (fun _ => 0) t) (map (fun n => [n]) (seq 0 9))
  = [Some 10; Some 11; Some 12; Some 13; Some 14; Some 15; Some 16; Some 17; None].
Proof. reflexivity. Qed.
Example C63_example_small : wf (Complex cl) /\ small_shifts cl.
Proof. split; [cbn; tauto|]. split; intros _; apply Nat.ltb_lt; reflexivity. Qed.
