From Verif Require Import Prelude DofModel DofSpec DofProofs EnumModel EnumSpec EnumProofs EnumProofs2 GwModel GwSpec GwProofs GwProofs2 GwProofs3 CpModel CpSpec CpProofs.

(** *** loops over elements, types, variables and dofs *)
Definition tuples (l : list dmap) (es : list (nat * nat)) (vs : list nat) : list ((nat * nat) * (nat * (nat * nat))) :=
  flat_map (fun e => flat_map (fun t => flat_map (fun v => map (fun k => (e, (t, (v, k)))) (seq 0 (var_shift l t (v + 1) - var_shift l t v))) vs) (types_from (fst e))) es.
Lemma each_tuples : forall M l es vs (g : nat -> nat -> nat -> nat -> nat -> M -> option M) m,
  each es (fun '(d, i) => each (types_from d) (fun t => each vs (fun v => per_dof l d t v (g d i v)))) m =
  each (tuples l es vs) (fun '((d, i), (t, (v, k))) => g d i v (tshift l d t + var_shift l t v + k) (k + tvshift l d t v)) m.
Proof.
  intros M l es vs g m. unfold tuples. rewrite each_flat. apply each_ext. intros [d i] m1 _. cbn [fst]. rewrite each_flat. apply each_ext. intros t m2 _. rewrite each_flat. apply each_ext. intros v m3 _. rewrite each_map. reflexivity.
Qed.
Lemma in_tuples : forall l es vs d i t v k, In ((d, i), (t, (v, k))) (tuples l es vs) <-> In (d, i) es /\ In t (types_from d) /\ In v vs /\ k < var_shift l t (v + 1) - var_shift l t v.
Proof.
  intros l es vs d i t v k. unfold tuples. rewrite in_flat_map. split.
  - intros (e & He & H). apply in_flat_map in H. destruct H as (t' & Ht & H). apply in_flat_map in H. destruct H as (v' & Hv & H). apply in_map_iff in H. destruct H as (k' & E & Hk). injection E as -> -> -> ->. cbn [fst] in Ht. apply in_seq in Hk. repeat split; try assumption; lia.
  - intros (He & Ht & Hv & Hk). exists (d, i). split; [exact He|]. apply in_flat_map. exists t. split; [exact Ht|]. apply in_flat_map. exists v. split; [exact Hv|]. apply in_map_iff. exists k. split; [reflexivity|]. apply in_seq. lia.
Qed.
Lemma nd_cnt : forall b d, wf b -> d < 4 -> nd_dim b d = list_sum (map (cnt b) (types_of_dim d)).
Proof. intros b d Hw Hd. destruct d as [|[|[|[|d]]]]; [..|lia]; unfold nd_dim; rewrite !num_dof_cnt by (assumption || lia); unfold types_of_dim; cbn [nth map]; unfold list_sum; cbn [fold_right]; lia. Qed.
Lemma nd_pos : forall b t, wf b -> t < 6 -> 0 < cnt b t -> 0 < nd_dim b (geom_dim t).
Proof. intros b t Hw Ht H. destruct t as [|[|[|[|[|[|t]]]]]]; [..|lia]; cbn [geom_dim nth nd_dim]; rewrite ?num_dof_cnt by (assumption || lia); lia. Qed.
Lemma tuple_place : forall l m es vs d i t v k, wf (Complex l) -> small_shifts l -> (forall d i, In (d, i) es -> d < 4 /\ i < length (m d) /\ status m d i <> Deleted) -> (forall v, In v vs -> v < length l) ->
  In ((d, i), (t, (v, k))) (tuples l es vs) -> exists x, dof_of l m x /\ p_dim x = d /\ p_lid x = i /\ x_var (p_desc x) = v /\ In v vs /\
    tshift l d t + var_shift l t v + k = local_id l (p_desc x) /\ k + tvshift l d t v = vpos l (p_desc x).
Proof.
  intros l m es vs d i t v k Hw Hs He Hv H. apply in_tuples in H. destruct H as (H1 & Ht & Hvs & Hk). destruct (He d i H1) as (Hd & Hi & Hst). apply types_from_iff in Ht; [|assumption]. destruct Ht as (Ht & Hg).
  specialize (Hv v Hvs). rewrite shift_diff in Hk by assumption. destruct (dtype_desc l t v k Ht Hv Hk) as (x & Hx & Ex & Ev & Ek). subst t v.
  exists (Place d i x). cbn [p_dim p_lid p_desc]. pose proof (cell_union l x Hw Hs Hx) as U. pose proof (cell_var l x Hw Hs Hx) as V. rewrite Ek, Hg in U, V. unfold dof_of. cbn [p_dim p_lid p_desc]. tauto.
Qed.
Lemma place_tuple : forall l m b vs x, wf (Complex l) -> small_shifts l -> wf b -> dof_of l m x -> In (x_var (p_desc x)) vs -> 0 < cnt b (x_type (p_desc x)) ->
  exists k, let t := x_type (p_desc x) in let v := x_var (p_desc x) in let d := p_dim x in In ((d, p_lid x), (t, (v, k))) (tuples l (elements m b) vs) /\
    tshift l d t + var_shift l t v + k = local_id l (p_desc x) /\ k + tvshift l d t v = vpos l (p_desc x).
Proof.
  intros l m b vs x Hw Hs Hb (Hd & Hi & Hst & Hx & Hg) Hv Hc. exists (x_dim (p_desc x) * per_comp (nth (x_var (p_desc x)) l (Complex [])) (x_type (p_desc x)) + x_pos (p_desc x)). cbn zeta.
  assert (Ht : x_type (p_desc x) < 6) by apply Hx. pose proof (cell_union l _ Hw Hs Hx) as U. pose proof (cell_var l _ Hw Hs Hx) as V. rewrite Hg in U, V. split; [|tauto].
  apply in_tuples. split; [apply in_elements; split; [exact Hd|split; [rewrite <- Hg; now apply nd_pos|tauto]]|]. split; [now apply types_from_iff|]. split; [exact Hv|]. rewrite shift_diff by (try assumption; now apply var_lt). now apply desc_k.
Qed.
Lemma elements_ok : forall m b d i, In (d, i) (elements m b) -> d < 4 /\ i < length (m d) /\ status m d i <> Deleted.
Proof. intros m b d i H. apply in_elements in H. tauto. Qed.
Section Tags.
Variables (A : Type) (l : list dmap) (m : mesh).
Hypothesis Hw : wf (Complex l).
Hypothesis Hs : small_shifts l.

(** both directions between the common tag and any tags of the variables *)
Lemma tuples_copy : forall b vs (P : place -> Prop) (vc : place -> list nat -> Prop) (adr : nat -> nat -> nat -> nat -> list nat),
  wf b -> (forall v, In v vs -> v < length l) -> (forall x, P x <-> dof_of l m x /\ In (x_var (p_desc x)) vs) -> (forall x, P x -> 0 < cnt b (x_type (p_desc x))) ->
  (forall x a, P x -> vc x a <-> a = adr (x_var (p_desc x)) (p_dim x) (p_lid x) (vpos l (p_desc x))) -> (forall x y a, P x -> P y -> vc x a -> vc y a -> x = y) ->
  forall from to : mem A,
  (room P (union_cell l) from -> room P vc to -> exists to', each (tuples l (elements m b) vs) (fun '((d, i), (t, (v, k))) to => copy from [d; i; tshift l d t + var_shift l t v + k] to (adr v d i (k + tvshift l d t v))) to = Some to' /\ copied P (union_cell l) vc from to to') /\
  (room P vc from -> room P (union_cell l) to -> exists to', each (tuples l (elements m b) vs) (fun '((d, i), (t, (v, k))) to => copy from (adr v d i (k + tvshift l d t v)) to [d; i; tshift l d t + var_shift l t v + k]) to = Some to' /\ copied P vc (union_cell l) from to to').
Proof.
  intros b vs P vc adr Hb Hvs HP Hc Hvc Ivc from to.
  pose (ua := fun '((d, i), (t, (v, k))) => [d; i; tshift l d t + var_shift l t v + k] : list nat). pose (va := fun '((d, i), (t, (v, k))) => adr v d i (k + tvshift l d t v) : list nat).
  assert (HL : forall y, In y (tuples l (elements m b) vs) -> exists x, P x /\ union_cell l x (ua y) /\ vc x (va y)).
  { intros [[d i] [t [v k]]] Hy. destruct (tuple_place l m _ vs d i t v k Hw Hs (elements_ok m b) Hvs Hy) as (x & Hx & <- & <- & <- & Hin & U & V). assert (Px : P x) by (apply HP; tauto).
    exists x. split; [exact Px|]. split; [apply (union_cell_iff l m); [assumption..|]; cbn [ua]; now rewrite U|]. apply Hvc; [exact Px|]. cbn [va]. now rewrite V. }
  assert (HR : forall x, P x -> exists y, In y (tuples l (elements m b) vs) /\ union_cell l x (ua y) /\ vc x (va y)).
  { intros x Px. pose proof Px as Q. apply HP in Q. destruct Q as (Hx & Hin). destruct (place_tuple l m b vs x Hw Hs Hb Hx Hin (Hc x Px)) as (k & Hk & U & V). cbn zeta in *. eexists. split; [exact Hk|].
    split; [apply (union_cell_iff l m); [assumption..|]; cbn [ua]; now rewrite U|]. apply Hvc; [exact Px|]. cbn [va]. now rewrite V. }
  assert (UU : forall x a a', P x -> union_cell l x a -> union_cell l x a' -> a = a') by (intros x a a' Px Ha Ha'; apply HP in Px; apply (union_cell_iff l m) in Ha, Ha'; try tauto; congruence).
  assert (UV : forall x a a', P x -> vc x a -> vc x a' -> a = a') by (intros x a a' Px Ha Ha'; apply Hvc in Ha, Ha'; try tauto; congruence).
  assert (IU : forall x y a, P x -> P y -> union_cell l x a -> union_cell l y a -> x = y) by (intros x y a Px Py; apply HP in Px, Py; apply (union_inj l m); tauto).
  split; intros R1 R2.
  - apply (copies _ A P (union_cell l) vc from to _ ua va); try assumption. intros [[d i] [t [v k]]] to0 _. reflexivity.
  - apply (copies _ A P vc (union_cell l) from to _ va ua); try assumption.
    + intros [[d i] [t [v k]]] to0 _. reflexivity.
    + intros y Hy. destruct (HL y Hy) as (x & Px & C1 & C2). eauto.
    + intros x Px. destruct (HR x Px) as (y & Hy & C1 & C2). eauto.
Qed.
End Tags.

(** *** copies of all cells of an element *)
Lemma length_descs_var : forall l v d, length (descs_var l v d) = list_sum (map (cnt (nth v l (Complex []))) (types_of_dim d)).
Proof. intros l v d. rewrite descs_var_eq, length_flat_map'. f_equal. apply map_ext. intros t. apply length_dtype. Qed.
Lemma in_descs_var : forall l v d x, d < 4 -> v < length l -> In x (descs_var l v d) -> valid_desc l x /\ geom_dim (x_type x) = d /\ x_var x = v.
Proof.
  intros l v d x Hd Hv H. rewrite descs_var_eq in H. apply in_flat_map in H. destruct H as (t & Ht & H). apply types_dim in Ht; [|assumption]. unfold dtype in H. apply in_flat_map in H. destruct H as (c & Hc & H). apply in_map_iff in H. destruct H as (p & <- & Hp). apply in_seq in Hc, Hp. cbn [x_type x_var].
  split; [|tauto]. split; [apply Ht|]. exists (nth v l (Complex [])). cbn. split; [now apply nth_error_nth'|]. lia.
Qed.
Lemma cells_copy : forall A m b (P : place -> Prop) (ds : nat -> list desc) (c : place -> list nat -> Prop) (from to : mem A),
  (forall d, d < 4 -> length (ds d) = nd_dim b d) -> (forall x, P x <-> p_dim x < 4 /\ p_lid x < length (m (p_dim x)) /\ status m (p_dim x) (p_lid x) <> Deleted /\ In (p_desc x) (ds (p_dim x))) ->
  (forall x a, P x -> c x a <-> exists k, nth_error (ds (p_dim x)) k = Some (p_desc x) /\ a = [p_dim x; p_lid x; k]) -> (forall x a a', P x -> c x a -> c x a' -> a = a') ->
  room P c from -> room P c to -> exists to', each (elements m b) (fun '(d, i) => each (seq 0 (nd_dim b d)) (fun k to => copy from [d; i; k] to [d; i; k])) to = Some to' /\ copied P c c from to to'.
Proof.
  intros A m b P ds c from to Hl HP Hc Uc R1 R2. pose (L := flat_map (fun e => map (pair e) (seq 0 (nd_dim b (fst e)))) (elements m b)). pose (ad := fun '((d, i), k) => [d; i; k] : list nat).
  assert (E : each (elements m b) (fun '(d, i) => each (seq 0 (nd_dim b d)) (fun k to => copy from [d; i; k] to [d; i; k])) to = each L (fun y to => copy from (ad y) to (ad y)) to).
  { unfold L. rewrite each_flat. apply each_ext. intros [d i] m1 _. cbn [fst]. rewrite each_map. reflexivity. }
  rewrite E. apply (copies _ A P c c from to L ad ad); try assumption.
  - reflexivity.
  - intros [[d i] k] Hy. unfold L in Hy. apply in_flat_map in Hy. destruct Hy as ([d' i'] & He & Hk). apply in_map_iff in Hk. destruct Hk as (k' & Ek & Hk). injection Ek as -> -> ->. cbn [fst] in Hk. apply in_seq in Hk. destruct (elements_ok m b d i He) as (Hd & Hi & Hs).
    destruct (nth_error (ds d) k) as [y|] eqn:En; [|apply nth_error_None in En; rewrite Hl in En by assumption; lia]. assert (Px : P (Place d i y)) by (apply HP; cbn [p_dim p_lid p_desc]; apply nth_error_In in En; tauto).
    exists (Place d i y). split; [exact Px|]. assert (C : c (Place d i y) (ad (d, i, k))) by (apply Hc; [exact Px|]; exists k; cbn; auto). split; exact C.
  - intros x Px. pose proof Px as Q. apply HP in Q. destruct Q as (Hd & Hi & Hs & Hin). destruct (In_nth_error _ _ Hin) as (k & Ek). exists ((p_dim x, p_lid x), k). split.
    + unfold L. apply in_flat_map. exists (p_dim x, p_lid x). assert (Hk : k < nd_dim b (p_dim x)) by (rewrite <- Hl by assumption; apply nth_error_Some; congruence). split; [apply in_elements; repeat split; try assumption; lia|]. cbn [fst]. apply in_map_iff. exists k. split; [reflexivity|]. apply in_seq. lia.
    + assert (C : c x (ad (p_dim x, p_lid x, k))) by (apply Hc; [exact Px|]; exists k; cbn; auto). split; exact C.
  - intros x y a Px Py Cx Cy. apply Hc in Cx, Cy; try assumption. destruct Cx as (k & Ek & ->), Cy as (k' & Ek' & Ea). injection Ea as E1 E2 E3. apply place_eq; [assumption..|]. rewrite E1, E3 in Ek. congruence.
Qed.

(** *** loops by geometry *)
Lemma own_selected : forall l m x, own_dof l m x <-> selected l m everything x.
Proof.
  intros l m x. unfold own_dof, dof_of, selected. cbn [everything s_var s_dim s_dof s_lid fits]. split.
  - intros ((H1 & H2 & H3 & H4 & H5) & H6). repeat split; try assumption; try apply H4. destruct H4 as (Ht & _). destruct (x_type (p_desc x)) as [|[|[|[|[|[|t]]]]]]; try reflexivity; lia.
  - intros (H1 & H2 & H3 & H4 & H5 & _). repeat split; try assumption; try apply H4. rewrite H3. discriminate.
Qed.
Lemma own_selected_var : forall l m v x, own_dof l m x /\ x_var (p_desc x) = v <-> selected l m (Slice (Some v) None None 63 None) x.
Proof.
  intros l m v x. rewrite own_selected. unfold selected. cbn [everything s_var s_dim s_dof s_lid fits]. unfold has. cbn [s_mask everything]. tauto.
Qed.
Lemma geom_copy : forall A l m s (P : place -> Prop) (c1 c2 : place -> list nat -> Prop) (from to : mem A) f (src dst : place -> list nat), wf (Complex l) -> (forall v, s_var s = Some v -> v < length l) -> s_mask s = 63 ->
  (forall x, P x <-> selected l m s x) -> (forall x to, P x -> f x to = copy from (src x) to (dst x)) -> (forall x a, P x -> c1 x a <-> a = src x) -> (forall x a, P x -> c2 x a <-> a = dst x) -> (forall x y, P x -> P y -> dst x = dst y -> x = y) ->
  room P c1 from -> room P c2 to -> exists to', (exists n, forall fuel, n <= fuel -> by_geom l m s fuel f to = Some to') /\ copied P c1 c2 from to to'.
Proof.
  intros A l m s P c1 c2 from to f src dst Hw Hv Hm HP Hf H1 H2 HI R1 R2. assert (Hs : sound_mask l s) by (intros t [->| ->] _; left; unfold has; now rewrite Hm).
  destruct (copies place A P c1 c2 from to (places l m s) src dst f) as (to' & E & C); try assumption.
  - intros x to0 Hx. apply Hf, HP, in_places, Hx.
  - intros x Hx. apply in_places, HP in Hx. exists x. split; [exact Hx|]. split; [now apply H1|now apply H2].
  - intros x Px. exists x. split; [now apply in_places, HP|]. split; [now apply H1|now apply H2].
  - intros x a a' Px Ha Ha'. apply H1 in Ha, Ha'; congruence.
  - intros x a a' Px Ha Ha'. apply H2 in Ha, Ha'; congruence.
  - intros x y a Px Py Ha Ha'. apply H2 in Ha, Ha'; try assumption. apply HI; congruence.
  - exists to'. split; [|exact C]. exists (length (places l m s)). intros fuel Hf'. unfold by_geom. rewrite walk_places by assumption. cbn [obind snd fst]. rewrite (proj2 (Nat.leb_le _ _) Hf'). cbn [guard obind]. now rewrite firstn_all2.
Qed.

(** *** loops that miss a cell *)
Lemma each_keep : forall X A (from : mem A) (src dst : X -> list nat) L to to' b, each L (fun x to => copy from (src x) to (dst x)) to = Some to' -> (forall x, In x L -> dst x <> b) -> to' b = to b.
Proof.
  intros X A from src dst. induction L as [|a L IH]; intros to to' b E H; cbn [each] in E; [now injection E as <-|]. unfold copy at 1, mset at 1 in E. destruct (from (src a)) as [v|]; [|discriminate]. cbn [obind] in E. destruct (to (dst a)); [|discriminate]. cbn [obind] in E.
  rewrite (IH _ _ b E) by (intros x Hx; apply H; now right). cbv beta. destruct (list_eq_dec Nat.eq_dec b (dst a)) as [->|]; [|reflexivity]. exfalso. now apply (H a (or_introl eq_refl)).
Qed.
Lemma each_total : forall X A (from : mem A) (src dst : X -> list nat) L to, (forall a, from a <> None) -> (forall a, to a <> None) -> exists to', each L (fun x to => copy from (src x) to (dst x)) to = Some to'.
Proof.
  intros X A from src dst. induction L as [|a L IH]; intros to Hf Ht; [eexists; reflexivity|]. cbn [each]. destruct (copy_ok A from to (src a) (dst a) (Hf _) (Ht _)) as (t1 & E1 & V1 & K1). rewrite E1. cbn [obind]. apply IH; [exact Hf|].
  intros c. destruct (list_eq_dec Nat.eq_dec c (dst a)) as [->|N]; [rewrite V1; apply Hf|rewrite K1 by exact N; apply Ht].
Qed.
