(** C25: a history of insertions into an interval map extends a partial function. *)
From Verif Require Import Prelude IvlModel IvlSpec IvlProofs IvlProofs2 IvlProofs3.
Open Scope Z_scope.

Section Any.
Context {V : Type} (veqb : V -> V -> bool).
Hypothesis Hveqb : forall a b, veqb a b = true <-> a = b.

(** The returned flags and the resulting function are determined by the history *)
Lemma step_ext (g h : Z -> option V) o g' h' b c : (forall k, g k = h k) -> step g o g' b -> step h o h' c -> b = c /\ forall k, g' k = h' k.
Proof.
  intros E S1 S2.
  assert (Hag : agrees g o <-> agrees h o) by (unfold agrees; split; intros H k w Hk; [rewrite <- E|rewrite E]; apply (H k w Hk)).
  destruct S1 as [g1 (k1 & N1) A1 X1 Y1|g1 D1 X1]; destruct S2 as [g2 (k2 & N2) A2 X2 Y2|g2 D2 X2].
  - split; [auto|]. intros k. destruct (inside_dec o k) as [H|H]; [rewrite X1, X2; auto|rewrite Y1, Y2; auto].
  - exfalso. destruct D2 as [D2|D2]; [exact (D2 _ N1)|tauto].
  - exfalso. destruct D1 as [D1|D1]; [exact (D1 _ N2)|tauto].
  - split; [auto|]. intros k. rewrite X1, X2. auto.
Qed.
Theorem C25_spec_deterministic : forall ops (g : Z -> option V) bs cs g1 g2, run g ops bs g1 -> run g ops cs g2 -> bs = cs /\ forall k, g1 k = g2 k.
Proof.
  assert (H : forall ops (g h : Z -> option V) bs cs g1 g2, (forall k, g k = h k) -> run g ops bs g1 -> run h ops cs g2 -> bs = cs /\ forall k, g1 k = g2 k).
  { induction ops as [|o ops IH]; intros g h bs cs g1 g2 E R1 R2; inversion R1; inversion R2; subst; [auto|].
    match goal with S1 : step g o ?a ?b, S2 : step h o ?c ?d |- _ => destruct (step_ext _ _ _ _ _ _ _ E S1 S2) as (<- & E2) end.
    match goal with Ra : run ?a ops ?b g1, Rb : run ?c ops ?d g2 |- _ => destruct (IH _ _ _ _ _ _ E2 Ra Rb) as (-> & ?) end. auto. }
  intros. eapply H; eauto.
Qed.

(** One insertion, from any state a history can reach *)
Theorem C25_insert_partial : forall m g o, good m g -> safe_op g o ->
  exists m' ok g', insert veqb m o = Some (m', ok) /\ step g o g' ok /\ good m' g'.
Proof. exact (insert_step veqb Hveqb). Qed.

(** Histories in which no insertion is infinite on a side that is infinite already, unless it agrees with the map.
    Missing: the other histories (refuted below), and lookup in the map with one value for all keys (refuted below). *)
Theorem C25_history_partial : forall ops, safe nothing ops ->
  exists m bs g, inserts veqb empty_map ops = Some (m, bs) /\ run nothing ops bs g /\ sorted_disjoint m /\ represents m g /\
    (~ constant g -> forall k, at_key m k = g k /\ contains m k = match g k with Some _ => true | None => false end).
Proof.
  intros ops HS. destruct (inserts_run veqb Hveqb ops empty_map nothing good_empty HS) as (m & bs & g & E & R & G).
  exists m, bs, g. split; [auto|]. split; [auto|]. split; [exact (good_sorted _ _ G)|]. split; [exact (good_represents _ _ G)|].
  intros Hc k. apply good_lookup; auto.
Qed.

(** All histories of finite insertions *)
Lemma finite_safe ops : (forall o, In o ops -> lo o <> None /\ hi o <> None) -> forall g : Z -> option V, safe g ops.
Proof.
  induction ops as [|o ops IH]; intros H g; [constructor|]. destruct (H o (or_introl eq_refl)) as (H1 & H2). constructor.
  - split; intros; contradiction.
  - intros g' b _. apply IH. intros; apply H; cbn; auto.
Qed.
Lemma finite_bounded ops : (forall o, In o ops -> lo o <> None /\ hi o <> None) -> forall (g : Z -> option V) bs g', run g ops bs g' ->
  (exists K, forall k, K <= k -> g k = None) -> exists K, forall k, K <= k -> g' k = None.
Proof.
  induction ops as [|o ops IH]; intros H g bs g' R (K & HK); inversion R as [|g0 o0 ops0 b bs0 g1 g2 S1 R1]; subst; [eauto|].
  apply (IH (fun o Ho => H o (or_intror Ho)) _ _ _ R1). destruct S1 as [g1 _ _ _ Y|g1 _ X].
  - destruct (hi o) as [e|] eqn:E; [|exfalso; apply (H o (or_introl eq_refl)); exact E]. exists (Z.max K e). intros k Hk.
    rewrite Y; [apply HK; lia|]. intros (_ & H2). rewrite E in H2. lia.
  - exists K. intros k Hk. rewrite X. auto.
Qed.
Theorem C25_finite_history : forall ops, (forall o, In o ops -> lo o <> None /\ hi o <> None) ->
  exists m bs g, inserts veqb empty_map ops = Some (m, bs) /\ run nothing ops bs g /\ sorted_disjoint m /\
    forall k, at_key m k = g k /\ contains m k = match g k with Some _ => true | None => false end.
Proof.
  intros ops H. destruct (C25_history_partial ops (finite_safe ops H nothing)) as (m & bs & g & E & R & S1 & _ & L).
  exists m, bs, g. repeat (split; [assumption|]). apply L. intros (v & Hv).
  destruct (finite_bounded ops H _ _ _ R) as (K & HK); [exists 0; reflexivity|]. specialize (HK K (Z.le_refl _)). rewrite Hv in HK. discriminate.
Qed.

(** The membership test of an iterator, for the same histories *)
Theorem C25_iterator_partial : forall ops m bs, safe nothing ops -> inserts veqb empty_map ops = Some (m, bs) ->
  (forall g, run nothing ops bs g -> ~ constant g) ->
  forall i k, (i < length (entries m))%nat -> exists b, iter_contains m i k = Some b /\ (b = true <-> extent m i k).
Proof.
  intros ops m bs HS E Hc i k Hi. destruct (inserts_run veqb Hveqb ops empty_map nothing good_empty HS) as (m' & bs' & g & E' & R & G).
  rewrite E in E'. injection E' as <- <-. apply iter_contains_ok; [|auto|apply G]. intros Hd. exact (Hc g R (doubly_constant _ _ G Hd)).
Qed.
End Any.
Print Assumptions C25_spec_deterministic.
Print Assumptions C25_insert_partial.
Print Assumptions C25_history_partial.
Print Assumptions C25_finite_history.
Print Assumptions C25_iterator_partial.

(** A history with a merge, a rejected insertion, and both infinite sides *)
Definition history : list (ivl_op Z) :=
  [Op (Some 0) (Some 5) 1; Op (Some 5) (Some 9) 2; Op (Some 3) (Some 7) 1; Op (Some 9) None 2; Op None (Some (-4)) 3; Op (Some (-4)) (Some 0) 1; Op (Some 20) (Some 30) 2; Op (Some 30) None 2].
Example C25_history_runs : inserts Z.eqb empty_map history =
  Some (IMap [Entry (-4) (-4) 3; Entry (-4) 5 1; Entry 5 30 2] true true, [true; true; false; true; true; true; true; true]).
Proof. reflexivity. Qed.
Definition finite_history : list (ivl_op Z) := firstn 3 history.
Example C25_finite_meets : forall o, In o finite_history -> lo o <> None /\ hi o <> None.
Proof. intros o H. repeat destruct H as [<-|H]; try destruct H; split; discriminate. Qed.
Definition infinite_history : list (ivl_op Z) := [Op (Some 0) None 1; Op None (Some 0) 2; Op (Some (-3)) (Some 2) 1].
Example C25_history_meets : safe nothing infinite_history /\
  inserts Z.eqb empty_map infinite_history = Some (IMap [Entry (-3) 0 2; Entry 0 2 1] true true, [true; true; false]).
Proof.
  split; [|reflexivity]. unfold infinite_history. constructor.
  - split; [|intros H; discriminate]. intros _ _ (K & HK). exfalso. exact (HK K (Z.le_refl _) eq_refl).
  - intros g1 b S1. constructor.
    + split; [intros H; discriminate|]. intros _ _ _ k w (_ & Hk) Hw. cbn in Hk. exfalso. inversion S1 as [g2 _ _ _ Y|g2 _ Y]; subst.
      * rewrite Y in Hw; [discriminate|]. intros (H & _). cbn in H. lia.
      * rewrite Y in Hw. discriminate.
    + intros g2 c _. constructor; [|intros; constructor]. split; intros H; discriminate.
Qed.

(** Two insertions that are infinite on the same side: the second one contradicts the first one and is accepted *)
Theorem C25_same_side_refuted : ~ forall (ops : list (ivl_op Z)) m bs, inserts Z.eqb empty_map ops = Some (m, bs) -> exists g, run nothing ops bs g /\ represents m g.
Proof.
  intros H. destruct (H [Op (Some 0) None 1; Op (Some 5) None 2] _ _ eq_refl) as (g & R & _). cbn in R.
  inversion R as [|g0 o ops b bs g1 g2 S1 R1]; subst. inversion R1 as [|g0 o ops b bs g3 g4 S2 R2]; subst.
  inversion S2 as [g5 _ A _ _|]; subst. inversion S1 as [g6 _ _ X _|]; subst.
  assert (E : 1 = 2); [|discriminate]. apply (A 5 1); [split; cbn; [lia|exact I]|]. apply X. split; cbn; [lia|exact I].
Qed.
Example C25_same_side_values : exists m, inserts Z.eqb empty_map [Op (Some 0) None 1; Op (Some 5) None 2] = Some (m, [true; true]) /\ at_key m 4 = Some 1 /\ at_key m 7 = Some 2.
Proof. eexists. split; [reflexivity|]. split; reflexivity. Qed.
(** The same on the left *)
Theorem C25_same_side_left_refuted : exists m, inserts Z.eqb empty_map [Op None (Some 5) 1; Op None (Some 3) 2] = Some (m, [true; true]) /\ at_key m 4 = Some 1 /\ at_key m 2 = Some 2.
Proof. eexists. split; [reflexivity|]. split; reflexivity. Qed.
(** One value for all keys: lookup misses the keys left of the stored start *)
Theorem C25_all_keys_refuted : ~ forall (ops : list (ivl_op Z)) m bs g, inserts Z.eqb empty_map ops = Some (m, bs) -> run nothing ops bs g -> forall k, at_key m k = g k.
Proof.
  intros H. specialize (H [Op None None 7] _ _ (fun _ => Some 7) eq_refl).
  assert (R : run nothing [Op None None 7] [true] (fun _ => Some 7)).
  { econstructor; [|constructor]. constructor; [exists 0; split; exact I|intros k w _ E; discriminate|auto|]. intros k Hk. exfalso. apply Hk. split; exact I. }
  specialize (H R (-5)). vm_compute in H. discriminate.
Qed.
Example C25_all_keys_two_halves : exists m, inserts Z.eqb empty_map [Op None (Some 5) 1; Op (Some 5) None 1] = Some (m, [true; true]) /\ at_key m 4 = None /\ at_key m 5 = Some 1.
Proof. eexists. split; [reflexivity|]. split; reflexivity. Qed.
Print Assumptions C25_same_side_refuted.
Print Assumptions C25_same_side_left_refuted.
Print Assumptions C25_all_keys_refuted.

(** The conflicts on the infinite side that are noticed: the same half-line (-inf, e) once more with another value, as long
    as nothing was joined to it, is rejected and changes nothing. *)
Section Again.
Context {V : Type} (veqb : V -> V -> bool).
Hypothesis Hveqb : forall a b, veqb a b = true <-> a = b.
Lemma raise_back_same (l : list (entry V)) e : l <> [] -> (forall y, In y l -> e <= m_end y) -> raise_back l e = Some l.
Proof.
  induction l as [|x l IH]; intros Hn H; [congruence|]. destruct l as [|y l].
  - cbn. rewrite Z.max_l by (apply H; now left). destruct x. reflexivity.
  - change (raise_back (x :: y :: l) e) with (do r' <- raise_back (y :: l) e; Some (x :: r')). rewrite IH; [reflexivity|discriminate|]. intros z Hz. apply H. now right.
Qed.
Theorem C25_same_half_line_rejected : forall m e v x t, left_inf m = true -> entries m = x :: t -> m_start x = e -> m_end x = e -> second x <> v ->
  (forall y, In y t -> e < m_end y) -> insert veqb m (Op None (Some e) v) = Some (m, false).
Proof.
  intros [l f r] e v x t Hf El Hs He Hv Ht. cbn [left_inf entries] in Hf, El. subst f l. unfold insert. cbn [lo hi value entries]. rewrite Hs, Z.ltb_irrefl. unfold insert_core. rewrite Z.ltb_irrefl. cbn [Nat.eqb andb orb left_inf right_inf entries].
  unfold lower_front. rewrite Hs, Z.min_id. replace (Entry e (m_end x) (second x)) with x by (destruct x; cbn in *; congruence). cbn [obind].
  assert (ER : (if r then raise_back (x :: t) e else Some (x :: t)) = Some (x :: t)).
  { destruct r; [|reflexivity]. apply raise_back_same; [discriminate|]. intros y [<-|Hy]; [lia|]. pose proof (Ht y Hy). lia. }
  rewrite ER. cbn [obind].
  assert (EU : ub (x :: t) e = 1%nat).
  { cbn [ub]. rewrite He, Z.ltb_irrefl. destruct t as [|y t]; [reflexivity|]. cbn [ub]. replace (e <? m_end y) with true by (symmetry; apply Z.ltb_lt, Ht; now left). reflexivity. }
  assert (ES : find_start r (x :: t) e e 1 = 0%nat).
  { unfold find_start. rewrite EU, Z.eqb_refl. cbn [Nat.eqb Nat.sub andb negb]. unfold ends_at. cbn [nth_error]. rewrite He, Z.eqb_refl. cbn [length]. rewrite andb_false_r. reflexivity. }
  rewrite ES. assert (EE : find_end true (x :: t) e 0 = 1%nat).
  { unfold find_end. cbn [length Nat.eqb skipn lb Nat.add]. rewrite Hs, He, Z.ltb_irrefl, !Z.eqb_refl. reflexivity. }
  rewrite EE. unfold finish. cbn [Nat.sub skipn firstn forallb]. destruct (veqb (second x) v) eqn:E; [apply Hveqb in E; congruence|]. reflexivity.
Qed.
End Again.
Print Assumptions C25_same_half_line_rejected.
Example C25_same_half_line_met : exists m, inserts Z.eqb empty_map [Op None (Some 5) 1; Op (Some 6) (Some 8) 3; Op None (Some 5) 2] = Some (m, [true; true; false]) /\ at_key m 4 = Some 1.
Proof. eexists. split; reflexivity. Qed.
(** Once a half-line to the right starts at the same key, the contradiction is accepted: no key below 5 gets the new value
    and the call reports success. *)
Theorem C25_two_half_lines_refuted : exists m, inserts Z.eqb empty_map [Op None (Some 5) 1; Op (Some 5) None 2; Op None (Some 5) 3] = Some (m, [true; true; true]) /\ length (entries m) = 3%nat /\ at_key m 4 = Some 1.
Proof. eexists. split; [reflexivity|]. split; reflexivity. Qed.
Print Assumptions C25_two_half_lines_refuted.
