(** The stages of begin(i). *)
From Verif Require Import Prelude ExtModel ExtSpec ExtProofs ExtProofs2 ExtProofs3.
Local Arguments Nat.ltb : simpl never.
Local Arguments Nat.eqb : simpl never.
Local Arguments Nat.leb : simpl never.
Local Arguments sm : simpl never.

Lemma rfind_spec {K} i (l : list (K * nat)) : forall nx, exists l1 l2, l = l1 ++ l2 /\ (forall e, In e l2 -> i < snd e) /\
  snd (rfind i nx (rev l)) = (match l2 with e :: _ => Some e | [] => nx end) /\
  (match fst (rfind i nx (rev l)) with Some e => exists l0, l1 = l0 ++ [e] /\ snd e <= i | None => l1 = [] end).
Proof.
  induction l as [|e l IH] using rev_ind; intros nx.
  - exists [], []. cbn. split; [auto|]. split; [intros ? []|auto].
  - rewrite rev_app_distr. cbn [rev app rfind]. destruct (Nat.ltb_spec i (snd e)) as [H|H].
    + destruct (IH (Some e)) as (l1 & l2 & E1 & E2 & E3 & E4). exists l1, (l2 ++ [e]). split; [rewrite E1, app_assoc; auto|]. split.
      * intros x Hx. apply in_app_or in Hx as [Hx|[<-|[]]]; auto.
      * split; [rewrite E3; destruct l2; auto|exact E4].
    + exists (l ++ [e]), []. rewrite app_nil_r. split; [auto|]. split; [intros ? []|]. cbn. split; [auto|]. exists l. auto.
Qed.
Lemma ordk_sum1 (W : mapk) e : ordk W -> In e W -> sm (fun x => (if keyb (fst x) (fst e) then 1 else 0) * snd x) W = snd e.
Proof.
  induction W as [|x W IH]; intros Ho He; [destruct He|]. destruct Ho as (H1 & H2). rewrite sm_cons. destruct He as [->|He].
  - rewrite keyb_refl, sm_0; [lia|]. intros y Hy. destruct (keyb (fst y) (fst e)) eqn:E; [|auto]. apply keyb_eq in E. specialize (H1 y Hy). rewrite E, lexb_irr in H1. discriminate.
  - rewrite IH by auto. destruct (keyb (fst x) (fst e)) eqn:E; [|auto]. apply keyb_eq in E. specialize (H1 e He). rewrite E, lexb_irr in H1. discriminate.
Qed.
Lemma ordk_app (W1 W2 : mapk) a b : ordk (W1 ++ W2) -> In a W1 -> In b W2 -> lexb (fst a) (fst b) = true.
Proof. induction W1 as [|x W1 IH]; intros H Ha Hb; [destruct Ha|]. cbn in H. destruct H as (H1 & H2). destruct Ha as [->|Ha]; [apply H1, in_or_app; auto|auto]. Qed.
Lemma copyr_fill N lo hi v b : length v = N -> length b = N -> lo <= hi <= N -> same lo v b = true -> copyr lo hi v (fill lo b) = fill hi v.
Proof.
  intros Hv Hb H E. unfold copyr. rewrite fill_firstn by lia. apply same_eq in E. rewrite <- E. rewrite app_assoc. unfold fill. f_equal.
  - rewrite <- (firstn_skipn lo (firstn hi v)). rewrite firstn_firstn, Nat.min_l by lia. f_equal. rewrite firstn_skipn_comm. replace (lo + (hi - lo)) with hi by lia. auto.
  - rewrite skipn_app, firstn_length, Nat.min_l by lia. rewrite skipn_all2 by (rewrite firstn_length; lia). cbn [app]. rewrite Hb, Hv.
    replace (N - lo) with ((hi - lo) + (N - hi)) by lia. rewrite repeat_app, skipn_app, repeat_length, Nat.sub_diag. rewrite skipn_all2 by (rewrite repeat_length; lia). auto.
Qed.
Lemma fill_0 a : fill 0 a = repeat 0 (length a).
Proof. unfold fill. cbn. rewrite Nat.sub_0_r. auto. Qed.
Lemma sm_in {X} (f : X -> nat) l x : In x l -> f x <= sm f l.
Proof. induction l as [|y l IH]; intros H; [destruct H|]. rewrite sm_cons. destruct H as [->|H]; [lia|]. specialize (IH H). lia. Qed.
Lemma sm_lt {X} (f g : X -> nat) l x : (forall y, In y l -> f y <= g y) -> In x l -> f x < g x -> sm f l < sm g l.
Proof.
  intros H Hx Hlt. induction l as [|y l IH]; [destruct Hx|]. rewrite !sm_cons. destruct Hx as [->|Hx].
  - assert (sm f l <= sm g l) by (apply sm_le; intros; apply H; cbn; auto). lia.
  - assert (sm f l < sm g l) by (apply IH; auto; intros; apply H; cbn; auto). specialize (H y (or_introl eq_refl)). lia.
Qed.

Section Stages.
Variable N : nat.
Variable rg : nat -> nat.
Variables n m : nat.
Hypothesis Hm : m < N.
Hypothesis Hn : n <= N.
Variable A : list key.
Hypothesis HA : incr (fun x => x) A.
Hypothesis HN : forall a, In a A -> length a = N.
Notation r_ := (r_ m A).

(** ** The position inside of a group with a common prefix *)
Lemma nth_cnt j a : nth_error A j = Some a -> sm (fun a' => b2n (lexb a' a)) A = j.
Proof.
  intros H. change (cnt (fun a' => lexb a' a) A = j). rewrite <- lb_cnt by auto. pose proof (find_key_spec A a HA) as F. assert (Ha : In a A) by (eapply nth_error_In; eauto).
  destruct (find_key A a) as [j'|]; [|contradiction]. destruct F as (<- & F). destruct (Nat.lt_trichotomy j' j) as [C|[C|C]]; [|exact C|].
  - pose proof (incr_nth A _ _ _ _ HA F H C) as X. rewrite lexb_irr in X. discriminate.
  - pose proof (incr_nth A _ _ _ _ HA H F C) as X. rewrite lexb_irr in X. discriminate.
Qed.
Lemma split_cnt t id : In id A -> sm (fun a => b2n (lexb a id)) A = sm (fun a => b2n (plt t a id)) A + sm (fun a => b2n (same t a id && lexb a id)) A.
Proof.
  intros Hid. rewrite <- sm_add. apply sm_ext. intros a Ha. rewrite (lexb_split t a id) by (rewrite !HN; auto). destruct (plt t a id) eqn:X; [rewrite (plt_same _ _ _ X); auto|]. cbn [orb b2n]. destruct (same t a id); auto.
Qed.
Lemma same_pos t id : In id A -> sm (fun a => b2n (same t a id && lexb a id)) A < sm (fun a => b2n (same t a id)) A.
Proof.
  intros Hid. apply (sm_lt _ _ A id); auto.
  - intros a _. destruct (same t a id), (lexb a id); cbn; lia.
  - rewrite lexb_irr, andb_false_r, same_refl. cbn. lia.
Qed.
Lemma group_nth t id k : In id A -> k < sm (fun a => b2n (same t a id)) A ->
  exists a, nth_error A (sm (fun a => b2n (plt t a id)) A + k) = Some a /\ In a A /\ same t a id = true /\ sm (fun a' => b2n (same t a' a && lexb a' a)) A = k.
Proof.
  intros Hid Hk. set (P := sm (fun a => b2n (plt t a id)) A) in *. set (c := sm (fun a => b2n (same t a id)) A) in *.
  assert (Hlen : P + c <= length A).
  { unfold P, c. rewrite <- sm_add. assert (E : forall l : list key, sm (fun _ => 1) l = length l) by (clear; induction l as [|x l IH]; [auto|]; rewrite sm_cons, IH; auto). rewrite <- (E A). apply sm_le.
    intros a _. destruct (plt t a id) eqn:X; [rewrite (plt_same _ _ _ X); cbn; lia|]. destruct (same t a id); cbn; lia. }
  destruct (nth_error A (P + k)) as [a|] eqn:E; [|apply nth_error_None in E; lia]. exists a. split; [auto|]. assert (Ha : In a A) by (eapply nth_error_In; eauto). split; [auto|].
  pose proof (nth_cnt _ _ E) as Hc.
  assert (Hs : same t a id = true).
  { destruct (pfx_cases t a id) as [C|[C|C]]; [|auto|]; exfalso.
    - assert (sm (fun a' => b2n (lexb a' a)) A < P); [|lia]. apply (sm_lt _ _ A a); auto; [|rewrite lexb_irr, C; cbn; lia]. intros y Hy. destruct (lexb y a) eqn:Y; [|cbn; lia].
      assert (plt t y id = true); [|rewrite H; cbn; lia]. destruct (lex_pfx t y a) as [Z|Z]; [rewrite !HN; auto|auto|eapply plt_trans; eauto|rewrite (same_plt_l t y a); auto].
    - assert (P + c <= sm (fun a' => b2n (lexb a' a)) A); [|lia]. unfold P, c. rewrite <- sm_add. apply sm_le. intros y Hy. destruct (plt t y id) eqn:X.
      + rewrite (plt_same _ _ _ X). rewrite (plt_lex t y a); [cbn; lia|rewrite !HN; auto|eapply plt_trans; eauto].
      + destruct (same t y id) eqn:Y; [|cbn; lia]. rewrite (plt_lex t y a); [cbn; lia|rewrite !HN; auto|rewrite (same_plt_l t y id); auto]. }
  split; [auto|]. rewrite (split_cnt t a Ha) in Hc. assert (Ep : sm (fun a' => b2n (plt t a' a)) A = P) by (apply sm_ext; intros y _; rewrite (same_plt_r t a id); auto). lia.
Qed.
Lemma pos_pos t id : In id A -> 0 < sm (fun a => b2n (same t a id)) A.
Proof. intros H. pose proof (same_pos t id H). lia. Qed.
Lemma lb_succ t id : In id A -> S t <= N -> lb A (set t (S (at_ t id)) (fill (S t) id)) = sm (fun a => b2n (plt (S t) a id)) A + sm (fun a => b2n (same (S t) a id)) A.
Proof.
  intros Hid Ht. rewrite lb_cnt by auto. unfold cnt. rewrite <- sm_add. apply sm_ext. intros a Ha. rewrite lexb_succ by (rewrite ?HN; auto; lia).
  destruct (plt (S t) a id) eqn:X; [rewrite (plt_same _ _ _ X); auto|]. destruct (same (S t) a id); auto.
Qed.

(** ** The search in w *)
Lemma w_entry l x e : l <= m -> good N 0 l m (ww m r_ l) x -> In e (weigh rg m x) -> exists a, In a A /\ fst e = fill l a /\ snd e = sm (fun b => if plt l b a then rg (at_ m b) else 0) A.
Proof.
  intros Hl G He. destruct (fold_add (fun e => set m 0 (fst e)) (fun e => rg (at_ m (fst e)) * snd e) x [] I) as (F1 & F2 & F3 & F4 & _). fold (weigh rg m x) in *.
  destruct (F3 e He) as [H|[]]. apply in_map_iff in H as (e' & E & He'). destruct (g_shape _ _ _ _ _ _ G e' He') as (L & Es). destruct (g_from _ _ _ _ _ _ G e' He') as (d & Hd & Ed).
  destruct (ww_ok N n m Hm Hn A HA HN l Hl) as (_ & _ & W3). destruct (W3 d Hd) as (a & Ha & Ea). exists a. split; [auto|].
  assert (Ef : fst e = fill l a). { rewrite <- E, Es. apply fill_eq; [rewrite L, (HN a Ha); auto|]. rewrite Ea in Ed. rewrite same_sym, (proj_same N n m Hm Hn), same_sym in Ed by lia. exact Ed. }
  split; [exact Ef|]. destruct (w_ok N rg n m Hm Hn A HA HN l x a Hl G Ha) as (W1 & W2). rewrite <- W2, <- Ef. symmetry. apply ordk_sum1; auto.
Qed.
Lemma w_cover l x a : l <= m -> good N 0 l m (ww m r_ l) x -> In a A -> In (fill l a) (map fst (weigh rg m x)).
Proof.
  intros Hl G Ha. destruct (fold_add (fun e => set m 0 (fst e)) (fun e => rg (at_ m (fst e)) * snd e) x [] I) as (F1 & F2 & F3 & F4 & _). fold (weigh rg m x) in *.
  destruct (reps_has _ _ _ a (ww_ok N n m Hm Hn A HA HN l Hl) Ha) as (d & Hd & Ed). destruct (g_cover _ _ _ _ _ _ G d Hd) as (e & He & Ee).
  destruct (g_shape _ _ _ _ _ _ G e He) as (L & Es). specialize (F4 e He). cbn beta in F4. rewrite Es in F4. rewrite (fill_eq l (fst e) a) in F4; [exact F4|rewrite L, (HN a Ha); auto|]. rewrite Ed in Ee. rewrite same_sym, (proj_same N n m Hm Hn), same_sym in Ee by lia. exact Ee.
Qed.
(** The choice of a group by a table of the sums over the smaller groups *)
Lemma choose l (W : mapk) (f : key -> nat) i : l <= N -> ordk W -> (forall e, In e W -> exists a, In a A /\ fst e = fill l a /\ snd e = sm (fun b => if plt l b a then f b else 0) A) ->
  (forall a, In a A -> In (fill l a) (map fst W)) -> i < sm f A ->
  exists e, fst (rfind i None (rev W)) = Some e /\ exists a, In a A /\ fst e = fill l a /\ snd e = sm (fun b => if plt l b a then f b else 0) A /\ snd e <= i < snd e + sm (fun b => if same l b a then f b else 0) A.
Proof.
  intros Hl Ho He Hc Hi. destruct (rfind_spec i W None) as (l1 & l2 & E & E2 & _ & E4).
  assert (Hz : A <> []) by (intros ->; unfold sm in Hi; cbn in Hi; lia).
  destruct (fst (rfind i None (rev W))) as [e|].
  - destruct E4 as (l0 & E0 & Hle). exists e. split; [auto|]. assert (HeW : In e W) by (rewrite E, E0; apply in_or_app; left; apply in_or_app; cbn; auto).
    destruct (He e HeW) as (a & Ha & Ef & Es). exists a. split; [auto|]. split; [auto|]. split; [auto|]. split; [auto|].
    assert (Hcase : forall b, In b A -> (exists e', In e' l2 /\ fst e' = fill l b) \/ plt l b a = true \/ same l b a = true).
    { intros b Hb. specialize (Hc b Hb). apply in_map_iff in Hc as (eb & Eb & Heb). rewrite E in Heb. apply in_app_or in Heb as [Heb|Heb]; [|left; eauto]. right.
      assert (Hlt : lexb (fst eb) (fst e) = true \/ eb = e).
      { rewrite E0 in Heb. apply in_app_or in Heb as [Heb|[->|[]]]; [left|auto]. apply (ordk_app l0 (e :: l2)); [|auto|cbn; auto]. rewrite E, E0, <- app_assoc in Ho. exact Ho. }
      rewrite Eb, Ef in Hlt. assert (Hsame : same l b a = true -> plt l b a = true \/ same l b a = true) by auto. destruct Hlt as [Hlt|Hlt].
      - rewrite lexb_fill in Hlt by (rewrite fill_len, !HN; auto). unfold plt in *. rewrite fill_firstn in Hlt by lia. auto.
      - right. apply same_eq. rewrite <- (fill_firstn l l b), <- (fill_firstn l l a) by lia. f_equal. rewrite <- Eb, <- Ef, Hlt. auto. }
    destruct l2 as [|e2 l2].
    + eapply Nat.lt_le_trans; [exact Hi|]. rewrite Es, <- sm_add. apply sm_le. intros b Hb. destruct (Hcase b Hb) as [(e' & [] & _)|[C|C]]; rewrite C; lia.
    + assert (He2 : In e2 W) by (rewrite E; apply in_or_app; cbn; auto). destruct (He e2 He2) as (a2 & Ha2 & Ef2 & Es2). specialize (E2 e2 (or_introl eq_refl)).
      eapply Nat.lt_le_trans; [exact E2|]. rewrite Es, Es2, <- sm_add. apply sm_le. intros b Hb. destruct (plt l b a2) eqn:X; [|lia].
      destruct (Hcase b Hb) as [(e' & He' & Ee')|[C|C]]; [|rewrite C; lia|rewrite C; lia]. exfalso.
      (* b is before a2 *)
      assert (Y : lexb (fill l b) (fill l a2) = true) by (apply fill_lt; [rewrite !HN; auto|auto]). rewrite <- Ee', <- Ef2 in Y.
      destruct He' as [->|He']; [rewrite lexb_irr in Y; discriminate|]. rewrite E in Ho. assert (Z : lexb (fst e2) (fst e') = true).
      { apply (ordk_app (l1 ++ [e2]) l2); [rewrite <- app_assoc; exact Ho|apply in_or_app; cbn; auto|auto]. }
      rewrite (lexb_asym _ _ Z) in Y. discriminate.
  - exfalso. subst l1. cbn in E. subst l2. destruct A as [|a0 A0] eqn:EA; [contradiction|]. rewrite <- EA in *. assert (Ha0 : In a0 A) by (rewrite EA; cbn; auto).
    specialize (Hc a0 Ha0). apply in_map_iff in Hc as (e & Ee & Hew). specialize (E2 e Hew). destruct (He e Hew) as (a & Ha & Ef & Es). rewrite Es in E2. rewrite sm_0 in E2; [lia|].
    intros b Hb. destruct (plt l b a) eqn:X; [|auto]. exfalso. assert (Eq : fill l a = fill l a0) by (rewrite <- Ef; exact Ee).
    assert (Y : plt l b a0 = true). { unfold plt in *. rewrite <- (fill_firstn l l a0), <- Eq, fill_firstn by lia. auto. }
    apply plt_lex in Y; [|rewrite !HN; auto]. rewrite EA in HA, Hb. cbn in HA. destruct HA as (H1 & _). destruct Hb as [->|Hb]; [rewrite lexb_irr in Y; discriminate|]. rewrite (lexb_asym _ _ (H1 b Hb)) in Y. discriminate.
Qed.

(** ** The search in r *)
Lemma set_same x res k : same m k (set m x res) = same m k res.
Proof. unfold same. rewrite (set_firstn m x m res (le_n m)). auto. Qed.
Lemma rloop_while g l : forall res sum i, rloop m g l res sum i = rloop m g (while_ (fun e => same m (fst e) res) l) res sum i.
Proof.
  induction l as [|(k, v) l IH]; intros res sum i; [auto|]. cbn [rloop while_ fst]. destruct (same m k res) eqn:E; [|auto]. cbn [rloop]. rewrite E. destruct (i <? sum + g (at_ m k) * v); [auto|].
  rewrite IH. f_equal. clear. induction l as [|e l IH]; [auto|]. cbn. rewrite set_same, IH. auto.
Qed.
Lemma rloop_found g es : forall res sum i, (forall e, In e es -> same m (fst e) res = true) -> sum <= i < sum + sm (fun e => g (at_ m (fst e)) * snd e) es ->
  exists es1 e es2, es = es1 ++ e :: es2 /\ rloop m g es res sum i = (set m (at_ m (fst e)) res, i - (sum + sm (fun e => g (at_ m (fst e)) * snd e) es1)) /\
    sum + sm (fun e => g (at_ m (fst e)) * snd e) es1 <= i < sum + sm (fun e => g (at_ m (fst e)) * snd e) es1 + g (at_ m (fst e)) * snd e.
Proof.
  induction es as [|(k, v) es IH]; intros res sum i Hs Hi; [unfold sm in Hi; cbn in Hi; lia|]. cbn [rloop]. pose proof (Hs (k, v) (or_introl eq_refl)) as Hs0. cbn [fst] in Hs0. rewrite Hs0. rewrite sm_cons in Hi. cbn [fst snd] in Hi.
  destruct (Nat.ltb_spec i (sum + g (at_ m k) * v)) as [C|C].
  - exists [], (k, v), es. cbn [app fst snd]. unfold sm. cbn [fold_right]. rewrite Nat.add_0_r. split; [auto|]. split; [auto|lia].
  - destruct (IH (set m (at_ m k) res) (sum + g (at_ m k) * v) i) as (es1 & e & es2 & E1 & E2 & E3); [intros e He; rewrite set_same; apply Hs; cbn; auto|lia|].
    exists ((k, v) :: es1), e, es2. split; [rewrite E1; auto|]. rewrite E2, set_set, sm_cons. cbn [fst snd]. split; [f_equal; lia|lia].
Qed.
Lemma r_stage g a1 i : In a1 A -> i < sm (fun a => if same m a a1 then g (at_ m a) else 0) A ->
  exists a2, In a2 A /\ same m a2 a1 = true /\ let S0 := sm (fun a => if same m a a2 && (at_ m a <? at_ m a2) then g (at_ m a) else 0) A in
    rloop m g (skipn (lbk r_ (fill m a1)) r_) (fill m a1) 0 i = (fill (S m) a2, i - S0) /\ S0 <= i < S0 + g (at_ m a2) * sm (fun a => b2n (same (S m) a a2)) A.
Proof.
  intros Ha1 Hi. assert (HaN : length a1 = N) by auto. pose proof (r_ok N n m Hm Hn A HA HN) as R. pose proof R as (R1 & R2 & R3).
  assert (Hk : forall e, In e r_ -> length (fst e) = N) by (intros e He; destruct (R3 e He) as (a & Ha & ->); rewrite fill_len; auto).
  rewrite rloop_while. unfold lbk. rewrite (scan_filter fst).
  2:{ apply ordk_incr, R1. }
  2:{ intros e He E. rewrite lexb_fill by (rewrite Hk; auto). rewrite fill_same in E by lia. destruct (plt m (fst e) a1) eqn:C; [|auto]. apply plt_same in C. congruence. }
  2:{ intros a b Ha Hb E1 E2 E3. pose proof (Hk a Ha) as La. pose proof (Hk b Hb) as Lb. rewrite lexb_fill in E1 by lia. rewrite fill_same in * by lia.
      destruct (pfx_cases m (fst a) a1) as [C|[C|C]]; [congruence|auto|]. exfalso. rewrite <- (same_plt_l m (fst b) a1) in C by auto. apply plt_lex in C; [|lia]. rewrite (lexb_asym _ _ E2) in C. discriminate. }
  set (es := filter (fun e => same m (fst e) (fill m a1)) r_).
  assert (Hsum : sm (fun e => g (at_ m (fst e)) * snd e) es = sm (fun a => if same m a a1 then g (at_ m a) else 0) A).
  { unfold es. rewrite sm_filter. rewrite (reps_if _ A (fill (S m)) (fun k => same m k (fill m a1)) (fun k => g (at_ m k))) by auto. apply sm_ext. intros a Ha. rewrite fill_same by lia. rewrite at_fill by lia. unfold same. rewrite fill_firstn by lia. auto. }
  destruct (rloop_found g es (fill m a1) 0 i) as (es1 & e & es2 & E1 & E2 & E3); [intros e He; apply filter_In in He; apply He|lia|].
  assert (He : In e es) by (rewrite E1; apply in_or_app; cbn; auto). unfold es in He. apply filter_In in He as (He & Hes). rewrite fill_same in Hes by lia.
  destruct (R3 e He) as (a2 & Ha2 & Ea2). exists a2. split; [auto|]. assert (Hs21 : same m a2 a1 = true) by (rewrite Ea2 in Hes; unfold same in *; rewrite fill_firstn in Hes by lia; auto). split; [auto|]. cbn zeta.
  assert (Hset : set m (at_ m (fst e)) (fill m a1) = fill (S m) a2).
  { rewrite Ea2, at_fill by lia. rewrite <- (proj_m N n m Hm Hn a2) by auto. unfold proj. f_equal. apply fill_eq; [rewrite !HN; auto|rewrite same_sym; auto]. }
  assert (Hes1 : sm (fun e => g (at_ m (fst e)) * snd e) es1 = sm (fun a => if same m a a2 && (at_ m a <? at_ m a2) then g (at_ m a) else 0) A).
  { transitivity (sm (fun x => if at_ m (fst x) <? at_ m (fst e) then g (at_ m (fst x)) * snd x else 0) es).
    - assert (Hord : ordk es). { unfold es. clear -R1. revert R1. generalize r_. intros l. induction l as [|x l IH]; intros H; [exact H|]. destruct H as (H1 & H2). cbn [filter]. destruct (same m (fst x) (fill m a1)); [|auto]. split; [|auto]. intros b Hb. apply filter_In in Hb. apply H1, Hb. }
      assert (Hat : forall x y, In x es -> In y es -> lexb (fst x) (fst y) = true -> at_ m (fst x) < at_ m (fst y)).
      { intros x y Hx Hy Hlt. apply filter_In in Hx as (Hx & Sx), Hy as (Hy & Sy). rewrite fill_same in Sx, Sy by lia. pose proof (Hk x Hx) as Lx. pose proof (Hk y Hy) as Ly.
        destruct (R3 x Hx) as (ax & Hax & Eax), (R3 y Hy) as (ay & Hay & Eay). assert (Hl2 : plt (S m) (fst x) (fst y) = true).
        { rewrite Eay, lexb_fill in Hlt by (rewrite Lx, HN; auto). rewrite Eay, fill_plt by lia. auto. }
        rewrite plt_S in Hl2 by lia. assert (Sxy : same m (fst x) (fst y) = true) by (rewrite (same_same_r m (fst y) a1); auto). rewrite Sxy in Hl2.
        destruct (plt m (fst x) (fst y)) eqn:P; [apply plt_same in P; congruence|]. cbn [orb andb] in Hl2. apply Nat.ltb_lt in Hl2. auto. }
      rewrite E1, sm_app, sm_cons, Nat.ltb_irrefl. rewrite (sm_0 _ es2).
      + rewrite !Nat.add_0_r. apply sm_ext. intros x Hx. rewrite (proj2 (Nat.ltb_lt _ _)); [auto|]. apply Hat; [rewrite E1; apply in_or_app; auto|rewrite E1; apply in_or_app; cbn; auto|]. rewrite E1 in Hord. apply (ordk_app es1 (e :: es2)); cbn; auto.
      + intros x Hx. rewrite (proj2 (Nat.ltb_ge _ _)); [auto|]. apply Nat.lt_le_incl, Hat; [rewrite E1; apply in_or_app; cbn; auto|rewrite E1; apply in_or_app; cbn; auto|].
        rewrite E1 in Hord. apply (ordk_app (es1 ++ [e]) es2); [rewrite <- app_assoc; auto|apply in_or_app; cbn; auto|auto].
    - unfold es. rewrite sm_filter. rewrite (sm_ext _ (fun x => if same m (fst x) (fill m a1) && (at_ m (fst x) <? at_ m (fst e)) then g (at_ m (fst x)) * snd x else 0)) by (intros x _; destruct (same m (fst x) (fill m a1)); auto).
      rewrite (reps_if _ A (fill (S m)) (fun k => same m k (fill m a1) && (at_ m k <? at_ m (fst e))) (fun k => g (at_ m k))) by auto. apply sm_ext. intros a Ha.
      rewrite fill_same by lia. rewrite Ea2, !at_fill by lia. rewrite (same_same_r m a2 a1) by auto. unfold same. rewrite fill_firstn by lia. auto. }
  rewrite E2, Hset, <- Hes1. split; [rewrite Nat.add_0_l; auto|]. cbn [plus] in E3. destruct E3 as (E3 & E4). split; [auto|].
  assert (Hcnt : snd e = sm (fun a => b2n (same (S m) a a2)) A).
  { rewrite <- (ordk_sum1 r_ e R1 He). rewrite (R2 (fun k => if keyb k (fst e) then 1 else 0)). apply sm_ext. intros a Ha. rewrite Ea2. destruct (same (S m) a a2) eqn:X.
    - rewrite (fill_eq (S m) a a2) by (auto; rewrite !HN; auto). rewrite keyb_refl. auto.
    - destruct (keyb (fill (S m) a) (fill (S m) a2)) eqn:Y; [|auto]. apply keyb_eq in Y. assert (same (S m) a a2 = true); [|congruence]. apply same_eq. rewrite <- (fill_firstn (S m) (S m) a), <- (fill_firstn (S m) (S m) a2) by lia. rewrite Y. auto. }
  rewrite <- Hcnt. rewrite Ea2, at_fill in E4 by lia. auto.
Qed.
End Stages.
