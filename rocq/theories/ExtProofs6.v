(** The searches of begin(i) in qr and p. *)
From Verif Require Import Prelude ExtModel ExtSpec ExtProofs ExtProofs2 ExtProofs3 ExtProofs5.
Local Arguments Nat.ltb : simpl never.
Local Arguments Nat.eqb : simpl never.
Local Arguments Nat.leb : simpl never.
Local Arguments sm : simpl never.

Lemma fold_keys {X} (f : X -> nat) q : forall s, ord Nat.ltb s ->
  let s' := fold_left (fun s e => emplace Nat.ltb (f e) tt s) q s in
  ord Nat.ltb s' /\ forall x, In x (map fst s') <-> In x (map f q) \/ In x (map fst s).
Proof.
  induction q as [|e q IH]; intros s Hs s'; [cbn in s'; subst s'; split; [auto|]; cbn; tauto|]. cbn [fold_left] in s'.
  destruct (IH (emplace Nat.ltb (f e) tt s) (upd_ord Nat.ltb nat_trans nat_total _ _ _ _ Hs)) as (I1 & I2). fold s' in I1, I2. split; [auto|]. intros x. rewrite I2. cbn [map In].
  assert (H : In x (map fst (emplace Nat.ltb (f e) tt s)) <-> x = f e \/ In x (map fst s)).
  { split.
    - intros H. apply in_map_iff in H as (y & <- & Hy). apply (upd_keys Nat.ltb nat_total) in Hy as [->|Hy]; [auto|right; apply in_map, Hy].
    - intros [->|H]; [apply (upd_has Nat.ltb nat_total)|apply upd_mono, H]. }
  rewrite H. intuition.
Qed.
Lemma while_split {X} (p : X -> bool) l : l = while_ p l ++ skipn (length (while_ p l)) l.
Proof. induction l as [|x l IH]; [auto|]. cbn. destruct (p x); [|auto]. cbn. rewrite <- IH. auto. Qed.
Lemma while_all {X} (p : X -> bool) l x : In x (while_ p l) -> p x = true.
Proof. induction l as [|y l IH]; cbn; [tauto|]. destruct (p y) eqn:E; cbn; [|tauto]. intros [<-|H]; auto. Qed.
Lemma filter_none {X} (p : X -> bool) l : (forall x, In x l -> p x = false) -> filter p l = [].
Proof. induction l as [|y l IH]; intros H; [auto|]. cbn. rewrite H by (cbn; auto). apply IH. intros; apply H; cbn; auto. Qed.
Lemma filter_all {X} (p : X -> bool) l : (forall x, In x l -> p x = true) -> filter p l = l.
Proof. induction l as [|y l IH]; intros H; [auto|]. cbn. rewrite H by (cbn; auto). f_equal. apply IH. intros; apply H; cbn; auto. Qed.
Lemma filter_ext_in' {X} (p p' : X -> bool) l : (forall x, In x l -> p x = p' x) -> filter p l = filter p' l.
Proof. apply filter_ext_in. Qed.

Section Groups.
Variables N n : nat.
Definition head_fill (g : mapk) : key := match g with (k, _) :: _ => fill n k | [] => [] end.
Lemma groups_ok : forall fuel q, length q <= fuel -> ordk q -> (forall e, In e q -> length (fst e) = N) ->
  incr head_fill (groups n fuel q) /\
  (forall g, In g (groups n fuel q) -> exists e, In e q /\ head_fill g = fill n (fst e) /\ g = filter (fun e' => same n (fst e) (fst e')) q) /\
  (forall e, In e q -> exists g, In g (groups n fuel q) /\ head_fill g = fill n (fst e)).
Proof.
  induction fuel as [|fuel IH]; intros q Hf Ho HN; [destruct q; [|cbn in Hf; lia]; cbn; split; [auto|]; split; intros ? []|].
  destruct q as [|e q]; [cbn; split; [auto|]; split; intros ? []|]. cbn [groups]. destruct Ho as (H1 & H2).
  set (p := fun e' : key * nat => same n (fst e) (fst e')). set (g := while_ p q).
  assert (HeN : length (fst e) = N) by (apply HN; cbn; auto). assert (HqN : forall x, In x q -> length (fst x) = N) by (intros; apply HN; cbn; auto).
  assert (Hg : g = filter p q).
  { apply (while_filter fst); [apply ordk_incr, H2|]. intros a b Ha Hb Hab Hp. unfold p in *. pose proof (HqN a Ha). pose proof (HqN b Hb). destruct (lex_pfx n (fst e) (fst a)) as [C|C]; [lia|apply H1, Ha| |auto].
    exfalso. destruct (lex_pfx n (fst a) (fst b)) as [D|D]; [lia|auto| |].
    - rewrite <- (same_plt_r n (fst e) (fst b)) in D by auto. rewrite (plt_asym _ _ _ C) in D. discriminate.
    - rewrite <- (same_same_r n (fst a) (fst b)) in Hp by auto. apply plt_same in C. congruence. }
  set (q' := skipn (length g) q). assert (Eq : q = g ++ q') by apply while_split.
  assert (Hq' : forall x, In x q' -> p x = false).
  { intros x Hx. destruct (p x) eqn:E; [|auto]. exfalso. assert (F : filter p q' = []). { assert (Hgg : filter p g = g) by (apply filter_all; intros y Hy; apply while_all in Hy; auto). apply (app_inv_head g). rewrite app_nil_r. transitivity (filter p q); [rewrite Eq, filter_app, Hgg|]; auto. }
    assert (C : In x (filter p q')) by (apply filter_In; auto). rewrite F in C. destruct C. }
  assert (Hsub : forall x, In x q' -> In x q) by (intros x Hx; rewrite Eq; apply in_or_app; auto).
  destruct (IH q') as (I1 & I2 & I3).
  - unfold q'. rewrite skipn_length. cbn in Hf. lia.
  - apply ordk_incr. unfold q'. apply incr_skipn, ordk_incr, H2.
  - intros x Hx. auto.
  - assert (Hlt : forall x, In x q' -> lexb (fill n (fst e)) (fill n (fst x)) = true).
    { intros x Hx. apply fill_lt; [rewrite (HqN x) by auto; auto|]. destruct (lex_pfx n (fst e) (fst x)) as [C|C]; [rewrite (HqN x) by auto; auto|apply H1, Hsub, Hx|auto|]. specialize (Hq' x Hx). unfold p in Hq'. congruence. }
    split; [|split].
    + cbn [incr]. split; [|exact I1]. intros g' Hg'. destruct (I2 g' Hg') as (x & Hx & E & _). rewrite E. destruct e as [k v]. cbn [head_fill]. apply Hlt, Hx.
    + intros g' [<-|Hg'].
      * exists e. split; [cbn; auto|]. split; [destruct e; auto|]. cbn [filter]. unfold p in Hg. rewrite same_refl, <- Hg. auto.
      * destruct (I2 g' Hg') as (x & Hx & E & F). exists x. split; [right; auto|]. split; [auto|]. rewrite F. cbn [filter].
        assert (Hxe : forall y : key * nat, same n (fst e) (fst y) = true -> same n (fst x) (fst y) = false).
        { intros y Hy. destruct (same n (fst x) (fst y)) eqn:C; [|auto]. specialize (Hq' x Hx). unfold p in Hq'. rewrite (same_same_r n (fst x) (fst y)) in Hq' by auto. congruence. }
        rewrite (Hxe e) by apply same_refl. rewrite Eq, filter_app. rewrite (filter_none _ g); [auto|]. intros y Hy. apply Hxe. apply while_all in Hy. exact Hy.
    + intros x [<-|Hx]; [exists (e :: g); split; [cbn; auto|destruct e; auto]|]. rewrite Eq in Hx. apply in_app_or in Hx as [Hx|Hx].
      * exists (e :: g). split; [cbn; auto|]. assert (Hp : p x = true) by (apply while_all in Hx; auto). destruct e as [k v]. cbn [head_fill]. apply fill_eq; [cbn [fst] in HeN; rewrite (HqN x); [auto|rewrite Eq; apply in_or_app; auto]|exact Hp].
      * destruct (I3 x Hx) as (g' & Hg' & E). exists g'. split; [right; auto|auto].
Qed.
End Groups.

Section Q.
Variable rg : nat -> nat.
Variables m : nat.
Variable g : mapk.
Let F (x : nat) := sm (fun e => Nat.min (rg (at_ m (fst e))) x * snd e) g.
Lemma beta_ok i : i < sm (fun e => rg (at_ m (fst e)) * snd e) g ->
  let bs := beta_sz rg m g in
  exists v' s' v s w, snd (rfind i None (rev bs)) = Some (v', s') /\ (match fst (rfind i None (rev bs)) with Some e => e | None => (0, 0) end) = (v, s) /\
    v < v' /\ 0 < w /\ s' - s = w * (v' - v) /\ s <= i < s' /\
    (forall b, v <= b < v' -> F b = s + (b - v) * w /\ sm (fun e => (if b <? rg (at_ m (fst e)) then 1 else 0) * snd e) g = w).
Proof.
  intros Hi bs. unfold beta_sz in bs. destruct (fold_keys (fun e : key * nat => rg (at_ m (fst e))) g [] I) as (V1 & V2).
  set (V := fold_left (fun s e => emplace Nat.ltb (rg (at_ m (fst e))) tt s) g []) in *.
  assert (Ebs : bs = map (fun v => (v, F v)) (map fst V)) by (unfold bs; rewrite map_map; auto). clearbody bs. subst bs.
  assert (Hin : forall x, In x (map fst V) <-> exists e, In e g /\ rg (at_ m (fst e)) = x).
  { intros x. rewrite V2. cbn. split; [intros [H|[]]; apply in_map_iff in H as (e & <- & He); eauto|intros (e & He & <-); left; apply in_map_iff; eauto]. }
  assert (Hsort : forall l1 l2, map fst V = l1 ++ l2 -> forall x y, In x l1 -> In y l2 -> x < y).
  { clear -V1. intros l1. revert V1. generalize V. clear V. induction l1 as [|a l1 IH]; intros V V1 l2 E x y Hx Hy; [destruct Hx|]. destruct V as [|b V]; [discriminate|]. cbn in E. injection E as <- E. destruct V1 as (A1 & A2).
    destruct Hx as [<-|Hx]; [|apply (IH V A2 l2 E); auto]. assert (Hy' : In y (map fst V)) by (rewrite E; apply in_or_app; auto). apply in_map_iff in Hy' as (z & <- & Hz). apply Nat.ltb_lt, A1, Hz. }
  destruct (rfind_spec i (map (fun v => (v, F v)) (map fst V)) None) as (l1 & l2 & E & E2 & E3 & E4).
  assert (Hspl : exists k1 k2, map fst V = k1 ++ k2 /\ l1 = map (fun v => (v, F v)) k1 /\ l2 = map (fun v => (v, F v)) k2).
  { clear -E. revert l1 E. generalize (map fst V) as l. induction l as [|x l IH]; intros l1 E.
    - cbn in E. symmetry in E. apply app_eq_nil in E as (-> & ->). exists [], []. auto.
    - destruct l1 as [|y l1]; [cbn in E; exists [], (x :: l); cbn; auto|]. cbn in E. injection E as <- E. destruct (IH l1 E) as (k1 & k2 & -> & -> & ->). exists (x :: k1), k2. auto. }
  destruct Hspl as (k1 & k2 & Ek & -> & ->).
  assert (Htot : forall x, (forall e, In e g -> rg (at_ m (fst e)) <= x) -> F x = sm (fun e => rg (at_ m (fst e)) * snd e) g).
  { intros x H. apply sm_ext. intros e He. rewrite Nat.min_l; auto. }
  destruct k2 as [|v' k2].
  { exfalso. rewrite app_nil_r in Ek. destruct (fst (rfind i None (rev (map (fun v => (v, F v)) (map fst V))))) as [e|].
    - destruct E4 as (l0 & El & Hle). assert (He : In e (map (fun v => (v, F v)) k1)) by (rewrite El; apply in_or_app; cbn; auto). apply in_map_iff in He as (v & <- & Hv). cbn in Hle.
      assert (Hk : exists k0, k1 = k0 ++ [v]). { destruct k1 as [|x k1] using rev_ind; [destruct Hv|]. rewrite map_app in El. cbn in El. apply app_inj_tail in El as (_ & El). injection El as ->. eauto. }
      destruct Hk as (k0 & ->). rewrite Htot in Hle; [lia|]. intros e He. assert (Hx : In (rg (at_ m (fst e))) (map fst V)) by (apply Hin; eauto). rewrite Ek in Hx. apply in_app_or in Hx as [Hx|[<-|[]]]; [|auto]. apply Nat.lt_le_incl, (Hsort k0 [v] Ek); cbn; auto.
    - apply map_eq_nil in E4. destruct g as [|e g0] eqn:Eg; [unfold sm in Hi; cbn in Hi; lia|].
      assert (Hx : In (rg (at_ m (fst e))) (map fst V)) by (apply Hin; exists e; cbn; auto). rewrite Ek, E4 in Hx. destruct Hx. }
  cbn [map] in E3, E2. exists v', (F v').
  assert (Hvs : exists v s, (match fst (rfind i None (rev (map (fun v => (v, F v)) (map fst V)))) with Some e => e | None => (0, 0) end) = (v, s) /\ s = F v /\ v < v' /\ s <= i /\ forall e, In e g -> rg (at_ m (fst e)) <= v \/ v' <= rg (at_ m (fst e))).
  { assert (Hge : forall x, In x (v' :: k2) -> v' <= x).
    { intros x [<-|Hx]; [auto|]. apply Nat.lt_le_incl, (Hsort (k1 ++ [v']) k2); [rewrite <- app_assoc; auto|apply in_or_app; cbn; auto|auto]. }
    specialize (E2 _ (or_introl eq_refl)). cbn [snd] in E2.
    destruct (fst (rfind i None (rev (map (fun v => (v, F v)) (map fst V))))) as [e|].
    - destruct E4 as (l0 & El & Hle). assert (Hk : exists k0 v, k1 = k0 ++ [v] /\ e = (v, F v)).
      { destruct k1 as [|x k1 _] using rev_ind; [destruct l0; discriminate|]. rewrite map_app in El. cbn in El. apply app_inj_tail in El as (_ & El). eauto. }
      destruct Hk as (k0 & v & -> & ->). cbn [snd] in Hle. exists v, (F v). split; [auto|]. split; [auto|]. split; [apply (Hsort (k0 ++ [v]) (v' :: k2) Ek); [apply in_or_app; cbn; auto|cbn; auto]|]. split; [auto|].
      intros e He. assert (Hx : In (rg (at_ m (fst e))) (map fst V)) by (apply Hin; eauto). rewrite Ek in Hx. apply in_app_or in Hx as [Hx|Hx]; [left|right; auto].
      apply in_app_or in Hx as [Hx|[<-|[]]]; [|auto]. rewrite <- app_assoc in Ek. apply Nat.lt_le_incl, (Hsort k0 ([v] ++ v' :: k2) Ek); cbn; auto.
    - exists 0, 0. split; [auto|]. assert (F0 : F 0 = 0) by (apply sm_0; intros e _; rewrite Nat.min_0_r; auto). split; [auto|]. split; [destruct v'; [lia|lia]|]. split; [lia|].
      intros e He. right. assert (Hx : In (rg (at_ m (fst e))) (map fst V)) by (apply Hin; eauto). rewrite Ek in Hx. destruct k1; [apply Hge, Hx|discriminate]. }
  destruct Hvs as (v & s & Ev & Es & Hlt & Hs & Hgap). exists v, s. set (w := sm (fun e => (if v' <=? rg (at_ m (fst e)) then 1 else 0) * snd e) g). exists w.
  specialize (E2 _ (or_introl eq_refl)). cbn [snd] in E2.
  assert (HF : forall b, v <= b <= v' -> F b = s + (b - v) * w).
  { intros b Hb. rewrite Es. unfold F, w. rewrite <- sm_mul, <- sm_add. apply sm_ext. intros e He. destruct (Hgap e He) as [H|H].
    - rewrite (proj2 (Nat.leb_gt _ _)) by lia. rewrite !Nat.min_l by lia. lia.
    - rewrite (proj2 (Nat.leb_le _ _)) by lia. rewrite !Nat.min_r by lia. nia. }
  assert (Es' : F v' - s = w * (v' - v)) by (rewrite HF by lia; nia).
  split; [exact E3|]. split; [exact Ev|]. split; [auto|]. split; [|split; [exact Es'|split; [lia|]]].
  - destruct w; [|lia]. rewrite HF in E2 by lia. lia.
  - intros b Hb. split; [apply HF; lia|]. apply sm_ext. intros e He. destruct (Hgap e He) as [H|H].
    + rewrite (proj2 (Nat.ltb_ge _ _)), (proj2 (Nat.leb_gt _ _)) by lia. auto.
    + rewrite (proj2 (Nat.ltb_lt _ _)), (proj2 (Nat.leb_le _ _)) by lia. auto.
Qed.
End Q.

Section P.
Variable rg : nat -> nat.
Variables N n m : nat.
Variable beta : nat.
Notation c e := (if beta <? rg (at_ m (fst e)) then snd e else 0).
Definition Cs (l : mapk) (X : key) : nat := sm (fun e => if same m (fst e) X then c e else 0) l.
Lemma ploop_while l a1 : forall p_id prev sum ps i, same n p_id a1 = true -> ploop rg n m beta l p_id prev sum ps i = ploop rg n m beta (while_ (fun e => same n (fst e) a1) l) p_id prev sum ps i.
Proof.
  induction l as [|(k, v) l IH]; intros p_id prev sum ps i Hp; [auto|]. cbn [ploop while_ fst]. rewrite (same_same_r n p_id a1) by auto. destruct (same n k a1) eqn:E; [|auto]. cbn [ploop]. rewrite (same_same_r n p_id a1), E by auto.
  destruct (same m p_id k); [destruct (i <? _); auto|]. destruct (i <? _); auto.
Qed.
Variable js : mapk.
Variable a1 : key.
Variable i : nat.
Hypothesis Ho : ordk js.
Hypothesis HN : forall e, In e js -> length (fst e) = N /\ same n (fst e) a1 = true.
Hypothesis H0 : forall e, In e js -> (forall d, In d js -> plt m (fst e) (fst d) = true \/ same m (fst e) (fst d) = true) -> Cs js (fst e) = 0.
Lemma Cs_app l1 l2 X : Cs (l1 ++ l2) X = Cs l1 X + Cs l2 X.
Proof. apply sm_app. Qed.
Lemma Cs_same l X Y : same m X Y = true -> Cs l X = Cs l Y.
Proof. intros H. apply sm_ext. intros e _. rewrite (same_same_r m X Y); auto. Qed.
Lemma Cs_0 l X : (forall e, In e l -> same m (fst e) X = false) -> Cs l X = 0.
Proof. intros H. apply sm_0. intros e He. rewrite H; auto. Qed.
Definition maxi (pid : key) : Prop := forall d, In d js -> plt m (fst d) pid = true \/ same m (fst d) pid = true.
Definition result (pid : key) (pn : nat) : Prop :=
  In pid (map fst js) /\ pn = Cs js pid /\ pn <= i /\
  (maxi pid \/ exists X, In X (map fst js) /\ i < Cs js X /\ forall d, In d js -> plt m (fst d) X = true -> plt m (fst d) pid = true \/ same m (fst d) pid = true).
Lemma ploop_ok : forall rest dn p_id prev sum ps, js = dn ++ rest -> In p_id (map fst dn) -> sum = Cs dn p_id -> sum <= i ->
  (forall d, In d dn -> plt m (fst d) p_id = true \/ same m (fst d) p_id = true) ->
  ((forall d, In d dn -> same m (fst d) p_id = true) \/
   (In prev (map fst dn) /\ plt m prev p_id = true /\ ps = Cs dn prev /\ ps <= i /\ forall d, In d dn -> plt m (fst d) p_id = true -> plt m (fst d) prev = true \/ same m (fst d) prev = true)) ->
  let (pid, pn) := ploop rg n m beta rest p_id prev sum ps i in result pid pn.
Proof.
  induction rest as [|(k, v) rest IH]; intros dn p_id prev sum ps Ejs Hp Hsum Hle Hmax Hprev.
  - cbn [ploop]. rewrite app_nil_r in Ejs. subst dn. repeat split; auto.
  - cbn [ploop].
    assert (Hpj : In p_id (map fst js)) by (rewrite Ejs, map_app; apply in_or_app; auto).
    assert (Hkj : In (k, v) js) by (rewrite Ejs; apply in_or_app; cbn; auto). destruct (HN _ Hkj) as (HkN & Hkn). cbn [fst] in HkN, Hkn.
    assert (HpN : length p_id = N /\ same n p_id a1 = true) by (apply in_map_iff in Hpj as (e & <- & He); auto). destruct HpN as (HpN & Hpn).
    rewrite (same_same_r n p_id a1), Hkn by auto. set (c0 := if beta <? rg (at_ m k) then v else 0).
    assert (Hlt : lexb p_id k = true).
    { apply in_map_iff in Hp as (e & <- & He). change k with (fst (k, v)). apply (ordk_app dn ((k, v) :: rest)); [rewrite <- Ejs; auto|auto|cbn; auto]. }
    assert (Ejs' : js = (dn ++ [(k, v)]) ++ rest) by (rewrite <- app_assoc; auto).
    assert (Hrest : forall d, In d rest -> lexb k (fst d) = true /\ length (fst d) = N).
    { intros d Hd. split; [|apply HN; rewrite Ejs; apply in_or_app; cbn; auto]. change k with (fst (k, v)). apply (ordk_app (dn ++ [(k, v)]) rest); [rewrite <- Ejs'; auto|apply in_or_app; cbn; auto|auto]. }
    destruct (same m p_id k) eqn:Esd.
    + assert (Hsum' : sum + c0 = Cs (dn ++ [(k, v)]) p_id).
      { rewrite Cs_app, Hsum. unfold Cs at 3. rewrite sm_cons. cbn [fst snd]. rewrite same_sym, Esd. unfold sm. cbn [fold_right]. fold c0. lia. }
      destruct (Nat.ltb_spec i (sum + c0)) as [C|C].
      * destruct Hprev as [Hfirst|(P1 & P2 & P3 & P4 & P5)].
        -- exfalso. assert (Hz : Cs js p_id = 0).
           { apply in_map_iff in Hp as (e & <- & He). apply H0; [rewrite Ejs; apply in_or_app; auto|]. intros d Hd. rewrite Ejs' in Hd. apply in_app_or in Hd as [Hd|Hd].
             - apply in_app_or in Hd as [Hd|[<-|[]]]; [right; rewrite same_sym; auto|auto].
             - destruct (Hrest d Hd) as (R1 & R2). destruct (lex_pfx m k (fst d)) as [D|D]; [lia|auto|left; rewrite (same_plt_l m (fst e) k); auto|right; rewrite (same_same_l m (fst e) k); auto]. }
           rewrite Ejs', Cs_app in Hz. lia.
        -- assert (Hprest : forall d, In d ((k, v) :: rest) -> same m (fst d) prev = false).
           { intros d Hd. destruct (same m (fst d) prev) eqn:D; [|auto]. exfalso. assert (Hpd : plt m p_id (fst d) = true \/ same m p_id (fst d) = true).
             { destruct Hd as [<-|Hd]; [auto|]. destruct (Hrest d Hd) as (R1 & R2). destruct (lex_pfx m k (fst d)) as [X|X]; [lia|auto|left; rewrite (same_plt_l m p_id k); auto|right; rewrite (same_same_l m p_id k); auto]. }
             destruct Hpd as [X|X].
             - rewrite (same_plt_r m (fst d) prev) in X by auto. rewrite (plt_asym _ _ _ P2) in X. discriminate.
             - rewrite (same_same_r m (fst d) prev) in X by auto. apply plt_same in P2. rewrite same_sym in X. congruence. }
           split; [rewrite Ejs, map_app; apply in_or_app; auto|]. split; [rewrite Ejs, Cs_app, (Cs_0 ((k, v) :: rest)) by auto; lia|]. split; [auto|]. right. exists p_id. split; [auto|].
           split; [rewrite Ejs', Cs_app; lia|]. intros d Hd X. rewrite Ejs in Hd. apply in_app_or in Hd as [Hd|Hd]; [auto|]. exfalso.
           destruct Hd as [<-|Hd]; [apply plt_same in X; rewrite same_sym in Esd; cbn [fst] in X; congruence|]. destruct (Hrest d Hd) as (R1 & R2). rewrite (same_plt_r m p_id k) in X by auto. apply plt_lex in X; [|lia]. rewrite (lexb_asym _ _ R1) in X. discriminate.
      * apply (IH (dn ++ [(k, v)])); auto.
        -- rewrite map_app. apply in_or_app. auto.
        -- intros d Hd. apply in_app_or in Hd as [Hd|[<-|[]]]; [auto|]. right. cbn. rewrite same_sym. auto.
        -- destruct Hprev as [Hfirst|(P1 & P2 & P3 & P4 & P5)].
           ++ left. intros d Hd. apply in_app_or in Hd as [Hd|[<-|[]]]; [auto|]. cbn. rewrite same_sym. auto.
           ++ right. split; [rewrite map_app; apply in_or_app; auto|]. split; [auto|]. split; [|split; [auto|]].
              ** rewrite Cs_app, (Cs_0 [(k, v)]); [lia|]. intros d [<-|[]]. cbn [fst]. rewrite (same_same_l m k p_id) by (rewrite same_sym; auto). rewrite same_sym. apply plt_same, P2.
              ** intros d Hd X. apply in_app_or in Hd as [Hd|[<-|[]]]; [auto|]. cbn [fst] in X. apply plt_same in X. rewrite same_sym in Esd. congruence.
    + assert (Hpk : plt m p_id k = true) by (destruct (lex_pfx m p_id k) as [X|X]; [lia|auto|auto|congruence]).
      assert (Hdk : forall d, In d dn -> plt m (fst d) k = true).
      { intros d Hd. destruct (Hmax d Hd) as [X|X]; [eapply plt_trans; eauto|rewrite (same_plt_l m (fst d) p_id); auto]. }
      assert (Hc0 : c0 = Cs (dn ++ [(k, v)]) k).
      { rewrite Cs_app, (Cs_0 dn). - unfold Cs. rewrite sm_cons. cbn [fst snd]. rewrite same_refl. unfold sm. cbn [fold_right]. fold c0. lia. - intros d Hd. apply plt_same, Hdk, Hd. }
      assert (Hprest : forall d, In d ((k, v) :: rest) -> plt m p_id (fst d) = true).
      { intros d [<-|Hd]; [auto|]. destruct (Hrest d Hd) as (R1 & R2). destruct (lex_pfx m k (fst d)) as [X|X]; [lia|auto|eapply plt_trans; eauto|rewrite <- (same_plt_r m k (fst d)); auto]. }
      destruct (Nat.ltb_spec i c0) as [C|C].
      * split; [auto|]. split; [rewrite Ejs, Cs_app, (Cs_0 ((k, v) :: rest)); [lia|]; intros d Hd; rewrite same_sym; apply plt_same, Hprest, Hd|]. split; [auto|]. right. exists k. split; [change k with (fst (k, v)); apply in_map, Hkj|].
        split; [rewrite Ejs', Cs_app; lia|]. intros d Hd X. rewrite Ejs in Hd. apply in_app_or in Hd as [Hd|[<-|Hd]]; [auto|cbn in X; rewrite plt_irr in X; discriminate|]. destruct (Hrest d Hd) as (R1 & R2). apply plt_lex in X; [|lia]. rewrite (lexb_asym _ _ R1) in X. discriminate.
      * apply (IH (dn ++ [(k, v)])); auto.
        -- rewrite map_app. apply in_or_app. cbn. auto.
        -- intros d Hd. apply in_app_or in Hd as [Hd|[<-|[]]]; [auto|]. right. apply same_refl.
        -- right. split; [rewrite map_app; apply in_or_app; auto|]. split; [auto|]. split; [|split; [auto|]].
           ++ rewrite Cs_app, (Cs_0 [(k, v)]); [lia|]. intros d [<-|[]]. cbn [fst]. rewrite same_sym. auto.
           ++ intros d Hd X. apply in_app_or in Hd as [Hd|[<-|[]]]; [auto|]. cbn [fst] in X. rewrite plt_irr in X. discriminate.
Qed.
End P.
