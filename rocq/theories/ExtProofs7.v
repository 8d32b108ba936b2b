(** begin(i) finds the element with i smaller elements. *)
From Verif Require Import Prelude ExtModel ExtSpec ExtProofs ExtProofs2 ExtProofs3 ExtProofs5 ExtProofs6.
Local Arguments Nat.ltb : simpl never.
Local Arguments Nat.eqb : simpl never.
Local Arguments Nat.leb : simpl never.
Local Arguments sm : simpl never.

Section Rev.
Variable N : nat.
Variable rg : nat -> nat.
Variables n m : nat.
Hypothesis Hm : m < N.
Hypothesis Hn : n <= N.
Variable A : list key.
Hypothesis HA : incr (fun x => x) A.
Hypothesis HN : forall a, In a A -> length a = N.
Notation r_ := (r_ m A).

(** ** The numbers of smaller elements by groups *)
Lemma rank_gt id s : m < n -> In id A -> s < rg (at_ m id) ->
  sm (term rg n m id s) A = sm (fun a => if plt m a id then rg (at_ m a) else 0) A + sm (fun a => if same m a id && (at_ m a <? at_ m id) then rg (at_ m a) else 0) A
    + sm (fun a => if same (S m) a id && plt n a id then rg (at_ m a) else 0) A + s * sm (fun a => b2n (same n a id)) A + sm (fun a => b2n (same n a id && lexb a id)) A.
Proof.
  intros C Hid Hs. assert (HidN : length id = N) by auto. rewrite <- sm_mul, <- !sm_add. apply sm_ext. intros a Ha. unfold term. assert (HaN : length a = N) by auto.
  destruct (same n a id) eqn:X1.
  - assert (X2 : plt n a id = false) by (destruct (plt n a id) eqn:Y; [apply plt_same in Y; congruence|auto]).
    assert (X3 : plt m a id = false) by (destruct (plt m a id) eqn:Y; [apply (plt_le n) in Y; [congruence|lia|lia]|auto]).
    rewrite X2, X3, !andb_false_r. rewrite (same_at n a id m X1) by auto. rewrite Nat.ltb_irrefl, andb_false_r. cbn [andb]. rewrite Nat.min_l by lia. rewrite (proj2 (Nat.ltb_lt s (rg (at_ m id)))) by auto. cbn [andb b2n]. destruct (lexb a id); cbn; lia.
  - cbn [andb b2n]. rewrite !Nat.mul_0_r, !Nat.add_0_r. destruct (plt n a id) eqn:X2.
    + rewrite andb_true_r. destruct (plt m a id) eqn:X3.
      * rewrite (plt_same _ _ _ X3). cbn [andb]. destruct (same (S m) a id) eqn:X4; [|lia]. apply (same_le (S m) m) in X4; [|lia]. apply plt_same in X3. congruence.
      * destruct (plt_pfx (S m) n a id C (eq_trans HaN (eq_sym HidN)) X2) as [Y|Y].
        -- rewrite (plt_same _ _ _ Y). rewrite plt_S in Y by lia. rewrite X3 in Y. cbn [orb] in Y. rewrite Y. lia.
        -- rewrite Y. rewrite same_S in Y by lia. apply andb_true_iff in Y as (Y1 & Y2). rewrite Y1. apply Nat.eqb_eq in Y2. rewrite Y2, Nat.ltb_irrefl. cbn [andb]. lia.
    + rewrite andb_false_r. destruct (plt m a id) eqn:X3; [apply (plt_le n) in X3; [congruence|lia|lia]|]. destruct (same m a id && (at_ m a <? at_ m id)) eqn:X4; [|lia]. exfalso.
      assert (Y : plt (S m) a id = true) by (rewrite plt_S, X3, X4 by lia; auto). apply (plt_le n) in Y; [congruence|lia|lia].
Qed.
Lemma rank_le id s : n <= m -> In id A -> s < rg (at_ m id) ->
  sm (term rg n m id s) A = sm (fun a => if plt n a id then rg (at_ m a) else 0) A + sm (fun a => if same m a id && (at_ m a <? at_ m id) then (if s <? rg (at_ m a) then 1 else 0) else 0) A
    + sm (fun a => if same n a id then Nat.min s (rg (at_ m a)) else 0) A + sm (fun a => if same n a id && plt m a id && (s <? rg (at_ m a)) then 1 else 0) A + sm (fun a => b2n (same (S m) a id && lexb a id)) A.
Proof.
  intros C Hid Hs. assert (HidN : length id = N) by auto. rewrite <- !sm_add. apply sm_ext. intros a Ha. unfold term. assert (HaN : length a = N) by auto.
  destruct (plt n a id) eqn:X1.
  - rewrite (plt_same _ _ _ X1). cbn [andb]. assert (Y : forall u, n <= u -> same u a id = false) by (intros u Hu; destruct (same u a id) eqn:Z; [|auto]; apply (same_le u n) in Z; [|auto]; apply plt_same in X1; congruence).
    rewrite !Y by lia. cbn. lia.
  - destruct (same n a id) eqn:X2.
    + cbn [andb]. destruct (plt m a id) eqn:X3.
      * assert (Y : forall u, m <= u -> same u a id = false) by (intros u Hu; destruct (same u a id) eqn:Z; [|auto]; apply (same_le u m) in Z; [|auto]; apply plt_same in X3; congruence).
        rewrite !Y by lia. rewrite (plt_lex m a id) by (auto; lia). cbn [andb b2n]. rewrite andb_true_r. lia.
      * cbn [andb]. rewrite (lexb_split (S m) a id) by lia. rewrite same_S, plt_S, X3 by lia. cbn [orb]. destruct (same m a id) eqn:X4; cbn [andb orb].
        -- destruct (Nat.ltb_spec (at_ m a) (at_ m id)) as [Y|Y]; [rewrite (proj2 (Nat.eqb_neq _ _)) by lia; cbn [andb orb b2n]; rewrite andb_true_r; lia|].
           destruct (Nat.eqb_spec (at_ m a) (at_ m id)) as [Z|Z]; cbn [andb orb b2n]; [|rewrite andb_false_r; lia]. rewrite Z, (proj2 (Nat.ltb_lt s (rg (at_ m id)))) by auto. cbn [andb]. destruct (lexb (skipn (S m) a) (skipn (S m) id)); cbn; lia.
        -- rewrite andb_false_r. cbn. lia.
    + assert (Y : forall u, n <= u -> same u a id = false) by (intros u Hu; destruct (same u a id) eqn:Z; [|auto]; apply (same_le u n) in Z; [congruence|auto]).
      rewrite !Y by lia. cbn. lia.
Qed.

(** ** The search in qr *)
Lemma q_stage a1 : n <= m -> In a1 A -> let q := ww m r_ n in let g := filter (fun e => same n (fst e) a1) q in
  nth_error (build_qr rg n m q) (lbk (build_qr rg n m q) (fill n a1)) = Some (fill n a1, beta_sz rg m g) /\
  forall psi, sm (fun e => psi (at_ m (fst e)) * snd e) g = sm (fun a => if same n a a1 then psi (at_ m a) else 0) A.
Proof.
  intros Hnm Ha1 q g. pose proof (ww_ok N n m Hm Hn A HA HN n Hnm) as Q. fold q in Q. pose proof Q as (Q1 & Q2 & Q3). assert (HaN : length a1 = N) by auto.
  assert (HqN : forall e, In e q -> length (fst e) = N) by (intros e He; destruct (Q3 e He) as (a & Ha & ->); rewrite proj_len; auto).
  destruct (groups_ok N n (length q) q (le_n _) Q1 HqN) as (G1 & G2 & G3). split.
  - destruct (reps_has _ _ _ a1 Q Ha1) as (e1 & He1 & Ee1). destruct (G3 e1 He1) as (g1 & Hg1 & Eg1).
    assert (Ef1 : head_fill n g1 = fill n a1) by (rewrite Eg1, Ee1; apply fill_eq; [rewrite proj_len; auto|rewrite (proj_same N n m Hm Hn) by lia; apply same_refl]).
    assert (Hbq : build_qr rg n m q = map (fun g => (head_fill n g, beta_sz rg m g)) (groups n (length q) q)) by reflexivity.
    assert (Hinc : incr (fun x => x) (map fst (build_qr rg n m q))) by (rewrite Hbq, map_map; cbn [fst]; apply (incr_map (head_fill n)); exact G1).
    assert (Hin : In (fill n a1) (map fst (build_qr rg n m q))) by (rewrite Hbq, map_map; cbn [fst]; apply in_map_iff; exists g1; auto).
    pose proof (find_key_spec _ (fill n a1) Hinc) as F. destruct (find_key (map fst (build_qr rg n m q)) (fill n a1)) as [j|]; [|contradiction]. destruct F as (Ej & F). unfold lbk. rewrite <- Ej.
    rewrite nth_error_map in F. destruct (nth_error (build_qr rg n m q) j) as [p|] eqn:Ep; [|discriminate]. cbn in F. injection F as F. apply nth_error_In in Ep. rewrite Hbq in Ep. apply in_map_iff in Ep as (g2 & <- & Hg2).
    cbn [fst] in F. rewrite F. f_equal. f_equal. f_equal. destruct (G2 g2 Hg2) as (e2 & He2 & E2 & E3). rewrite E3. unfold g. apply filter_ext. intros e.
    assert (Hs : same n (fst e2) a1 = true) by (apply same_eq; rewrite <- (fill_firstn n n (fst e2)), <- (fill_firstn n n a1), <- E2, F by lia; auto). rewrite (same_same_l n (fst e2) a1), same_sym by auto. auto.
  - intros psi. unfold g. rewrite sm_filter. rewrite (reps_if _ A (proj m n) (fun k => same n k a1) (fun k => psi (at_ m k))) by auto. apply sm_ext. intros a Ha. rewrite (proj_same N n m Hm Hn), (proj_at N n m Hm Hn) by auto. auto.
Qed.

(** ** The search in p *)
Lemma p_grp P id psi : n <= m -> good N n m m r_ P -> In id A -> grp m m P id psi = sm (fun a => if same n a id && plt m a id then psi (at_ m a) else 0) A.
Proof.
  intros Hnm G Hid. pose proof (r_ok N n m Hm Hn A HA HN) as R. destruct (reps_has _ _ _ id R Hid) as (d & Hd & Ed).
  assert (Es : same m id (fst d) = true) by (rewrite Ed, fill_same by lia; apply same_refl).
  rewrite (grp_same m m P id (fst d)) by auto. rewrite (g_sum _ _ _ _ _ _ G d Hd). rewrite <- (prev_same n m m) with (P := id) by (auto; lia). unfold prev.
  destruct R as (_ & H2 & _). rewrite (H2 (fun k => if same n k id && plt m k id then psi (at_ m k) else 0)). apply sm_ext. intros a Ha.
  rewrite at_fill by lia. unfold same, plt. rewrite !fill_firstn by lia. auto.
Qed.
Lemma p_stage P a1 beta i : n < m -> good N n m m r_ P -> In a1 A -> i < sm (fun a => if same n a a1 then (if beta <? rg (at_ m a) then 1 else 0) else 0) A ->
  exists k c r, skipn (lbk P (fill n a1)) P = (k, c) :: r /\
  exists a3 pid pn, ploop rg n m beta r k k (if beta <? rg (at_ m k) then c else 0) 0 i = (pid, pn) /\ In a3 A /\ length pid = N /\ same m pid a3 = true /\ same n a3 a1 = true /\
    pn = sm (fun a => if same n a a3 && plt m a a3 && (beta <? rg (at_ m a)) then 1 else 0) A /\
    pn <= i < pn + sm (fun a => if same m a a3 then (if beta <? rg (at_ m a) then 1 else 0) else 0) A.
Proof.
  intros Hnm G Ha1 Hi. assert (HaN : length a1 = N) by auto.
  pose proof (r_ok N n m Hm Hn A HA HN) as R.
  assert (HP : forall e, In e P -> length (fst e) = N /\ exists a, In a A /\ same m (fst e) a = true).
  { intros e He. split; [apply (g_shape _ _ _ _ _ _ G e He)|]. destruct (g_from _ _ _ _ _ _ G e He) as (d & Hd & E). destruct R as (_ & _ & R3). destruct (R3 d Hd) as (a & Ha & Ea). exists a. split; [auto|]. rewrite Ea, fill_same in E by lia. auto. }
  assert (HC : forall a, In a A -> exists e, In e P /\ same m (fst e) a = true).
  { intros a Ha. destruct (reps_has _ _ _ a R Ha) as (d & Hd & Ed). destruct (g_cover _ _ _ _ _ _ G d Hd) as (e & He & E). exists e. split; [auto|]. rewrite Ed, fill_same in E by lia. auto. }
  set (js := filter (fun e => same n (fst e) a1) P).
  assert (Hscan : while_ (fun e => same n (fst e) a1) (skipn (lbk P (fill n a1)) P) = js).
  { unfold lbk, js. apply (scan_filter fst).
    - apply ordk_incr, (g_ord _ _ _ _ _ _ G).
    - intros e He E. rewrite lexb_fill by (rewrite (proj1 (HP e He)); auto). destruct (plt n (fst e) a1) eqn:C; [|auto]. apply plt_same in C. congruence.
    - intros a b Ha Hb E1 E2 E3. pose proof (proj1 (HP a Ha)). pose proof (proj1 (HP b Hb)). rewrite lexb_fill in E1 by lia. destruct (pfx_cases n (fst a) a1) as [C|[C|C]]; [congruence|auto|].
      exfalso. rewrite <- (same_plt_l n (fst b) a1) in C by auto. apply plt_lex in C; [|lia]. rewrite (lexb_asym _ _ E2) in C. discriminate. }
  assert (Hjs : forall e, In e js <-> In e P /\ same n (fst e) a1 = true) by (intros; apply filter_In).
  assert (Hord : ordk js). { unfold js. pose proof (g_ord _ _ _ _ _ _ G) as R1. clear -R1. induction P as [|x l IH]; [exact R1|]. destruct R1 as (H1 & H2). cbn [filter]. destruct (same n (fst x) a1); [|auto]. split; [|auto]. intros b Hb. apply filter_In in Hb. apply H1, Hb. }
  assert (HCs : forall e a, In e js -> In a A -> same m (fst e) a = true -> same n a a1 = true /\ Cs rg m beta js (fst e) = sm (fun b => if same n b a && plt m b a && (beta <? rg (at_ m b)) then 1 else 0) A).
  { intros e a He Ha E. apply Hjs in He as (He & En). assert (Hna : same n a a1 = true) by (rewrite <- (same_same_l n (fst e) a); [auto|apply (same_le m); [lia|auto]]). split; [auto|].
    rewrite (Cs_same rg m beta js (fst e) a) by auto. unfold Cs, js. rewrite sm_filter.
    transitivity (grp m m P a (fun v => if beta <? rg v then 1 else 0)).
    - unfold grp. apply sm_ext. intros x Hx. destruct (same m (fst x) a) eqn:X.
      + assert (Y : same n (fst x) a1 = true) by (rewrite (same_same_l n (fst x) a); [auto|apply (same_le m); [lia|auto]]). rewrite Y. destruct (beta <? rg (at_ m (fst x))); lia.
      + destruct (same n (fst x) a1); auto.
    - rewrite p_grp by (auto; lia). apply sm_ext. intros b Hb. destruct (same n b a), (plt m b a), (beta <? rg (at_ m b)); auto. }
  destruct (skipn (lbk P (fill n a1)) P) as [|(k, c) r] eqn:Es.
  { exfalso. cbn in Hscan. destruct (HC a1 Ha1) as (e & He & E). assert (X : In e js) by (apply Hjs; split; [auto|]; apply (same_le m); [lia|auto]). rewrite <- Hscan in X. destruct X. }
  assert (Hk : same n k a1 = true).
  { cbn [while_ fst] in Hscan. destruct (same n k a1) eqn:X; [auto|]. exfalso. destruct (HC a1 Ha1) as (e & He & E). assert (Y : In e js) by (apply Hjs; split; [auto|]; apply (same_le m); [lia|auto]). rewrite <- Hscan in Y. destruct Y. }
  exists k, c, r. split; [auto|]. rewrite (ploop_while rg n m beta r a1) by auto. cbn [while_ fst] in Hscan. rewrite Hk in Hscan. set (r' := while_ (fun e => same n (fst e) a1) r) in *.
  assert (Hmin : forall e, In e js -> (forall d, In d js -> plt m (fst e) (fst d) = true \/ same m (fst e) (fst d) = true) -> Cs rg m beta js (fst e) = 0).
  { intros e He Hmin. apply Hjs in He as He'. destruct He' as (HeP & Hen). destruct (HP e HeP) as (_ & a & Ha & Ea). destruct (HCs e a He Ha Ea) as (Hna & ->). apply sm_0. intros b Hb.
    destruct (same n b a) eqn:X; [|auto]. destruct (plt m b a) eqn:Y; [|auto]. exfalso. destruct (HC b Hb) as (d & Hd & Ed). assert (Hdj : In d js).
    { apply Hjs. split; [auto|]. rewrite (same_same_l n (fst d) b) by (apply (same_le m); [lia|auto]). rewrite (same_same_l n b a) by auto. auto. }
    rewrite <- (same_plt_l m (fst d) b), <- (same_plt_r m (fst e) a) in Y by auto. destruct (Hmin d Hdj) as [Z|Z]; [rewrite (plt_asym _ _ _ Z) in Y; discriminate|]. apply plt_same in Y. rewrite same_sym in Y. congruence. }
  pose proof (ploop_ok rg N n m beta js a1 i Hord) as L.
  assert (L1 : forall e, In e js -> length (fst e) = N /\ same n (fst e) a1 = true) by (intros e He; apply Hjs in He as (He & ?); split; [apply HP, He|auto]).
  specialize (L L1 Hmin r' [(k, c)] k k (if beta <? rg (at_ m k) then c else 0) 0). 
  assert (Hkj : In (k, c) js) by (rewrite <- Hscan; cbn; auto).
  assert (Hc0 : (if beta <? rg (at_ m k) then c else 0) = Cs rg m beta [(k, c)] k) by (unfold Cs; rewrite sm_cons; cbn [fst snd]; rewrite same_refl; unfold sm; cbn; lia).
  assert (Hz : (if beta <? rg (at_ m k) then c else 0) = 0).
  { assert (X : Cs rg m beta js k = 0).
    { change k with (fst (k, c)). apply Hmin; [auto|]. intros d Hd. rewrite <- Hscan in Hd. destruct Hd as [<-|Hd]; [right; apply same_refl|]. rewrite <- Hscan in Hord. destruct Hord as (O1 & _).
      apply lex_pfx; [|apply O1, Hd]. rewrite (proj1 (L1 (k, c) Hkj)). symmetry. apply L1. rewrite <- Hscan. right. auto. }
    rewrite <- Hscan in X. change ((k, c) :: r') with ([(k, c)] ++ r') in X. rewrite Cs_app in X. lia. }
  specialize (L (eq_sym Hscan) (or_introl eq_refl) Hc0). rewrite Hz in L at 1. specialize (L (Nat.le_0_l _)).
  assert (Lm : forall d, In d [(k, c)] -> plt m (fst d) k = true \/ same m (fst d) k = true) by (intros d [<-|[]]; right; apply same_refl).
  assert (Lp : forall d, In d [(k, c)] -> same m (fst d) k = true) by (intros d [<-|[]]; apply same_refl).
  specialize (L Lm (or_introl Lp)).
  destruct (ploop rg n m beta r' k k (if beta <? rg (at_ m k) then c else 0) 0 i) as [pid pn]. destruct L as (K1 & K2 & K3 & K4).
  apply in_map_iff in K1 as (ep & Eep & Hep). pose proof (proj1 (Hjs ep) Hep) as (HepP & Hepn). destruct (HP ep HepP) as (HepN & a3 & Ha3 & E3). rewrite Eep in *.
  pose proof (HCs ep a3 Hep Ha3) as HC3. rewrite Eep in HC3. destruct (HC3 E3) as (Hn3 & HCs3). exists a3, pid, pn. split; [auto|]. split; [auto|]. split; [auto|]. split; [auto|]. split; [auto|].
  split; [rewrite K2; exact HCs3|]. split; [auto|].
  assert (Hb : forall b, In b A -> same n b a1 = true -> exists d, In d js /\ same m (fst d) b = true).
  { intros b Hb En. destruct (HC b Hb) as (d & Hd & Ed). exists d. split; [|auto]. apply Hjs. split; [auto|]. rewrite (same_same_l n (fst d) b) by (apply (same_le m); [lia|auto]). auto. }
  assert (Hsm : forall b, same m b a3 = true -> same n b a1 = true).
  { intros b X. rewrite (same_same_l n b a3) by (apply (same_le m); [lia|auto]). auto. }
  destruct K4 as [K4|(X & HX & HiX & K4)].
  - eapply Nat.lt_le_trans; [exact Hi|]. rewrite K2, HCs3, <- sm_add. apply sm_le. intros b HbA. destruct (same n b a1) eqn:En; [|lia]. destruct (Hb b HbA En) as (d & Hd & Ed).
    rewrite (same_same_r n a3 a1), En by auto. destruct (K4 d Hd) as [Y|Y].
    + rewrite (same_plt_l m (fst d) b), (same_plt_r m pid a3) in Y by auto. rewrite Y. cbn [andb]. lia.
    + rewrite (same_same_l m (fst d) b), (same_same_r m pid a3) in Y by auto. rewrite Y. lia.
  - apply in_map_iff in HX as (ex & Ex & Hex). pose proof (proj1 (Hjs ex) Hex) as (HexP & Hexn). destruct (HP ex HexP) as (HexN & ax & Hax & Eax). rewrite <- Ex in *.
    destruct (HCs ex ax Hex Hax Eax) as (Hnx & HCsx). eapply Nat.lt_le_trans; [exact HiX|]. rewrite HCsx, K2, HCs3, <- sm_add. apply sm_le. intros b HbA.
    rewrite (same_same_r n ax a1), (same_same_r n a3 a1) by auto. destruct (same n b a1) eqn:En; [|cbn [andb]; lia]. cbn [andb]. destruct (plt m b ax) eqn:Epl; [|cbn [andb]; lia]. cbn [andb].
    destruct (Hb b HbA En) as (d & Hd & Ed). rewrite <- (same_plt_l m (fst d) b), <- (same_plt_r m (fst ex) ax) in Epl by auto. destruct (K4 d Hd Epl) as [Y|Y].
    + rewrite (same_plt_l m (fst d) b), (same_plt_r m pid a3) in Y by auto. rewrite Y. cbn [andb]. lia.
    + rewrite (same_same_l m (fst d) b), (same_same_r m pid a3) in Y by auto. rewrite Y. lia.
Qed.
End Rev.
