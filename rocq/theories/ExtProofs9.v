(** lower_bound finds the first element that is not less. *)
From Verif Require Import Prelude ExtModel ExtModel2 ExtSpec ExtProofs ExtProofs2 ExtProofs3 ExtProofs4 ExtProofs5 ExtProofs6 ExtProofs7 ExtProofs8.
Local Arguments Nat.ltb : simpl never.
Local Arguments Nat.eqb : simpl never.
Local Arguments Nat.leb : simpl never.
Local Arguments sm : simpl never.

Lemma lb_ext l x y : (forall a, In a l -> lexb a x = lexb a y) -> lb l x = lb l y.
Proof. induction l as [|a l IH]; cbn [lb]; intros H; [auto|]. rewrite (H a) by (cbn; auto). rewrite IH; [auto|]. intros b Hb. apply H. cbn. auto. Qed.
Lemma lb_all l x : (forall a, In a l -> lexb a x = true) -> lb l x = length l.
Proof. induction l as [|a l IH]; cbn [lb length]; intros H; [auto|]. rewrite (H a) by (cbn; auto). rewrite IH; [auto|]. intros b Hb. apply H. cbn. auto. Qed.
Lemma lb_mono l x y : (forall a, In a l -> lexb a x = true -> lexb a y = true) -> lb l x <= lb l y.
Proof.
  induction l as [|a l IH]; cbn [lb]; intros H; [auto|]. destruct (lexb a x) eqn:C; [|lia]. rewrite (H a) by (cbn; auto). apply le_n_S, IH. intros b Hb. apply H. cbn. auto.
Qed.
Lemma lexb_le_trans a b c : lexb b a = false -> lexb c b = false -> lexb c a = false.
Proof.
  intros H1 H2. destruct (lexb c a) eqn:C; [|auto]. destruct (lexb_total a b) as [D|[D|D]]; [rewrite (lexb_trans _ _ _ C D) in H2; discriminate| |congruence]. subst. congruence.
Qed.
Lemma lexb_lt_le a b c : lexb a b = true -> lexb c b = false -> lexb a c = true.
Proof. intros H1 H2. destruct (lexb_total b c) as [D|[D|D]]; [eapply lexb_trans; eauto|subst; auto|congruence]. Qed.

Section Low.
Variable N : nat.
Variable rg : nat -> nat.
Variables n m : nat.
Hypothesis Hm : m < N.
Hypothesis Hn : n <= N.
Variable A : list key.
Hypothesis HB : base N A.
Hypothesis HA : incr (fun x => x) A.
Hypothesis HN : forall a, In a A -> length a = N.
Hypothesis Hpos : forall a, In a A -> 0 < rg (at_ m a).
Variable L : list key.
Hypothesis HL : listing A rg n m L.
Variable E : enum.
Hypothesis T : table_ok N rg n m A E.
Variable id : key.
Variable beta : nat.
Hypothesis Hid : length id = N.

(** The order of the arrays with inserted values *)
Definition lt4 (t : nat) (a : key) (s : nat) (b : key) : bool := plt n a b || (same n a b && ((t <? s) || ((t =? s) && lexb a b))).
Lemma lt4_ok t a s b : length a = N -> length b = N -> lexb (insert_at n t a) (insert_at n s b) = lt4 t a s b.
Proof.
  intros Ha Hb. unfold insert_at, lt4. rewrite lexb_app by (rewrite !firstn_length; lia). fold (plt n a b). fold (same n a b). destruct (plt n a b) eqn:P; cbn [orb]; [auto|].
  destruct (same n a b) eqn:Q; cbn [andb]; [|auto]. cbn [lexb]. rewrite (lexb_split n a b) by lia. rewrite P, Q. reflexivity.
Qed.
Notation goal := (lb L (insert_at n beta id)).
Lemma ord_E : m_ord E = A.
Proof. apply (t_ord _ _ _ _ _ _ T). Qed.
Lemma hit x t : In x A -> t < rg (at_ m x) -> (forall y u, In y A -> u < rg (at_ m y) -> lt4 u y t x = lt4 u y beta id) -> go N rg n m E x t = Some goal.
Proof.
  intros Hx Ht H. unfold go, go2. fold (insert_at n t x). pose proof (HN x Hx) as Lx.
  assert (M : member A rg n m (insert_at n t x)) by (exists x, t; auto).
  rewrite (forward_ok N rg n m Hm Hn A HA HN E _ T) by (rewrite (ins_strip N n m Hm Hn) by auto; try rewrite (ins_at N n m Hm Hn) by auto; auto).
  rewrite <- (L_lb N rg n m Hm Hn A HB L HL) by auto. f_equal. apply lb_ext. intros b Hb. apply HL in Hb. destruct Hb as (y & u & Hy & Hu & ->). rewrite !lt4_ok by auto. apply H; auto.
Qed.
Lemma go2_same k b x : same n k x = true -> go2 N rg n m E k b x = go N rg n m E x b.
Proof. intros H. unfold go, go2. apply same_eq in H. rewrite H. reflexivity. Qed.
Lemma miss : (forall y u, In y A -> u < rg (at_ m y) -> lt4 u y beta id = true) -> Some (m_size E) = Some goal.
Proof.
  intros H. f_equal. rewrite lb_all.
  - rewrite (t_size _ _ _ _ _ _ T). symmetry. apply (L_size N rg n m Hm Hn A HB L HL).
  - intros b Hb. apply HL in Hb. destruct Hb as (y & u & Hy & Hu & ->). rewrite lt4_ok by auto. apply H; auto.
Qed.
Lemma at_lb z : match nth_error A (lb A z) with
  | Some a => In a A /\ lexb a z = false /\ forall y, In y A -> lexb y a = lexb y z
  | None => forall y, In y A -> lexb y z = true end.
Proof.
  pose proof (lb_nth A z) as H. destruct (nth_error A (lb A z)) as [a|] eqn:Ea.
  - split; [eapply nth_error_In; eauto|]. split; [auto|]. intros y Hy. destruct (lexb y z) eqn:C; [eapply lexb_lt_le; eauto|]. apply In_nth_error in Hy as (j & Hj).
    destruct (Nat.lt_trichotomy j (lb A z)) as [D|[D|D]].
    + exfalso. assert (X : In y (firstn (lb A z) A)). { apply (nth_error_In _ j). rewrite <- Hj. clear -D. revert j D. generalize (lb A z). induction A as [|x l IH]; intros k j D; [destruct k, j; reflexivity|]. destruct k; [lia|]. destruct j; [reflexivity|]. cbn. apply IH. lia. } apply lb_before in X. congruence.
    + subst j. assert (y = a) by congruence. subst. apply lexb_irr.
    + apply lexb_asym. eapply incr_nth; eauto.
  - intros y Hy. apply (lb_before A z). rewrite H, firstn_all. exact Hy.
Qed.
Lemma same_mid t a b c : length a = N -> length b = N -> length c = N -> lexb b a = false -> lexb c b = false -> same t a c = true -> same t a b = true.
Proof.
  intros La Lb Lc H1 H2 H3. destruct (pfx_cases t a b) as [C|[C|C]]; [|auto|].
  - exfalso. assert (X : plt t c b = true) by (rewrite <- (same_plt_l t a c) by auto; auto). apply plt_lex in X; [congruence|lia].
  - apply plt_lex in C; [congruence|lia].
Qed.
Lemma plt_mono t u a b : t <= u -> length a = length b -> plt u a b = false -> plt t a b = false.
Proof. intros H1 H2 H3. destruct (plt t a b) eqn:C; [|auto]. apply (plt_le u) in C; [congruence|lia|auto]. Qed.

(** The first array from z on, with the inserted value 0 *)
Lemma start_ok z : (forall y u, In y A -> u < rg (at_ m y) -> lexb y z = true -> lt4 u y beta id = true /\ plt n id y = false) ->
  (forall y, In y A -> lexb y z = false -> plt n id y = true) -> start_at N rg n m E (lb A z) = Some goal.
Proof.
  intros H1 H2. unfold start_at. rewrite ord_E. pose proof (at_lb z) as Z. destruct (nth_error A (lb A z)) as [a|].
  - destruct Z as (Ha & Z1 & Z2). apply hit; [auto|auto|]. intros y u Hy Hu. pose proof (H2 a Ha Z1) as Pa. destruct (lexb y z) eqn:C.
    + destruct (H1 y u Hy Hu C) as (X & Y). rewrite X. unfold lt4. replace (plt n y a) with true; [reflexivity|]. symmetry. destruct (pfx_cases n y id) as [D|[D|D]]; [eapply plt_trans; eauto|rewrite (same_plt_l n y id) by auto; auto|congruence].
    + pose proof (H2 y Hy C) as Py. unfold lt4. rewrite (plt_asym _ _ _ Py). rewrite (same_sym n y id), (plt_same _ _ _ Py). cbn [orb andb]. rewrite Z2 by auto. rewrite C. rewrite (proj2 (Nat.ltb_ge u 0)) by lia. rewrite andb_false_r. cbn [orb andb]. rewrite andb_false_r, orb_false_r.
      destruct (plt n y a) eqn:D; [|auto]. apply plt_lex in D; [|rewrite !HN; auto]. rewrite Z2 in D by auto. congruence.
  - apply miss. intros y u Hy Hu. apply (H1 y u); auto.
Qed.
Lemma from_ok z : lb A (fill n id) <= lb A z -> from E (lb A (fill n id)) z = lb A z.
Proof. intros H. unfold from. rewrite ord_E. apply lb_in_eq. split; [auto|apply lb_le]. Qed.
(** All elements with the first n numbers of id are smaller *)
Definition done : Prop := forall y u, In y A -> u < rg (at_ m y) -> same n y id = true -> lt4 u y beta id = true.
Lemma lt4_plt u y s x : plt n y x = true -> lt4 u y s x = true.
Proof. unfold lt4. intros ->. reflexivity. Qed.
Lemma lexb_after y : 0 < n -> In y A -> lexb y (after n id) = plt n y id || same n y id.
Proof. intros H Hy. unfold after. pose proof (lexb_succ (n - 1) y id) as X. replace (S (n - 1)) with n in X by lia. apply X; [rewrite HN; auto|lia]. Qed.
Lemma lexb_id y : In y A -> lexb y (fill n id) = plt n y id.
Proof. intros Hy. apply lexb_fill. rewrite HN; auto. Qed.
Lemma after_ok : 0 < n -> done -> start_at N rg n m E (from E (lb A (fill n id)) (after n id)) = Some goal.
Proof.
  intros H D. rewrite from_ok.
  2:{ apply lb_mono. intros a Ha. rewrite lexb_id, lexb_after by auto. intros ->. reflexivity. }
  apply start_ok.
  - intros y u Hy Hu C. rewrite lexb_after in C by auto. apply orb_true_iff in C as [C|C].
    + split; [apply lt4_plt, C|apply plt_asym, C].
    + split; [apply D; auto|]. destruct (plt n id y) eqn:X; [|auto]. apply plt_same in X. rewrite same_sym in X. congruence.
  - intros y Hy C. rewrite lexb_after in C by auto. apply orb_false_iff in C as (C1 & C2). destruct (pfx_cases n y id) as [X|[X|X]]; congruence.
Qed.
Lemma next_ok : done -> next_start N rg n m E id (lb A (fill n id)) = Some goal.
Proof.
  intros D. unfold next_start. destruct (Nat.eqb_spec n 0) as [Z|Z]; [|apply after_ok; [lia|auto]]. apply miss. intros y u Hy Hu. apply D; auto. rewrite Z. apply same_0.
Qed.

(** The case m < n *)
Lemma gt_ok : m < n -> (exists a, nth_error A (lb A (fill n id)) = Some a /\ same n id a = true) -> lower_gt N rg n m E id beta (lb A (fill n id)) = Some goal.
Proof.
  intros Hmn (j & Ej & Sj). unfold lower_gt. rewrite ord_E.
  assert (G : forall y, same n y id = true -> at_ m y = at_ m id) by (intros y Hy; apply (same_at n); auto).
  pose proof (at_lb (fill n id)) as J. rewrite Ej in J. destruct J as (Hj & J1 & J2).
  destruct (Nat.leb_spec (rg (at_ m id)) beta) as [C|C].
  { apply after_ok; [lia|]. intros y u Hy Hu Hs. unfold lt4. rewrite Hs. rewrite (G y Hs) in Hu. rewrite (proj2 (Nat.ltb_lt u beta)) by lia. rewrite orb_true_r. reflexivity. }
  rewrite from_ok.
  2:{ apply lb_mono. intros a Ha. rewrite lexb_id by auto. apply plt_lex. rewrite HN; auto. }
  pose proof (at_lb id) as Z.
  assert (UP : (forall y, In y A -> same n y id = true -> lexb y id = true) -> S beta < rg (at_ m id) -> (do j <- nth_error A (lb A (fill n id)); go2 N rg n m E id (S beta) j) = Some goal).
  { intros U D. rewrite Ej. cbn [obind]. rewrite go2_same by auto. apply hit; [auto|rewrite (G j) by (rewrite same_sym; auto); auto|]. intros y u Hy Hu. unfold lt4. rewrite <- (same_plt_r n id j), <- (same_same_r n id j) by auto.
    destruct (plt n y id) eqn:P; [reflexivity|]. cbn [orb]. destruct (same n y id) eqn:Q; [|reflexivity]. cbn [andb]. rewrite J2, lexb_id, P, U by auto. rewrite andb_false_r, andb_true_r, orb_false_r.
    destruct (Nat.ltb_spec u (S beta)), (Nat.ltb_spec u beta), (Nat.eqb_spec u beta); try lia; reflexivity. }
  assert (DN : (forall y, In y A -> same n y id = true -> lexb y id = true) -> rg (at_ m id) <= S beta -> done).
  { intros U D y u Hy Hu Hs. unfold lt4. rewrite Hs, U by auto. rewrite (G y Hs) in Hu. destruct (Nat.ltb_spec u beta), (Nat.eqb_spec u beta); try lia; cbn; apply orb_true_r. }
  destruct (nth_error A (lb A id)) as [a|] eqn:Ea.
  - destruct Z as (Ha & Z1 & Z2). destruct (same n id a) eqn:Sa.
    + rewrite go2_same by auto. apply hit; [auto|rewrite (G a) by (rewrite same_sym; auto); auto|]. intros y u Hy Hu. unfold lt4. rewrite <- (same_plt_r n id a), <- (same_same_r n id a), Z2 by auto. reflexivity.
    + assert (U : forall y, In y A -> same n y id = true -> lexb y id = true).
      { intros y Hy Hs. destruct (lexb y id) eqn:D; [auto|]. assert (X : same n id a = true) by (apply (same_mid n id a y); auto; [rewrite Z2; auto|rewrite same_sym; auto]). congruence. }
      destruct (Nat.ltb_spec (S beta) (rg (at_ m id))) as [D|D]; [apply UP; auto|].
      transitivity (start_at N rg n m E (lb A id)); [unfold start_at; rewrite ord_E, Ea; reflexivity|]. apply start_ok.
      * intros y u Hy Hu F. destruct (pfx_cases n y id) as [X|[X|X]].
        -- split; [apply lt4_plt, X|apply plt_asym, X].
        -- split; [apply (DN U D); auto|]. destruct (plt n id y) eqn:Y; [|auto]. apply plt_same in Y. rewrite same_sym in Y. congruence.
        -- apply plt_lex in X; [|rewrite (HN y Hy); auto]. apply lexb_asym in X. congruence.
      * intros y Hy F. destruct (pfx_cases n y id) as [X|[X|X]]; [apply plt_lex in X; [congruence|rewrite HN; auto]|rewrite U in F by auto; discriminate|auto].
  - destruct (Nat.ltb_spec (S beta) (rg (at_ m id))) as [D|D]; [apply UP; auto|]. apply miss. intros y u Hy Hu. destruct (pfx_cases n y id) as [X|[X|X]]; [apply lt4_plt, X|apply DN; auto|].
    apply plt_lex in X; [|rewrite (HN y Hy); auto]. apply lexb_asym in X. rewrite Z in X by auto. discriminate.
Qed.

(** The case n <= m *)
Notation fm := (fill (S m)).
Definition Inv (pre : list key) (add : option key) : Prop :=
  (forall y, In y A -> same n y id = true -> In (fm y) pre -> beta < rg (at_ m y) -> lexb y id = true) /\
  match add with
  | None => forall y, In y A -> same n y id = true -> In (fm y) pre -> rg (at_ m y) <= S beta
  | Some k => In k pre /\ exists y0, In y0 A /\ k = fm y0 /\ same n y0 id = true /\ S beta < rg (at_ m y0) /\
      forall y, In y A -> same n y id = true -> In (fm y) pre -> S beta < rg (at_ m y) -> lexb (fm y) k = false
  end.
Lemma lexb_fm y k : In y A -> length k = N -> lexb y (fm k) = plt (S m) y k.
Proof. intros Hy Hk. apply lexb_fill. rewrite HN; auto. Qed.
Lemma fm_plt y k : length y = length k -> lexb (fm y) (fm k) = plt (S m) y k.
Proof. intros H. rewrite lexb_fill by (rewrite fill_len; auto). unfold plt. rewrite fill_firstn by auto. reflexivity. Qed.
Lemma same_fm u y k : u <= S m -> same u y (fm k) = same u y k.
Proof. intros H. apply fill_same; auto. Qed.
Lemma same_fm_l u y k : u <= S m -> same u (fm y) k = same u y k.
Proof. intros H. rewrite same_sym, same_fm, same_sym; auto. Qed.
Lemma from_fm y : n <= m -> In y A -> same n y id = true -> lb A (fill n id) <= lb A (fm y).
Proof.
  intros Hnm Hy Hs. apply lb_mono. intros a Ha. rewrite lexb_id, lexb_fm by auto. intros P. rewrite <- (same_plt_r n y id) in P by auto. apply (plt_le (S m)) in P; [auto|lia|rewrite !HN; auto].
Qed.
Lemma fin_ok pre add : n <= m -> Inv pre add -> (forall y, In y A -> same n y id = true -> In (fm y) pre) ->
  match add with Some k => do a <- nth_error (m_ord E) (from E (lb A (fill n id)) k); go N rg n m E a (S beta) | None => next_start N rg n m E id (lb A (fill n id)) end = Some goal.
Proof.
  intros Hnm (I1 & I2) AL. destruct add as [k|].
  - destruct I2 as (_ & y0 & Hy0 & -> & S0 & R0 & M0). rewrite from_ok by (apply from_fm; auto). rewrite ord_E. pose proof (at_lb (fm y0)) as Z. destruct (nth_error A (lb A (fm y0))) as [a|].
        + destruct Z as (Ha & Z1 & Z2). cbn [obind]. assert (Sa : same (S m) y0 a = true).
          { rewrite lexb_fm in Z1 by auto. assert (lexb y0 a = false) by (rewrite Z2, lexb_fm by auto; apply plt_irr). destruct (pfx_cases (S m) y0 a) as [X|[X|X]]; [|auto|congruence]. apply plt_lex in X; [congruence|rewrite !HN; auto]. }
          assert (Sn : same n a id = true) by (rewrite <- (same_same_l n y0 a); [auto|apply (same_le (S m)); [lia|auto]]).
          assert (Eg : at_ m a = at_ m y0) by (symmetry; apply (same_at (S m)); auto).
          apply hit; [auto|rewrite Eg; auto|]. intros y u Hy Hu. unfold lt4. rewrite (same_plt_r n a id), (same_same_r n a id) by auto. destruct (plt n y id) eqn:P; [reflexivity|]. cbn [orb]. destruct (same n y id) eqn:Q; [|reflexivity]. cbn [andb]. rewrite Z2 by auto. rewrite lexb_fm by auto.
          destruct (Nat.ltb_spec u (S beta)), (Nat.ltb_spec u beta), (Nat.eqb_spec u beta), (Nat.eqb_spec u (S beta)); try lia; cbn [orb andb]; try reflexivity.
          * subst u. rewrite I1; auto.
          * subst u. destruct (plt (S m) y y0) eqn:X; [|reflexivity]. rewrite <- fm_plt in X by (rewrite !HN; auto). rewrite M0 in X; auto; discriminate.
        + exfalso. specialize (Z y0 Hy0). rewrite lexb_fm, plt_irr in Z by auto. discriminate.
  - apply next_ok. intros y u Hy Hu Hs. specialize (I2 y Hy Hs (AL y Hy Hs)). unfold lt4. rewrite Hs. destruct (Nat.ltb_spec u beta); [cbn; apply orb_true_r|]. assert (u = beta) by lia. subst u. rewrite (I1 y Hy Hs (AL y Hy Hs)) by lia. rewrite Nat.eqb_refl. cbn. apply orb_true_r.
Qed.
Lemma scan_ok : n <= m -> (S m = N \/ exists a, In a A /\ lexb a id = false) -> forall l pre add, Inv pre add ->
  (forall y, In y A -> In (fm y) pre \/ In (fm y) (map fst l)) -> (forall k, In k (map fst l) -> exists y, In y A /\ k = fm y /\ plt n y id = false) ->
  ordk l -> (forall p q, In p pre -> In q (map fst l) -> lexb p q = true) ->
  scan N rg n m E id beta (lb A (fill n id)) l add = Some goal.
Proof.
  intros Hnm Hsafe. induction l as [|(k, v) l IH]; intros pre add (I1 & I2) Hc Hk Ho Hp.
  - cbn [scan]. apply (fin_ok pre); [auto|split; auto|]. intros y Hy Hs. destruct (Hc y Hy) as [X|[]]; auto.
  - destruct Ho as (Ho1 & Ho2). cbn [fst] in Ho1. destruct (Hk k) as (yk & Hyk & Ek & Pk); [cbn; auto|].
    cbn [scan]. rewrite same_fm by lia. destruct (same n k id) eqn:Sk; cbn [negb].
    2:{ apply (fin_ok pre); [auto|split; auto|]. intros y Hy Hs. destruct (Hc y Hy) as [X|X]; [auto|exfalso]. rewrite Ek, same_fm_l in Sk by lia.
        assert (Pk' : plt n id yk = true) by (destruct (pfx_cases n yk id) as [Y|[Y|Y]]; congruence). cbn [map In fst] in X. destruct X as [X|X].
        - assert (Y : same n y yk = true). { rewrite <- (same_fm n y yk) by lia. rewrite <- Ek, X. rewrite same_fm by lia. apply same_refl. } rewrite (same_same_l n y id yk) in Y by auto. apply plt_same in Pk'. congruence.
        - apply in_map_iff in X as ((k2, v2) & E2 & In2). cbn [fst] in E2. subst k2. specialize (Ho1 _ In2). cbn [fst] in Ho1. rewrite Ek, fm_plt in Ho1 by (rewrite !HN; auto). apply (plt_pfx n) in Ho1; [|lia|rewrite !HN; auto].
          destruct Ho1 as [Y|Y]; [rewrite (same_plt_r n y id) in Y by auto; rewrite Pk in Y; discriminate|]. rewrite (same_same_r n y id) in Y by auto. congruence. }
    rewrite Ek, same_fm_l in Sk by lia.
    assert (Eg : forall y, In y A -> fm y = k -> at_ m y = at_ m k /\ same (S m) y yk = true).
    { intros y Hy X. split; [rewrite <- X, at_fill by lia; auto|]. rewrite <- (same_fm (S m) y yk) by lia. rewrite <- Ek, <- X, same_fm by lia. apply same_refl. }
    assert (Lk : length k = N) by (rewrite Ek, fill_len; auto).
    assert (Gk : at_ m k = at_ m yk) by (rewrite Ek, at_fill by lia; auto).
    assert (NX : forall add', (forall y, In y A -> same n y id = true -> fm y = k -> beta < rg (at_ m y) -> lexb y id = true) -> (add' = (if rg (at_ m k) <=? beta then add else match add with Some _ => add | None => if S beta <? rg (at_ m k) then Some k else None end)) ->
       scan N rg n m E id beta (lb A (fill n id)) l add' = Some goal).
    { intros add' U Ea. apply (IH (pre ++ [k])).
      - split.
        + intros y Hy Hs Hin Hb. apply in_app_or in Hin as [Hin|[Hin|[]]]; [apply I1; auto|]. apply U; auto.
        + assert (I2' : match add with None => forall y, In y A -> same n y id = true -> In (fm y) pre -> rg (at_ m y) <= S beta
             | Some k0 => In k0 (pre ++ [k]) /\ exists y0, In y0 A /\ k0 = fm y0 /\ same n y0 id = true /\ S beta < rg (at_ m y0) /\ forall y, In y A -> same n y id = true -> In (fm y) (pre ++ [k]) -> S beta < rg (at_ m y) -> lexb (fm y) k0 = false end).
          { destruct add as [k0|]; [|auto]. destruct I2 as (P0 & y0 & Hy0 & E0 & S0 & R0 & M0). split; [apply in_or_app; auto|]. exists y0. repeat (split; [auto|]). intros y Hy Hs Hin Hb. apply in_app_or in Hin as [Hin|[Hin|[]]]; [apply M0; auto|]. rewrite <- Hin. apply lexb_asym, Hp; [auto|cbn; auto]. }
          assert (N1 : rg (at_ m k) <= S beta -> add = None -> forall y, In y A -> same n y id = true -> In (fm y) (pre ++ [k]) -> rg (at_ m y) <= S beta).
          { intros Q -> y Hy Hs Hin. apply in_app_or in Hin as [Hin|[Hin|[]]]; [apply I2'; auto|]. destruct (Eg y Hy (eq_sym Hin)) as (-> & _). auto. }
          destruct (Nat.leb_spec (rg (at_ m k)) beta) as [C|C].
          * subst add'. destruct add as [k0|]; [exact I2'|]. apply N1; [lia|auto].
          * destruct add as [k0|]; [subst add'; exact I2'|]. destruct (Nat.ltb_spec (S beta) (rg (at_ m k))) as [D|D]; subst add'; [|apply N1; auto].
            split; [apply in_or_app; cbn; auto|]. exists yk. split; [auto|]. split; [auto|]. split; [auto|]. split; [rewrite <- Gk; auto|]. intros y Hy Hs Hin Hb. apply in_app_or in Hin as [Hin|[Hin|[]]]; [specialize (I2' y Hy Hs Hin); lia|]. rewrite <- Hin. apply lexb_irr.
      - intros y Hy. destruct (Hc y Hy) as [X|X]; [left; apply in_or_app; auto|]. cbn [map In fst] in X. destruct X as [X|X]; [left; apply in_or_app; right; cbn; auto|auto].
      - intros k' Hk'. apply Hk. cbn [map In]. auto.
      - exact Ho2.
      - intros p q Hpp Hq. apply in_app_or in Hpp as [Hpp|[<-|[]]]; [apply Hp; [auto|cbn [map In]; auto]|]. apply in_map_iff in Hq as ((q', v') & <- & Hq). apply (Ho1 _ Hq). }
    destruct (Nat.leb_spec (rg (at_ m k)) beta) as [C|C].
    { apply NX; [|destruct (Nat.leb_spec (rg (at_ m k)) beta); [auto|lia]]. intros y Hy Hs X Hb. destruct (Eg y Hy X) as (X1 & _). rewrite X1 in Hb. lia. }
    destruct (lexb k (fm id)) eqn:D; cbn [negb].
    { apply NX; [|auto]. intros y Hy Hs X Hb. rewrite <- X, fm_plt in D by (rewrite HN; auto). apply plt_lex in D; [auto|rewrite HN; auto]. }
    destruct (keyb k (fm id)) eqn:K.
    + apply keyb_eq in K. rewrite from_ok by (apply lb_mono; intros a Ha; rewrite lexb_id by auto; apply plt_lex; rewrite HN; auto). rewrite ord_E. pose proof (at_lb id) as Z.
      assert (Si : same (S m) yk id = true). { rewrite <- (same_fm (S m) yk id) by lia. rewrite <- K, Ek, same_fm by lia. apply same_refl. }
      destruct (nth_error A (lb A id)) as [a|].
      * destruct Z as (Ha & Z1 & Z2). cbn [obind]. rewrite Ek, same_fm by lia. rewrite (same_same_r (S m) yk id) by auto. destruct (same (S m) a id) eqn:Sa.
        -- apply hit; [auto|rewrite (same_at (S m) a yk) by (try lia; rewrite (same_same_r (S m) yk id); auto); rewrite <- Gk; auto|]. intros y u Hy Hu. assert (Sn : same n a id = true) by (apply (same_le (S m)); [lia|auto]). unfold lt4. rewrite (same_plt_r n a id), (same_same_r n a id), Z2 by auto. reflexivity.
        -- apply NX; [|destruct (Nat.leb_spec (rg (at_ m k)) beta); [lia|]; rewrite Ek; auto]. intros y Hy Hs X Hb. destruct (lexb y id) eqn:Y; [auto|]. rewrite same_sym in Sa. assert (X' : same (S m) id a = true); [|congruence]. apply (same_mid (S m) id a y); auto; [rewrite Z2; auto|].
           destruct (Eg y Hy X) as (_ & W). rewrite same_sym, (same_same_l (S m) y yk) by auto. auto.
      * exfalso. destruct Hsafe as [Q|(a & Ha & Q)]; [|rewrite Z in Q by auto; discriminate].
        assert (X : yk = id). { rewrite Q in K, Ek. rewrite <- (HN yk Hyk) in Ek. rewrite fill_all in Ek. rewrite <- Hid, fill_all in K. congruence. } specialize (Z yk Hyk). rewrite X, lexb_irr in Z. discriminate.
    + assert (LT : lexb (fm id) k = true) by (destruct (lexb_total k (fm id)) as [X|[X|X]]; [congruence|rewrite X, keyb_refl in K; discriminate|auto]).
      rewrite Ek in LT. rewrite fm_plt in LT by (rewrite (HN yk Hyk); auto). rewrite Ek at 1. rewrite from_ok by (apply from_fm; auto). rewrite ord_E. pose proof (at_lb (fm yk)) as Z. destruct (nth_error A (lb A (fm yk))) as [a|].
      * destruct Z as (Ha & Z1 & Z2). cbn [obind]. assert (Sa : same (S m) yk a = true).
        { rewrite lexb_fm in Z1 by auto. assert (lexb yk a = false) by (rewrite Z2, lexb_fm by auto; apply plt_irr). destruct (pfx_cases (S m) yk a) as [X|[X|X]]; [|auto|congruence]. apply plt_lex in X; [congruence|rewrite !HN; auto]. }
        assert (Sn : same n a id = true) by (rewrite <- (same_same_l n yk a); [auto|apply (same_le (S m)); [lia|auto]]).
        rewrite Ek, same_fm, same_sym, Sa by lia. apply hit; [auto|rewrite <- (same_at (S m) yk a) by auto; rewrite <- Gk; auto|].
        intros y u Hy Hu. unfold lt4. rewrite (same_plt_r n a id), (same_same_r n a id), Z2 by auto. destruct (plt n y id) eqn:P; [reflexivity|]. cbn [orb]. destruct (same n y id) eqn:Q; [|reflexivity]. cbn [andb]. destruct (u <? beta); [reflexivity|]. cbn [orb].
        destruct (Nat.eqb_spec u beta); [|reflexivity]. cbn [andb]. subst u. rewrite lexb_fm by auto. destruct (lexb y id) eqn:Y.
        -- apply (lex_pfx (S m)) in Y; [|rewrite HN; auto]. destruct Y as [Y|Y]; [eapply plt_trans; eauto|]. rewrite (same_plt_l (S m) y id) by auto. auto.
        -- destruct (plt (S m) y yk) eqn:X; [|reflexivity]. exfalso. rewrite <- fm_plt, <- Ek in X by (rewrite !HN; auto). destruct (Hc y Hy) as [W|W].
           ++ rewrite I1 in Y; auto. discriminate.
           ++ cbn [map In fst] in W. destruct W as [W|W]; [rewrite <- W, lexb_irr in X; discriminate|]. apply in_map_iff in W as ((k2, v2) & E2 & In2). cbn [fst] in E2. subst k2. specialize (Ho1 _ In2). cbn [fst] in Ho1. apply lexb_asym in Ho1. congruence.
      * exfalso. specialize (Z yk Hyk). rewrite lexb_fm, plt_irr in Z by auto. discriminate.
Qed.
Lemma last_max (V : list (nat * unit)) e r : ord Nat.ltb V -> rev V = e :: r -> forall x, In x V -> fst x <= fst e.
Proof.
  intros Ho Er x Hx. assert (EV : V = rev r ++ [e]) by (rewrite <- (rev_involutive V), Er; reflexivity). rewrite EV in Hx. apply in_app_or in Hx as [Hx|[<-|[]]]; [|lia].
  clear Er. revert V Ho EV Hx. generalize (rev r) as w. induction w as [|z w IH]; intros V Ho EV Hx; [destruct Hx|]. subst V. cbn [app ord] in Ho. destruct Ho as (H1 & H2). destruct Hx as [<-|Hx]; [|eapply IH; eauto].
  specialize (H1 e). rewrite Nat.ltb_lt in H1. apply Nat.lt_le_incl, H1, in_or_app. cbn. auto.
Qed.
Lemma le_ok : n <= m -> (S m = N \/ exists a, In a A /\ lexb a id = false) -> (exists a, nth_error A (lb A (fill n id)) = Some a /\ same n id a = true) ->
  lower_le N rg n m E id beta (lb A (fill n id)) = Some goal.
Proof.
  intros Hnm Hsafe (j & Ej & Sj). unfold lower_le. pose proof (nth_error_In _ _ Ej) as Hj. assert (Ef : fill n id = fill n j) by (apply fill_eq; [rewrite (HN j Hj); auto|auto]).
  rewrite (t_qr _ _ _ _ _ _ T Hnm). destruct (q_stage N rg n m Hm Hn A HA HN j Hnm Hj) as (Q1 & _). rewrite Ef, Q1. cbn [obind]. rewrite <- Ef.
  set (g := filter (fun e => same n (fst e) j) (ww m (r_ m A) n)). unfold beta_sz. destruct (fold_keys (fun e : key * nat => rg (at_ m (fst e))) g [] I) as (V1 & V2).
  set (V := fold_left (fun s e => emplace Nat.ltb (rg (at_ m (fst e))) tt s) g []) in *.
  assert (Hin : forall y, In y A -> same n y id = true -> In (rg (at_ m y)) (map fst V)).
  { intros y Hy Hs. apply V2. left. destruct (reps_has _ _ _ y (ww_ok N n m Hm Hn A HA HN n Hnm) Hy) as (e & He & Ee). apply in_map_iff. exists e. split; [rewrite Ee, (proj_at N n m Hm Hn); auto|].
    apply filter_In. split; [auto|]. rewrite Ee, (proj_same N n m Hm Hn) by lia. rewrite (same_same_l n y id) by auto. auto. }
  rewrite <- map_rev. destruct (rev V) as [|(b, ?) w] eqn:Er.
  { exfalso. assert (V = []) by (rewrite <- (rev_involutive V), Er; reflexivity). specialize (Hin j Hj). rewrite H in Hin. apply Hin. rewrite same_sym. auto. }
  cbn [map fst]. destruct (Nat.leb_spec b beta) as [C|C].
  - apply next_ok. intros y v Hy Hv Hs. specialize (Hin y Hy Hs). apply in_map_iff in Hin as (x & Ex & Hx). pose proof (last_max V _ _ V1 Er x Hx) as X. cbn [fst] in X. unfold lt4. rewrite Hs. rewrite (proj2 (Nat.ltb_lt v beta)) by lia. cbn. apply orb_true_r.
  - rewrite (t_r _ _ _ _ _ _ T). pose proof (r_ok N n m Hm Hn A HA HN) as (R1 & _ & R3). pose proof (r_ok N n m Hm Hn A HA HN) as R0. set (r := r_ m A) in *.
    assert (Kin : forall k, In k (map fst r) -> exists y, In y A /\ k = fm y) by (intros k Hk; apply in_map_iff in Hk as (e & <- & He); destruct (R3 e He) as (y & Hy & Ey); eauto).
    assert (EqF : map fst (skipn (lbk r (fill n id)) r) = skipn (lb (map fst r) (fill n id)) (map fst r)) by (unfold lbk; rewrite skipn_map; reflexivity).
    assert (Ri : incr (fun x => x) (map fst r)) by (apply (proj1 (incr_map fst r)), (proj1 (ordk_incr r)), R1).
    apply (scan_ok Hnm Hsafe _ (firstn (lb (map fst r) (fill n id)) (map fst r))).
    + assert (X : forall y, In y A -> same n y id = true -> In (fm y) (firstn (lb (map fst r) (fill n id)) (map fst r)) -> False).
      { intros y Hy Hs Hp. apply lb_before in Hp. rewrite lexb_fill in Hp by (rewrite fill_len, HN; auto). unfold plt in Hp. rewrite fill_firstn in Hp by lia. fold (plt n y id) in Hp. apply plt_same in Hp. congruence. }
      split; [intros y Hy Hs Hp|intros y Hy Hs Hp]; destruct (X y Hy Hs Hp).
    + intros y Hy. rewrite EqF. destruct (reps_has _ _ _ y R0 Hy) as (e & He & Ee). assert (W : In (fm y) (map fst r)) by (rewrite <- Ee; apply in_map, He). rewrite <- (firstn_skipn (lb (map fst r) (fill n id)) (map fst r)) in W. apply in_app_or in W. auto.
    + intros k Hk. rewrite EqF in Hk. pose proof (lb_after _ _ _ Ri Hk) as W. assert (Hk' : In k (map fst r)) by (rewrite <- (firstn_skipn (lb (map fst r) (fill n id)) (map fst r)); apply in_or_app; auto).
      destruct (Kin k Hk') as (y & Hy & ->). exists y. split; [auto|]. split; [auto|]. rewrite lexb_fill in W by (rewrite fill_len, HN; auto). unfold plt in W. rewrite fill_firstn in W by lia. exact W.
    + apply ordk_incr. apply incr_skipn. apply ordk_incr, R1.
    + intros p q Hp Hq. rewrite EqF in Hq. apply lb_before in Hp. apply lb_after in Hq; [|auto]. eapply lexb_lt_le; eauto.
Qed.
Lemma lower_ok : A <> [] -> (m < n \/ S m = N \/ exists a, In a A /\ lexb a id = false) -> lower N rg n m E id beta = Some goal.
Proof.
  intros Hne Hsafe. assert (LF : (exists a, nth_error A (lb A (fill n id)) = Some a /\ same n id a = true) -> lower_from N rg n m E id beta (lb A (fill n id)) = Some goal).
  { intros X. unfold lower_from. destruct (Nat.ltb_spec m n) as [C|C]; [apply gt_ok; auto|]. apply le_ok; auto. destruct Hsafe as [Y|Y]; [lia|auto]. }
  unfold lower. destruct (Nat.ltb_spec 0 n) as [Z|Z].
  - rewrite ord_E. pose proof (at_lb (fill n id)) as J. destruct (nth_error A (lb A (fill n id))) as [a|] eqn:Ea.
    + destruct J as (Ha & J1 & J2). destruct (same n id a) eqn:Sa; cbn [negb]; [apply LF; eauto|].
      transitivity (start_at N rg n m E (lb A (fill n id))); [unfold start_at; rewrite ord_E, Ea; reflexivity|]. apply start_ok.
      * intros y u Hy Hu C. rewrite lexb_id in C by auto. split; [apply lt4_plt, C|apply plt_asym, C].
      * intros y Hy C. pose proof C as C'. rewrite lexb_id in C by auto. destruct (pfx_cases n y id) as [X|[X|X]]; [congruence| |auto]. exfalso.
        assert (X' : same n id a = true); [|congruence]. apply (same_mid n id a y); auto; [|rewrite J2; auto|rewrite same_sym; auto].
        rewrite lexb_id in J1 by auto. destruct (lexb a id) eqn:W; [|auto]. apply (lex_pfx n) in W; [|rewrite (HN a Ha); auto]. rewrite same_sym in Sa. destruct W; congruence.
    + apply miss. intros y u Hy Hu. apply lt4_plt. rewrite <- lexb_id by auto. auto.
  - assert (n = 0) by lia. assert (E0 : lb A (fill n id) = 0). { destruct A as [|a l]; [reflexivity|]. cbn [lb]. rewrite lexb_fill by (rewrite HN; cbn; auto). rewrite H. reflexivity. }
    rewrite E0 in LF. apply LF. destruct A as [|a l]; [congruence|]. exists a. split; [reflexivity|]. rewrite H. apply same_0.
Qed.
End Low.
