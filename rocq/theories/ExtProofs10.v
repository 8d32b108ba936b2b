(** operator++ goes to the next element. *)
From Verif Require Import Prelude ExtModel ExtModel2 ExtModel3 ExtSpec ExtProofs ExtProofs2 ExtProofs3 ExtProofs4 ExtProofs5 ExtProofs6 ExtProofs7 ExtProofs8 ExtProofs9.
Local Arguments Nat.ltb : simpl never.
Local Arguments Nat.eqb : simpl never.
Local Arguments Nat.leb : simpl never.
Local Arguments Nat.max : simpl never.
Local Arguments Nat.min : simpl never.
Local Arguments sm : simpl never.

Lemma lb_at l i a : incr (fun x => x) l -> nth_error l i = Some a -> lb l a = i.
Proof.
  intros H Ha. pose proof (find_key_spec l a H) as F. destruct (find_key l a) as [j|]; [|exfalso; apply F; eapply nth_error_In; eauto]. destruct F as (<- & F).
  destruct (Nat.lt_trichotomy j i) as [C|[C|C]]; [|auto|]; [pose proof (incr_nth l _ _ _ _ H F Ha C) as X|pose proof (incr_nth l _ _ _ _ H Ha F C) as X]; rewrite lexb_irr in X; discriminate.
Qed.
Lemma at_lb_in l a : incr (fun x => x) l -> In a l -> nth_error l (lb l a) = Some a.
Proof. intros H Ha. pose proof (find_key_spec l a H) as F. destruct (find_key l a) as [j|]; [|contradiction]. destruct F as (<- & F). exact F. Qed.
(** The next entry of a table *)
Lemma succ_at l k k' : incr (fun x => x) l -> In k l -> In k' l -> lexb k k' = true -> (forall z, In z l -> lexb k z = true -> lexb z k' = false) ->
  nth_error l (S (lb l k)) = Some k' /\ lb l k' = S (lb l k).
Proof.
  intros H Hk Hk' L M. pose proof (at_lb_in l k H Hk) as N1. pose proof (at_lb_in l k' H Hk') as N2.
  assert (S1 : lb l k < lb l k').
  { destruct (Nat.lt_trichotomy (lb l k) (lb l k')) as [C|[C|C]]; [auto| |].
    - rewrite C in N1. assert (k = k') by congruence. subst. rewrite lexb_irr in L. discriminate.
    - pose proof (incr_nth l _ _ _ _ H N2 N1 C) as X. rewrite (lexb_asym _ _ L) in X. discriminate. }
  destruct (nth_error l (S (lb l k))) as [z|] eqn:Ez.
  - pose proof (lb_at l _ z H Ez) as Z. destruct (Nat.eq_dec (S (lb l k)) (lb l k')) as [C|C]; [rewrite C in Ez; split; congruence|]. exfalso.
    assert (X : lexb z k' = true) by (apply (incr_nth l (S (lb l k)) (lb l k')); auto; lia). rewrite M in X; [discriminate|eapply nth_error_In; eauto|]. apply (incr_nth l (lb l k) (S (lb l k))); auto.
  - apply nth_error_None in Ez. assert (lb l k' < length l) by (apply nth_error_Some; congruence). lia.
Qed.
Lemma lb_gt l q y z : incr (fun x => x) l -> nth_error l q = Some y -> lexb y z = true -> S q <= lb l z.
Proof.
  intros H Hq L. destruct (Nat.lt_ge_cases q (lb l z)) as [C|C]; [lia|]. exfalso. assert (X : In y (skipn (lb l z) l)).
  { apply (nth_error_In _ (q - lb l z)). rewrite <- Hq. clear -C. revert q C. generalize (lb l z). induction l as [|x l IH]; intros k j D; [destruct k, j; cbn; try reflexivity; destruct (j - k); reflexivity|]. destruct k; [rewrite Nat.sub_0_r; reflexivity|]. destruct j; [lia|]. cbn. apply IH. lia. }
  apply lb_after in X; [congruence|auto].
Qed.
Lemma fill_set i v t a : i < t -> fill t (set i v a) = set i v (fill t a).
Proof.
  intros H. apply ext_at; [rewrite fill_len, !set_len, fill_len; reflexivity|]. intros j Hj. rewrite fill_len, set_len in Hj. destruct (Nat.eq_dec j i) as [->|D].
  - rewrite at_fill by auto. rewrite !at_set_eq by (try rewrite fill_len; auto). reflexivity.
  - rewrite at_set_ne by auto. destruct (Nat.lt_ge_cases j t); [rewrite !at_fill by auto; apply at_set_ne; auto|rewrite !at_fill_0; auto].
Qed.

Section Nx.
Variable N : nat.
Variable rg : nat -> nat.
Variables n m : nat.
Hypothesis Hm : m < N.
Hypothesis Hn : n <= N.
Variable A : list key.
Hypothesis HB : base N A.
Hypothesis HA : incr (fun x => x) A.
Hypothesis HN : forall a, In a A -> length a = N.
Hypothesis Hpos : forall a, In a A -> 0 < rg (at_ m a).
Variable L : list key.
Hypothesis HL : listing A rg n m L.
Variable E : enum.
Hypothesis T : table_ok N rg n m A E.
(** The current element *)
Variable p : nat.
Variable a : key.
Variable beta : nat.
Hypothesis Ha : In a A.
Hypothesis Hb : beta < rg (at_ m a).
Hypothesis Hp : nth_error L p = Some (insert_at n beta a).
Notation fm := (fill (S m)).
Notation lt4 := (lt4 n).

Lemma La : length a = N.
Proof. auto. Qed.
(** The next element *)
Definition nxt (t : nat) (y : key) : Prop := In y A /\ t < rg (at_ m y) /\
  forall z u, In z A -> u < rg (at_ m z) -> lt4 u z t y = plt n z a || (same n z a && ((u <? beta) || ((u =? beta) && negb (lexb a z)))).
Lemma nxt_ok t y : nxt t y -> nth_error L (S p) = Some (insert_at n t y).
Proof.
  intros (Hy & Ht & H). pose proof (L_incr N rg n m Hm Hn A HB L HL) as HI. assert (M : In (insert_at n t y) L) by (apply HL; exists y, t; auto).
  assert (M0 : In (insert_at n beta a) L) by (eapply nth_error_In; eauto). rewrite <- (lb_at L p _ HI Hp).
  assert (Q : forall z u, In z A -> u < rg (at_ m z) -> lexb (insert_at n u z) (insert_at n t y) = lexb (insert_at n u z) (insert_at n beta a) || keyb (insert_at n u z) (insert_at n beta a)).
  { intros z u Hz Hu. pose proof (HN z Hz) as Lz. rewrite !(lt4_ok N n m Hm Hn z Lz) by (auto; apply La). rewrite H by auto. unfold ExtProofs9.lt4. unfold insert_at at 1 2. rewrite keyb_app by (rewrite !firstn_length; pose proof La; lia). fold (same n z a). cbn [keyb].
    destruct (plt n z a) eqn:P; [reflexivity|]. cbn [orb]. destruct (same n z a) eqn:Q; [|reflexivity]. cbn [andb]. destruct (u <? beta); [reflexivity|]. cbn [orb]. destruct (u =? beta); [|reflexivity]. cbn [andb].
    assert (K : keyb z a = keyb (skipn n z) (skipn n a)) by (rewrite (keyb_split n z a), Q by (pose proof La; lia); reflexivity). rewrite <- K.
    destruct (lexb_total z a) as [X|[X|X]]; [rewrite X, (lexb_asym _ _ X); reflexivity|rewrite X, lexb_irr, keyb_refl; reflexivity|]. rewrite X, (lexb_asym _ _ X). destruct (keyb z a) eqn:Y; [|reflexivity]. apply keyb_eq in Y. subst. rewrite lexb_irr in X. discriminate. }
  apply (succ_at L); auto.
  - assert (X : lexb (insert_at n beta a) (insert_at n t y) = true) by (rewrite Q, keyb_refl, orb_true_r by auto; reflexivity). exact X.
  - intros z Hz Lz. apply HL in Hz. destruct Hz as (z' & u & Hz & Hu & ->). rewrite Q by auto. rewrite (lexb_asym _ _ Lz). destruct (keyb _ _) eqn:Y; [|reflexivity]. apply keyb_eq in Y. rewrite Y, lexb_irr in Lz. discriminate.
Qed.
Lemma begin_next t y : nxt t y -> begin_ N rg n m E (S p) = Some (place n m E (S p) y (insert_at n t y)).
Proof.
  intros H. unfold begin_. pose proof (nxt_ok t y H) as X. destruct H as (Hy & Ht & _).
  assert (F : forward N rg n m E (insert_at n t y) = Some (S p)).
  { rewrite (forward_ok N rg n m Hm Hn A HA HN E _ T) by (rewrite (ins_strip N n m Hm Hn) by auto; try rewrite (ins_at N n m Hm Hn) by auto; auto). f_equal. apply (nth_rank N rg n m Hm Hn A HB L HL), X. }
  assert (R : reverse N rg n m E (S p) = Some (insert_at n t y)).
  { assert (Hi : S p < m_size E). { rewrite (t_size _ _ _ _ _ _ T). rewrite <- (L_size N rg n m Hm Hn A HB L HL). apply nth_error_Some. unfold key in *. rewrite X. discriminate. }
    assert (R : exists b s, reverse N rg n m E (S p) = Some (firstn n b ++ s :: skipn n b) /\ In b A /\ s < rg (at_ m b) /\ sm (term rg n m b s) A = S p).
    { destruct (Nat.lt_ge_cases m n) as [D|D]; [apply (reverse_gt N rg n m Hm Hn A HA HN)|apply (reverse_le N rg n m Hm Hn A HA HN)]; auto. }
    destruct R as (b & s & R & Hbb & Hs & Hr). rewrite R. pose proof (rank_nth N rg n m Hm Hn A HB L HL (insert_at n s b) (S p)) as Q.
    rewrite (ins_strip N n m Hm Hn), (ins_at N n m Hm Hn) in Q by auto. specialize (Q ltac:(exists b, s; auto) Hr). change (firstn n b ++ s :: skipn n b) with (insert_at n s b). rewrite <- Q. exact X. }
  rewrite R. cbn [obind]. rewrite (ins_strip N n m Hm Hn) by auto. reflexivity.
Qed.

Lemma oE : m_ord E = A.
Proof. apply (t_ord _ _ _ _ _ _ T). Qed.
Lemma from_eq lo z : lo <= lb A z -> from_ A lo z = lb A z.
Proof. intros H. apply lb_in_eq. split; [auto|apply lb_le]. Qed.
Lemma gta z y : In z A -> In y A -> negb (lexb a z) = true -> lexb a y = true -> lexb z y = true.
Proof.
  intros Hz Hy H1 H2. apply negb_true_iff in H1. destruct (lexb_total z a) as [X|[X|X]]; [eapply lexb_trans; eauto|subst; auto|congruence].
Qed.
(** The tables *)
Lemma r_keys k : In k (map fst (m_r E)) <-> exists z, In z A /\ k = fm z.
Proof.
  rewrite (t_r _ _ _ _ _ _ T). pose proof (r_ok N n m Hm Hn A HA HN) as R0. pose proof R0 as (_ & _ & R3). split.
  - intros H. apply in_map_iff in H as (e & <- & He). destruct (R3 e He) as (z & Hz & Ez). eauto.
  - intros (z & Hz & ->). destruct (reps_has _ _ _ z R0 Hz) as (e & He & Ee). rewrite <- Ee. apply in_map, He.
Qed.
Lemma r_incr : incr (fun x => x) (map fst (m_r E)).
Proof. rewrite (t_r _ _ _ _ _ _ T). pose proof (r_ok N n m Hm Hn A HA HN) as (R1 & _). apply (proj1 (incr_map fst (r_ m A))), (proj1 (ordk_incr (r_ m A))), R1. Qed.
Lemma w_keys k : 0 < Nat.min n m -> In k (map fst (m_w E)) <-> exists z, In z A /\ k = fill (Nat.min n m) z.
Proof.
  intros C. destruct (t_w _ _ _ _ _ _ T) as (x & G & EW); [lia|]. rewrite Nat.min_comm in G. set (l := Nat.min n m) in *. assert (Hl : l <= m) by lia. rewrite EW. split.
  - intros H. apply in_map_iff in H as (e & <- & He). destruct (w_entry N rg n m Hm Hn A HA HN l x e Hl G He) as (z & Hz & Ez & _). eauto.
  - intros (z & Hz & ->). exact (w_cover N rg n m Hm Hn A HA HN l x z Hl G Hz).
Qed.
Lemma w_incr : 0 < Nat.min n m -> incr (fun x => x) (map fst (m_w E)).
Proof.
  intros C. destruct (t_w _ _ _ _ _ _ T) as (x & G & EW); [lia|]. rewrite EW. apply (proj1 (incr_map fst _)), (proj1 (ordk_incr _)). exact (proj1 (fold_add (fun e => set m 0 (fst e)) (fun e => rg (at_ m (fst e)) * snd e) x [] I)).
Qed.
Lemma keys_at {V} (M : list (key * V)) i k : nth_error (map fst M) i = Some k -> exists v, nth_error M i = Some (k, v).
Proof. intros H. rewrite nth_error_map in H. destruct (nth_error M i) as [(k', v)|]; [|discriminate]. cbn in H. injection H as <-. eauto. Qed.

(** The successor of a in the stored set *)
Lemma A_succ : match nth_error A (S (lb A a)) with
  | Some v => In v A /\ lexb a v = true /\ forall z, In z A -> lexb z v = negb (lexb a z)
  | None => forall z, In z A -> lexb a z = false end.
Proof.
  pose proof (at_lb_in A a HA Ha) as Na. destruct (nth_error A (S (lb A a))) as [v|] eqn:Ev.
  - assert (Hv : In v A) by (eapply nth_error_In; eauto). split; [auto|]. assert (L1 : lexb a v = true) by (apply (incr_nth A (lb A a) (S (lb A a))); auto). split; [auto|]. intros z Hz. pose proof (at_lb_in A z HA Hz) as Nz.
    destruct (lexb a z) eqn:C; cbn [negb].
    + pose proof (lb_gt A _ _ z HA Na C) as G. destruct (Nat.eq_dec (S (lb A a)) (lb A z)) as [D|D]; [rewrite D in Ev; assert (v = z) by congruence; subst; apply lexb_irr|]. apply lexb_asym. apply (incr_nth A (S (lb A a)) (lb A z)); auto; lia.
    + apply (gta z v); auto. rewrite C. reflexivity.
  - intros z Hz. destruct (lexb a z) eqn:C; [|auto]. pose proof (at_lb_in A z HA Hz) as Nz. pose proof (lb_gt A _ _ z HA Na C) as G. apply nth_error_None in Ev. assert (lb A z < length A) by (apply nth_error_Some; congruence). lia.
Qed.

Notation t_ := (Nat.max n (S m)).
Lemma after_same y : 0 < n -> In y A -> same n a y = true -> after n a = after n y.
Proof. intros Z Hy H. unfold after. rewrite (fill_eq n a y), (same_at n a y) by (auto; try lia; rewrite !HN; auto). reflexivity. Qed.
Lemma beyond_after v : 0 < n -> beyond n v = after n v.
Proof. intros Z. unfold beyond, after. apply fill_set. lia. Qed.
Lemma sz : m_size E = length L.
Proof. rewrite (t_size _ _ _ _ _ _ T). symmetry. apply (L_size N rg n m Hm Hn A HB L HL). Qed.
(** Advancing to the next stored array with the same first numbers *)
Lemma same_x y : In y A -> same (S m) a y = true -> same n a y = true -> place n m E (S p) y (insert_at n beta y) =
  Iter (S p) (insert_at n beta y) (lb A (fill t_ y)) (lb A y) (S (lbk (m_r E) (fm a))) (if 0 <? Nat.min n m then lbk (m_w E) (fill (Nat.min n m) a) else 0)
       (if S m <? n then lb A (after n a) else 0) (if n <=? m then lbk (m_qr E) (fill n a) else 0).
Proof.
  intros Hy S1 S2. unfold place. rewrite oE. assert (Ly : length a = length y) by (rewrite !HN; auto).
  assert (S3 : same (Nat.min n m) a y = true) by (apply (same_le n); [lia|auto]). rewrite (fill_eq (S m) a y Ly S1), (fill_eq (Nat.min n m) a y Ly S3), (fill_eq n a y Ly S2). destruct (Nat.ltb_spec (S m) n); [rewrite (after_same y) by (auto; lia)|]; reflexivity.
Qed.
Lemma insert_tail t y : t <= N -> n <= t -> In y A -> same t a y = true -> firstn (S t) (insert_at n beta a) ++ skipn t y = insert_at n beta y.
Proof.
  intros H1 H2 Hy H. pose proof (HN y Hy) as Ly. pose proof La. apply same_eq in H. assert (En : firstn n a = firstn n y). { pose proof H. apply (f_equal (firstn n)) in H. rewrite !firstn_firstn, !Nat.min_l in H by lia. exact H. }
  unfold insert_at. rewrite firstn_app, firstn_firstn, Nat.min_r by lia. rewrite firstn_length, Nat.min_l by lia. replace (S t - n) with (S (t - n)) by lia. cbn [firstn]. rewrite En, <- app_assoc. f_equal. cbn [app]. f_equal.
  rewrite firstn_skipn_comm. replace (n + (t - n)) with t by lia. rewrite H. 
  rewrite <- (firstn_skipn t y) at 3. rewrite skipn_app, firstn_length, Nat.min_l by lia. replace (n - t) with 0 by lia. reflexivity.
Qed.

Lemma same_t_n y : same t_ a y = true -> same n a y = true /\ same (S m) a y = true.
Proof. intros H. split; apply (same_le t_); auto; lia. Qed.
Lemma nxt_A v : nth_error A (S (lb A a)) = Some v -> same t_ a v = true -> nxt beta v.
Proof.
  intros Ev Hs. pose proof A_succ as X. rewrite Ev in X. destruct X as (Hv & L1 & Z). destruct (same_t_n v Hs) as (S1 & S2). split; [auto|]. split; [rewrite <- (same_at (S m) a v) by auto; auto|].
  intros z u Hz Hu. unfold ExtProofs9.lt4. rewrite <- (same_plt_r n a v), <- (same_same_r n a v), Z by auto. reflexivity.
Qed.
(** When no later stored array has the same first numbers *)
Definition last_ (t : nat) : Prop := forall z, In z A -> same t a z = true -> lexb a z = false.
Lemma last_t : (if t_ <? N then match nth_error A (S (lb A a)) with Some v => if same t_ a v then Some v else None | None => None end else None) = None -> last_ t_.
Proof.
  intros H z Hz Hs. destruct (lexb a z) eqn:C; [|auto]. exfalso. destruct (Nat.ltb_spec t_ N) as [D|D].
  - pose proof A_succ as X. destruct (nth_error A (S (lb A a))) as [v|]; [|rewrite X in C by auto; discriminate]. destruct X as (Hv & L1 & Z).
    assert (same t_ a v = true); [|rewrite H0 in H; discriminate]. apply (same_mid N n m Hm Hn a La t_ a v z); auto; [apply lexb_asym; auto|]. rewrite Z by auto. rewrite C. reflexivity.
  - apply same_eq in Hs. rewrite !firstn_all2 in Hs by (rewrite ?(HN z Hz), ?La; lia). subst. rewrite lexb_irr in C. discriminate.
Qed.
(** The first stored array of a group *)
Lemma first_group t y : In y A -> (forall z, In z A -> same t z y = true -> lexb z y = false) -> forall z, In z A -> lexb z (fill t y) = lexb z y.
Proof.
  intros Hy H z Hz. rewrite lexb_fill by (rewrite !HN; auto). destruct (plt t z y) eqn:P; [symmetry; apply (plt_lex t); [rewrite !HN; auto|auto]|]. destruct (lexb z y) eqn:Q; [|auto]. destruct (lex_pfx t z y) as [X|X]; auto; [rewrite !HN; auto|congruence|]. rewrite H in Q; auto.
Qed.
Lemma kst_group t : exists y, nth_error A (lb A (fill t a)) = Some y /\ In y A /\ same t a y = true /\ (forall z, In z A -> lexb z y = plt t z a) /\ lb A y = lb A (fill t a).
Proof.
  pose proof (at_lb N rg n m Hm Hn A HB HA HN E T a La (fill t a)) as X. destruct (nth_error A (lb A (fill t a))) as [y|] eqn:Ey.
  - destruct X as (Hy & Y1 & Y2). exists y. split; [auto|]. split; [auto|]. rewrite lexb_fill in Y1 by (rewrite !HN; auto).
    assert (Y3 : forall z, In z A -> lexb z y = plt t z a) by (intros z Hz; rewrite Y2, lexb_fill by (auto; rewrite !HN; auto); reflexivity). split; [|split; [auto|apply lb_at; auto]].
    destruct (pfx_cases t a y) as [Q|[Q|Q]]; [|auto|congruence]. apply plt_lex in Q; [|rewrite !HN; auto]. rewrite Y3, plt_irr in Q by auto. discriminate.
  - specialize (X a Ha). rewrite lexb_fill, plt_irr in X by auto. discriminate.
Qed.
Lemma strip_x : strip n (insert_at n beta a) = a.
Proof. apply (ins_strip N n m Hm Hn), La. Qed.
Lemma at_x : at_ n (insert_at n beta a) = beta.
Proof. apply (ins_at N n m Hm Hn), La. Qed.
Lemma first_x (r : key) : firstn n (insert_at n beta a) ++ r = firstn n a ++ r.
Proof. unfold insert_at. rewrite firstn_app, firstn_firstn, Nat.min_id. rewrite firstn_length, Nat.min_l by (pose proof La; lia). rewrite Nat.sub_diag, app_nil_r. reflexivity. Qed.
Lemma first_le t : t <= n -> firstn t (insert_at n beta a) = firstn t a.
Proof. intros H. unfold insert_at. rewrite firstn_app, firstn_firstn, Nat.min_l by lia. rewrite firstn_length, Nat.min_l by (pose proof La; lia). replace (t - n) with 0 by lia. apply app_nil_r. Qed.
Lemma ins_same t y : same n a y = true -> firstn n a ++ t :: skipn n y = insert_at n t y.
Proof. intros H. apply same_eq in H. unfold insert_at. rewrite H. reflexivity. Qed.

(** The next group *)
Lemma next_group : (forall z u, In z A -> u < rg (at_ m z) -> same n z a = true -> u < beta \/ (u = beta /\ lexb a z = false)) -> S p < m_size E -> 0 < n /\
  exists y, nth_error A (lb A (after n a)) = Some y /\ In y A /\ plt n a y = true /\ (forall z, In z A -> lexb z y = negb (plt n a z)) /\ lb A y = lb A (after n a) /\ nxt 0 y.
Proof.
  intros D Hs. assert (NX : exists z u, In z A /\ u < rg (at_ m z) /\ plt n a z = true).
  { rewrite sz in Hs. destruct (nth_error L (S p)) as [b|] eqn:Eb; [|apply nth_error_None in Eb; lia]. pose proof (nth_error_In _ _ Eb) as Hin. apply HL in Hin. destruct Hin as (z & u & Hz & Hu & ->). exists z, u. split; [auto|]. split; [auto|].
    assert (X : lexb (insert_at n beta a) (insert_at n u z) = true) by (eapply incr_nth; [apply (L_incr N rg n m Hm Hn A HB L HL)|exact Hp|exact Eb|lia]). rewrite (lt4_ok N n m Hm Hn a La) in X by (auto; apply La). unfold ExtProofs9.lt4 in X. destruct (plt n a z); [auto|]. cbn [orb] in X.
    apply andb_true_iff in X as (X1 & X2). rewrite same_sym in X1. destruct (D z u Hz Hu X1) as [Y|(Y1 & Y2)]; [rewrite (proj2 (Nat.ltb_ge beta u)), (proj2 (Nat.eqb_neq beta u)) in X2 by lia; discriminate|]. subst u. rewrite Nat.ltb_irrefl, Nat.eqb_refl, Y2 in X2. discriminate. }
  destruct NX as (z0 & u0 & Hz0 & Hu0 & P0). assert (Hn0 : 0 < n) by (destruct n; [discriminate|lia]). split; [auto|].
  assert (LA : forall z, In z A -> lexb z (after n a) = negb (plt n a z)).
  { intros z Hz. rewrite (lexb_after N n m Hm Hn A HN a La) by auto. destruct (pfx_cases n z a) as [X|[X|X]]; [rewrite X, (plt_asym _ _ _ X); reflexivity| |rewrite X, (plt_asym _ _ _ X), same_sym, (plt_same _ _ _ X); reflexivity].
    rewrite X, orb_true_r. destruct (plt n a z) eqn:Y; [|reflexivity]. apply plt_same in Y. rewrite same_sym in Y. congruence. }
  pose proof (at_lb N rg n m Hm Hn A HB HA HN E T a La (after n a)) as X. destruct (nth_error A (lb A (after n a))) as [y|] eqn:Ey.
  - destruct X as (Hy & Y1 & Y2). exists y. split; [auto|]. split; [auto|]. rewrite LA in Y1 by auto. apply negb_false_iff in Y1. split; [auto|].
    assert (Y3 : forall z, In z A -> lexb z y = negb (plt n a z)) by (intros z Hz; rewrite Y2, LA by auto; reflexivity). split; [auto|]. split; [apply lb_at; auto|]. split; [auto|]. split; [auto|].
    intros z u Hz Hu. unfold ExtProofs9.lt4. rewrite Y3 by auto. rewrite (proj2 (Nat.ltb_ge u 0)) by lia. cbn [orb]. destruct (pfx_cases n z a) as [X|[X|X]].
    + rewrite X, (plt_trans _ _ _ _ X Y1). reflexivity.
    + rewrite (same_plt_l n z a), Y1, X by auto. cbn [orb andb]. destruct (D z u Hz Hu X) as [W|(-> & W)]; [rewrite (proj2 (Nat.ltb_lt u beta)) by auto|rewrite Nat.eqb_refl, W, orb_true_r]; rewrite orb_true_r; reflexivity.
    + rewrite X. cbn [negb]. rewrite andb_false_r. cbn [orb]. rewrite andb_false_r, orb_false_r. rewrite (plt_asym _ _ _ X), same_sym, (plt_same _ _ _ X). cbn [orb andb].
      destruct (plt n z y) eqn:W; [|reflexivity]. apply plt_lex in W; [|rewrite !HN; auto]. rewrite Y3, X in W by auto. discriminate.
  - specialize (X z0 Hz0). rewrite LA, P0 in X by auto. discriminate.
Qed.

Notation X := (place n m E p a (insert_at n beta a)).
Lemma t_le : t_ <= N.
Proof. lia. Qed.
Lemma step_A v : (if t_ <? N then match nth_error A (S (lb A a)) with Some v => if same t_ a v then Some v else None | None => None end else None) = Some v ->
  Some (Iter (S p) (firstn (S t_) (insert_at n beta a) ++ skipn t_ v) (kst X) (S (lb A a)) (rit X) (wit X) (pit X) (qit X)) = begin_ N rg n m E (S p).
Proof.
  intros H. destruct (t_ <? N); [|discriminate]. destruct (nth_error A (S (lb A a))) as [v'|] eqn:Ev; [|discriminate]. destruct (same t_ a v') eqn:Hs; [|discriminate]. injection H as ->.
  pose proof (nxt_A v Ev Hs) as NX. pose proof NX as (Hv & _). rewrite (begin_next _ _ NX). destruct (same_t_n v Hs) as (S1 & S2). rewrite same_x by auto. rewrite insert_tail by (auto; lia). unfold place. cbn [kst ked rit wit pit qit]. rewrite oE.
  rewrite (fill_eq t_ a v) by (auto; rewrite !HN; auto). rewrite (lb_at A _ v HA Ev). reflexivity.
Qed.
(** The keys of the tables *)
Lemma fm_lt z y : In z A -> In y A -> lexb (fm z) (fm y) = plt (S m) z y.
Proof. intros Hz Hy. rewrite lexb_fill by (rewrite fill_len, !HN; auto). unfold plt. rewrite fill_firstn by auto. reflexivity. Qed.
Lemma fill_lt2 t z y : In z A -> In y A -> lexb (fill t z) (fill t y) = plt t z y.
Proof. intros Hz Hy. rewrite lexb_fill by (rewrite fill_len, !HN; auto). unfold plt. rewrite fill_firstn by auto. reflexivity. Qed.
(** The next entry of a table with keys fill t z *)
Lemma table_next t M y : (forall k, In k M <-> exists z, In z A /\ k = fill t z) -> incr (fun x => x) M -> In y A -> plt t a y = true -> (forall z, In z A -> plt t a z = true -> plt t z y = false) ->
  nth_error M (S (lb M (fill t a))) = Some (fill t y) /\ lb M (fill t y) = S (lb M (fill t a)).
Proof.
  intros HM HI Hy P1 P2. apply succ_at; [auto|apply HM; eauto|apply HM; eauto|rewrite fill_lt2; auto|]. intros k Hk Lk. apply HM in Hk as (z & Hz & ->). rewrite fill_lt2 in * by auto. auto.
Qed.
Lemma next_gt : m < n -> S p < m_size E -> next_it N rg n m E X = begin_ N rg n m E (S p).
Proof.
  intros C Hs. unfold next_it. change (elem X) with (insert_at n beta a). change (pos X) with p. rewrite (proj2 (Nat.leb_gt _ _)) by auto. rewrite strip_x, at_x. change (ked X) with (lb (m_ord E) a). rewrite oE.
  destruct (if t_ <? N then _ else None) as [v|] eqn:EA; [exact (step_A v EA)|]. apply last_t in EA. assert (Et : t_ = n) by lia. rewrite Et in EA. rewrite (proj2 (Nat.ltb_lt m n)) by auto.
  assert (G : forall z, same n z a = true -> at_ m z = at_ m a) by (intros z Hz; apply (same_at n); auto).
  destruct (Nat.ltb_spec (S beta) (rg (at_ m a))) as [D|D].
  { change (kst X) with (lb (m_ord E) (fill t_ a)). rewrite oE, Et. destruct (kst_group n) as (y & Ey & Hy & Sy & Y & Ly). rewrite Ey. cbn [obind].
    assert (NX : nxt (S beta) y).
    { split; [auto|]. split; [rewrite (G y) by (rewrite same_sym; auto); auto|]. intros z u Hz Hu. unfold ExtProofs9.lt4. rewrite <- (same_plt_r n a y), <- (same_same_r n a y), Y by auto. destruct (plt n z a) eqn:P; [reflexivity|]. cbn [orb]. destruct (same n z a) eqn:Q; [|reflexivity]. cbn [andb].
      rewrite andb_false_r, orb_false_r. rewrite (EA z Hz) by (rewrite same_sym; auto). cbn [negb]. rewrite andb_true_r. destruct (Nat.ltb_spec u (S beta)), (Nat.ltb_spec u beta), (Nat.eqb_spec u beta); try lia; reflexivity. }
    rewrite (begin_next _ _ NX). rewrite first_x, ins_same by auto. assert (Sm : same (S m) a y = true) by (apply (same_le n); [lia|auto]). unfold place. cbn [kst ked rit wit pit qit]. rewrite oE, Et.
    assert (Lq : length a = length y) by (rewrite !HN; auto). assert (Sw : same (Nat.min n m) a y = true) by (apply (same_le n); [lia|auto]).
    rewrite (fill_eq (S m) a y Lq Sm), (fill_eq (Nat.min n m) a y Lq Sw), (fill_eq n a y Lq Sy). rewrite Ly, (fill_eq n a y Lq Sy). destruct (Nat.ltb_spec (S m) n); [rewrite (after_same y) by (auto; lia)|]; reflexivity. }
  destruct next_group as (Hn0 & y & Ey & Hy & Py & Y & Ly & NX); [|auto|].
  { intros z u Hz Hu Hzs. rewrite (G z Hzs) in Hu. rewrite (EA z Hz) by (rewrite same_sym; auto). lia. }
  rewrite (begin_next _ _ NX). assert (Lq : length a = length y) by (rewrite !HN; auto). assert (Ly' : length y = N) by auto.
  (* the first stored array of its group *)
  assert (FG : forall t, (plt t a y = true) -> t <= n -> lb A (fill t y) = lb A y).
  { intros t Pt Ht. apply lb_ext. intros z Hz. apply first_group; auto. intros w Hw Sw. rewrite Y by auto. apply negb_false_iff. assert (X' : plt t a w = true) by (rewrite (same_plt_r t w y); auto). apply (plt_le n t) in X'; auto. rewrite !HN; auto. }
  assert (KST : lb A (fill n y) = lb A y) by (apply FG; auto).
  assert (AFT : forall lo, lo <= lb A (after n y) -> from_ A lo (beyond n y) = lb A (after n y)) by (intros lo Hlo; rewrite beyond_after by auto; apply from_eq; auto).
  assert (A1 : S (lb A y) <= lb A (after n y)).
  { apply (lb_gt A _ y _ HA); [apply at_lb_in; auto|]. rewrite (lexb_after N n m Hm Hn A HN y Ly') by auto. rewrite same_refl. apply orb_true_r. }
  assert (NY : forall t z, t <= n -> In z A -> plt t a z = true -> plt t z y = false).
  { intros t z Ht Hz P. destruct (plt t z y) eqn:Q; [|auto]. apply plt_lex in Q; [|rewrite !HN; auto]. rewrite Y in Q by auto. apply negb_true_iff in Q. rewrite (plt_le n t) in Q; [discriminate|auto|rewrite !HN; auto|auto]. }
  change (pit X) with (if S m <? n then lb (m_ord E) (after n a) else 0). rewrite oE.
  destruct (if S m <? n then _ else None) as [w|] eqn:EB.
  { destruct (Nat.ltb_spec (S m) n) as [F|F]; [|discriminate]. rewrite Ey in EB. destruct (same (S m) a y) eqn:Sy; [|discriminate]. injection EB as <-. unfold place. cbn [kst ked rit wit pit qit]. rewrite oE, Et.
    assert (Sw : same (Nat.min n m) a y = true) by (apply (same_le (S m)); [lia|auto]). rewrite (fill_eq (S m) a y Lq Sy), (fill_eq (Nat.min n m) a y Lq Sw). rewrite (proj2 (Nat.ltb_lt (S m) n)) by auto.
    rewrite KST, <- Ly, AFT by lia. rewrite (proj2 (Nat.leb_gt n m)) by auto. do 2 f_equal. rewrite first_le by lia. apply same_eq in Sy. rewrite Sy. rewrite app_assoc. unfold insert_at. f_equal.
    rewrite <- (firstn_skipn (S m) y) at 3. rewrite firstn_app, firstn_firstn, Nat.min_r by lia. rewrite firstn_length, Nat.min_l by lia. reflexivity. }
  assert (NS : plt (S m) a y = true).
  { destruct (pfx_cases (S m) a y) as [Q|[Q|Q]]; [auto| |].
    - exfalso. destruct (Nat.ltb_spec (S m) n) as [F|F]; [rewrite Ey, Q in EB; discriminate|]. assert (S m = n) by lia. rewrite H in Q. apply plt_same in Py. congruence.
    - exfalso. apply (plt_le n) in Q; [|lia|auto]. apply plt_asym in Q. congruence. }
  destruct (table_next (S m) (map fst (m_r E)) y r_keys r_incr Hy NS (fun z Hz => NY (S m) z ltac:(lia) Hz)) as (R1 & R2).
  destruct (keys_at _ _ _ R1) as (c & R3). change (rit X) with (S (lbk (m_r E) (fm a))). unfold lbk at 1. rewrite R3. rewrite fill_same by lia.
  assert (PIT : forall (b : nat), (if S m <? n then from_ A (S (lb A y)) (beyond n y) else if S m <? n then b else 0) = if S m <? n then lb A (after n y) else 0) by (intros b; destruct (S m <? n); [apply AFT; lia|reflexivity]).
  assert (KED : lb A a <= lb A y /\ S (lb A a) <= lb A y).
  { assert (X' : S (lb A a) <= lb A y) by (apply (lb_gt A _ a _ HA); [apply at_lb_in; auto|]; rewrite Y, plt_irr by auto; reflexivity). lia. }
  destruct (same m a y) eqn:Sm.
  { assert (V : fill (S m) (set m (at_ m (fm y)) a) = fm y).
    { rewrite at_fill by lia. apply fill_eq; [rewrite set_len; auto|]. rewrite same_S by (rewrite ?set_len; lia). rewrite at_set_eq by lia. rewrite Nat.eqb_refl, andb_true_r. apply same_eq. rewrite set_firstn by lia. apply same_eq, Sm. }
    rewrite V. rewrite from_eq by (rewrite FG by (auto; lia); lia). rewrite FG by (auto; lia). rewrite (at_lb_in A y HA Hy). cbn [obind]. rewrite PIT. unfold place. cbn [kst ked rit wit pit qit]. rewrite oE, Et, KST.
    assert (Sw : same (Nat.min n m) a y = true) by (apply (same_le m); [lia|auto]). rewrite (fill_eq (Nat.min n m) a y Lq Sw). rewrite (proj2 (Nat.leb_gt n m)) by auto. unfold lbk in *. rewrite R2. do 2 f_equal. rewrite first_le by lia. rewrite at_fill by lia. apply same_eq in Sm. rewrite Sm.
    unfold insert_at. change (at_ m y :: firstn (n - S m) (skipn (S m) y) ++ 0 :: skipn n y) with ([at_ m y] ++ firstn (n - S m) (skipn (S m) y) ++ 0 :: skipn n y). rewrite app_assoc, <- firstn_S_nth by lia. rewrite app_assoc. f_equal.
    rewrite <- (firstn_skipn (S m) y) at 3. rewrite firstn_app, firstn_firstn, Nat.min_r by lia. rewrite firstn_length, Nat.min_l by lia. reflexivity. }
  assert (Pm : plt m a y = true).
  { rewrite plt_S in NS by (rewrite ?La; lia). rewrite Sm in NS. rewrite orb_false_r in NS. exact NS. }
  assert (Hm0 : 0 < m) by (destruct m; [discriminate|lia]). rewrite (proj2 (Nat.ltb_lt 0 m)) by auto. change (wit X) with (if 0 <? Nat.min n m then lbk (m_w E) (fill (Nat.min n m) a) else 0). assert (El : Nat.min n m = m) by lia. rewrite El.
  rewrite (proj2 (Nat.ltb_lt 0 m)) by auto. cbn [andb].
  assert (WK : forall k, In k (map fst (m_w E)) <-> exists z, In z A /\ k = fill m z) by (intros k; rewrite w_keys by lia; rewrite El; tauto).
  destruct (table_next m (map fst (m_w E)) y WK (w_incr ltac:(lia)) Hy Pm (fun z Hz => NY m z ltac:(lia) Hz)) as (W1 & W2).
  destruct (keys_at _ _ _ W1) as (d & W3). unfold lbk at 1 2. rewrite W3. assert (WL : lb (map fst (m_w E)) (fill m a) < length (m_w E)) by (assert (X' : S (lb (map fst (m_w E)) (fill m a)) < length (m_w E)) by (apply nth_error_Some; congruence); lia).
  rewrite (proj2 (Nat.eqb_neq _ _)) by lia. cbn [negb obind]. assert (FF : fill m (fill m y) = fill m y) by (apply fill_eq; [apply fill_len|]; rewrite same_sym, fill_same by lia; apply same_refl). rewrite FF.
  rewrite from_eq by (rewrite FG by (auto; lia); lia). rewrite FG by (auto; lia). rewrite (at_lb_in A y HA Hy). cbn [obind]. rewrite PIT.
  assert (PM : set m (at_ m y) (fill m y) = fm y) by (apply (proj_m N n m Hm Hn); auto). rewrite PM. unfold from_. rewrite lb_in_eq by (unfold lbk; rewrite R2; split; [lia|]; rewrite <- R2; apply lb_le).
  unfold place. cbn [kst ked rit wit pit qit]. rewrite oE, Et, KST, El. rewrite (proj2 (Nat.ltb_lt 0 m)) by auto. rewrite (proj2 (Nat.leb_gt n m)) by auto. unfold lbk. rewrite W2. reflexivity.
Qed.
(** The scans *)
Lemma first_of_spec go ok l : forall j, match first_of go ok l j with
  | Some (k, j') => exists i c, j' = j + i /\ nth_error l i = Some (k, c) /\ go k = true /\ ok k = true /\ forall i' e, i' < i -> nth_error l i' = Some e -> ok (fst e) = false
  | None => forall i e, nth_error l i = Some e -> (forall i' e', i' <= i -> nth_error l i' = Some e' -> go (fst e') = true) -> ok (fst e) = false end.
Proof.
  induction l as [|(k, c) l IH]; intros j; cbn [first_of]; [intros [|]; discriminate|]. destruct (go k) eqn:G.
  - destruct (ok k) eqn:O.
    + exists 0, c. rewrite Nat.add_0_r. split; [auto|]. split; [reflexivity|]. split; [auto|]. split; [auto|]. intros; lia.
    + specialize (IH (S j)). destruct (first_of go ok l (S j)) as [(k', j')|].
      * destruct IH as (i & c' & -> & I1 & I2 & I3 & I4). exists (S i), c'. split; [lia|]. split; [auto|]. split; [auto|]. split; [auto|]. intros [|i'] e Hi He; [cbn in He; injection He as <-; auto|]. apply (I4 i'); [lia|auto].
      * intros [|i] e He Hg; [cbn in He; injection He as <-; auto|]. apply (IH i); [auto|]. intros i' e' Hi He'. apply (Hg (S i')); [lia|auto].
  - intros i e _ Hg. specialize (Hg 0 (k, c) ltac:(lia) eq_refl). cbn in Hg. congruence.
Qed.
Lemma skip_to_spec go ok l : forall j i0 e0, nth_error l i0 = Some e0 -> ok (fst e0) = true -> (forall i' e', i' <= i0 -> nth_error l i' = Some e' -> go (fst e') = true) ->
  exists k i c, skip_to go ok l j = Some (k, j + i) /\ nth_error l i = Some (k, c) /\ go k = true /\ ok k = true /\ forall i' e, i' < i -> nth_error l i' = Some e -> ok (fst e) = false.
Proof.
  induction l as [|(k, c) l IH]; intros j i0 e0 H0 O0 G0; [destruct i0; discriminate|]. cbn [skip_to]. assert (Gk : go k = true) by (apply (G0 0 (k, c)); [lia|reflexivity]). rewrite Gk. cbn [andb]. destruct (ok k) eqn:O; cbn [negb].
  - exists k, 0, c. rewrite Nat.add_0_r. split; [auto|]. split; [reflexivity|]. split; [auto|]. split; [auto|]. intros; lia.
  - destruct i0 as [|i0]; [cbn in H0; injection H0 as <-; cbn in O0; congruence|]. destruct (IH (S j) i0 e0 H0 O0) as (k' & i & c' & I0 & I1 & I2 & I3 & I4); [intros i' e' Hi He; apply (G0 (S i')); [lia|auto]|].
    exists k', (S i), c'. split; [rewrite I0; do 2 f_equal; lia|]. split; [auto|]. split; [auto|]. split; [auto|]. intros [|i'] e Hi He; [cbn in He; injection He as <-; auto|]. apply (I4 i'); [lia|auto].
Qed.
Lemma nth_skipn {X} (l : list X) : forall k i, nth_error (skipn k l) i = nth_error l (k + i).
Proof. induction l as [|x l IH]; intros k i; [rewrite skipn_nil; generalize (k + i); intros q; destruct i, q; reflexivity|]. destruct k; [reflexivity|]. cbn. apply IH. Qed.
Lemma nth_skip_ (l : key) : forall k i, nth i (skipn k l) 0 = nth (k + i) l 0.
Proof. induction l as [|x l IH]; intros k i; [rewrite skipn_nil; generalize (k + i); intros q; destruct i, q; reflexivity|]. destruct k; [reflexivity|]. cbn. apply IH. Qed.
Lemma group_first t w : In w A -> exists y, nth_error A (lb A (fill t w)) = Some y /\ In y A /\ same t w y = true /\ (forall z, In z A -> lexb z y = plt t z w) /\ lb A y = lb A (fill t w).
Proof.
  intros Hw. pose proof (HN w Hw) as Lw. pose proof (at_lb N rg n m Hm Hn A HB HA HN E T w Lw (fill t w)) as X. destruct (nth_error A (lb A (fill t w))) as [y|] eqn:Ey.
  - destruct X as (Hy & Y1 & Y2). exists y. split; [auto|]. split; [auto|]. rewrite lexb_fill in Y1 by (rewrite !HN; auto).
    assert (Y3 : forall z, In z A -> lexb z y = plt t z w) by (intros z Hz; rewrite Y2, lexb_fill by (auto; rewrite !HN; auto); reflexivity). split; [|split; [auto|apply lb_at; auto]].
    destruct (pfx_cases t w y) as [Q|[Q|Q]]; [|auto|congruence]. apply plt_lex in Q; [|rewrite !HN; auto]. rewrite Y3, plt_irr in Q by auto. discriminate.
  - specialize (X w Hw). rewrite lexb_fill, plt_irr in X by auto. discriminate.
Qed.
(** Entries of m_r by position *)
Lemma r_at i e : nth_error (m_r E) i = Some e -> exists z, In z A /\ fst e = fm z /\ lb (map fst (m_r E)) (fm z) = i.
Proof.
  intros H. assert (X : nth_error (map fst (m_r E)) i = Some (fst e)) by (rewrite nth_error_map, H; reflexivity). destruct (proj1 (r_keys (fst e)) (nth_error_In _ _ X)) as (z & Hz & Ez). exists z. split; [auto|]. split; [auto|]. apply lb_at; [apply r_incr|congruence].
Qed.
Lemma r_pos z : In z A -> exists c, nth_error (m_r E) (lb (map fst (m_r E)) (fm z)) = Some (fm z, c).
Proof. intros Hz. apply keys_at, at_lb_in; [apply r_incr|]. apply r_keys. eauto. Qed.
Lemma r_lt z y : In z A -> In y A -> (lb (map fst (m_r E)) (fm z) < lb (map fst (m_r E)) (fm y) <-> plt (S m) z y = true).
Proof.
  intros Hz Hy. destruct (r_pos z Hz) as (c & X). destruct (r_pos y Hy) as (d & Y). apply (f_equal (option_map fst)) in X, Y. rewrite <- nth_error_map in X, Y. cbn in X, Y. rewrite <- fm_lt by auto. split; intros H.
  - exact (incr_nth _ _ _ _ _ r_incr X Y H).
  - exact (lb_gt _ _ _ _ r_incr X H).
Qed.
Lemma between z w : In z A -> In w A -> same n a z = true -> plt n w a = false -> plt (S m) z w = false -> n <= S m -> same n a w = true.
Proof.
  intros Hz Hw H1 H2 H3 C. destruct (pfx_cases n a w) as [X|[X|X]]; [|auto|congruence]. rewrite (same_plt_l n a z) in X by auto. apply (plt_le (S m)) in X; [congruence|auto|rewrite !HN; auto].
Qed.
(** The largest range in the group *)
Lemma more_spec : n <= m -> exists g, (match nth_error (m_qr E) (lbk (m_qr E) (fill n a)) with
    | Some (_, bs) => match rev bs with (b, _) :: _ => S beta <? b | [] => false end
    | None => false end) = (S beta <? g) /\ (forall z, In z A -> same n z a = true -> rg (at_ m z) <= g) /\ exists z, In z A /\ same n z a = true /\ rg (at_ m z) = g.
Proof.
  intros C. rewrite (t_qr _ _ _ _ _ _ T C). destruct (q_stage N rg n m Hm Hn A HA HN a C Ha) as (Q1 & _). rewrite Q1. clear Q1. pose proof (ww_ok N n m Hm Hn A HA HN n C) as R0. pose proof R0 as (_ & _ & R3).
  set (g := filter (fun e => same n (fst e) a) (ww m (r_ m A) n)). unfold beta_sz. destruct (fold_keys (fun e : key * nat => rg (at_ m (fst e))) g [] I) as (V1 & V2).
  set (V := fold_left (fun s e => emplace Nat.ltb (rg (at_ m (fst e))) tt s) g []) in *.
  assert (Hin : forall y, In y A -> same n y a = true -> In (rg (at_ m y)) (map fst V)).
  { intros y Hy Hs. apply V2. left. destruct (reps_has _ _ _ y R0 Hy) as (e & He & Ee). apply in_map_iff. exists e. split; [rewrite Ee, (proj_at N n m Hm Hn); auto|].
    apply filter_In. split; [auto|]. rewrite Ee, (proj_same N n m Hm Hn) by lia. auto. }
  rewrite <- map_rev. destruct (rev V) as [|(b, u) w] eqn:Er.
  { exfalso. assert (EV : V = []) by (rewrite <- (rev_involutive V), Er; reflexivity). specialize (Hin a Ha (same_refl n a)). rewrite EV in Hin. destruct Hin. }
  exists b. cbn [map fst]. split; [reflexivity|]. split.
  - intros z Hz Hs. specialize (Hin z Hz Hs). apply in_map_iff in Hin as (x & Ex & Hx). pose proof (last_max N n m Hm Hn a La V _ _ V1 Er x Hx) as X. cbn [fst] in X. lia.
  - assert (X : In b (map fst V)) by (apply (in_map fst V (b, u)), in_rev; rewrite Er; left; reflexivity). apply V2 in X as [X|[]]. apply in_map_iff in X as (e & <- & He). apply filter_In in He as (He & Hs). destruct (R3 e He) as (z & Hz & Ez). exists z. split; [auto|].
    rewrite Ez in Hs. rewrite (proj_same N n m Hm Hn) in Hs by lia. split; [auto|]. rewrite Ez, (proj_at N n m Hm Hn) by auto. reflexivity.
Qed.
Lemma next_le : n <= m -> S p < m_size E -> next_it N rg n m E X = begin_ N rg n m E (S p).
Proof.
  intros C Hs. unfold next_it. change (elem X) with (insert_at n beta a). change (pos X) with p. rewrite (proj2 (Nat.leb_gt _ _)) by auto. rewrite strip_x, at_x. change (ked X) with (lb (m_ord E) a). rewrite oE.
  destruct (if t_ <? N then _ else None) as [v|] eqn:EA; [exact (step_A v EA)|]. apply last_t in EA. assert (Et : t_ = S m) by lia. rewrite Et in EA. rewrite (proj2 (Nat.ltb_ge m n)) by auto.
  change (rit X) with (S (lbk (m_r E) (fm a))). change (qit X) with (if n <=? m then lbk (m_qr E) (fill n a) else 0). rewrite (proj2 (Nat.leb_le n m)) by auto.
  change (wit X) with (if 0 <? Nat.min n m then lbk (m_w E) (fill (Nat.min n m) a) else 0). rewrite (Nat.min_l n m) by auto.
  change (pit X) with (if S m <? n then lb (m_ord E) (after n a) else 0). rewrite (proj2 (Nat.ltb_ge (S m) n)) by lia.
  assert (ANS : forall z, In z A -> lexb a z = true -> plt (S m) a z = true).
  { intros z Hz H. destruct (lex_pfx (S m) a z) as [Q|Q]; [rewrite !HN; auto|auto|auto|]. rewrite (EA z Hz Q) in H. discriminate. }
  (* the first stored array with the same m+1 numbers *)
  assert (PL : forall t y, In y A -> same n a y = true -> (forall z, In z A -> lexb z (fm y) = lexb z y) -> nxt t y ->
    Some (Iter (S p) (insert_at n t y) (lb A y) (lb A y) (S (lbk (m_r E) (fm y))) (if 0 <? n then lbk (m_w E) (fill n a) else 0) 0 (lbk (m_qr E) (fill n a))) = begin_ N rg n m E (S p)).
  { intros t y Hy Sy Fy NX. rewrite (begin_next _ _ NX). unfold place. rewrite oE, Et, (lb_ext A (fm y) y) by auto. rewrite (Nat.min_l n m) by auto. rewrite (proj2 (Nat.ltb_ge (S m) n)), (proj2 (Nat.leb_le n m)) by lia.
    rewrite (fill_eq n a y) by (auto; rewrite !HN; auto). reflexivity. }
  pose proof (first_of_spec (same n a) (fun k => beta <? rg (at_ m k)) (skipn (S (lbk (m_r E) (fm a))) (m_r E)) (S (lbk (m_r E) (fm a)))) as F. destruct (first_of _ _ _ _) as [(k, j)|].
  { destruct F as (i & c & -> & F1 & F2 & F3 & F4). rewrite nth_skipn in F1. destruct (r_at _ _ F1) as (w & Hw & Ew & Jw). cbn [fst] in Ew. subst k. rewrite fill_same in F2 by lia. rewrite at_fill in F3 by lia. apply Nat.ltb_lt in F3.
    assert (Paw : plt (S m) a w = true) by (apply r_lt; auto; rewrite Jw; unfold lbk; lia).
    assert (BT : forall z, In z A -> plt (S m) a z = true -> plt (S m) z w = true -> rg (at_ m z) <= beta).
    { intros z Hz P1 P2. destruct (r_pos z Hz) as (d & Z). apply r_lt in P1, P2; auto. rewrite Jw in P2. unfold lbk in *. specialize (F4 (lb (map fst (m_r E)) (fm z) - S (lb (map fst (m_r E)) (fm a))) (fm z, d)). cbv beta in F4. cbn [fst] in F4. rewrite at_fill in F4 by lia. apply Nat.ltb_ge, F4; [lia|].
      rewrite nth_skipn. rewrite <- Z. f_equal. lia. }
    destruct (group_first (S m) w Hw) as (y & Ey & Hy & Sy & Y & Ly). assert (Say : same n a y = true). { rewrite (same_same_r n y w); [auto|]. rewrite same_sym. apply (same_le (S m)); [lia|auto]. }
    assert (Lw : length w = length y) by (rewrite !HN; auto). pose proof (HN y Hy) as LyN.
    assert (Fwy : fm w = fm y) by (apply fill_eq; auto).
    assert (NX : nxt beta y).
    { split; [auto|]. split; [rewrite <- (same_at (S m) w y) by auto; auto|]. intros z u Hz Hu. unfold ExtProofs9.lt4. rewrite <- (same_plt_r n a y), <- (same_same_r n a y), Y by auto. destruct (plt n z a) eqn:P; [reflexivity|]. cbn [orb]. destruct (same n z a) eqn:Q; [|reflexivity]. cbn [andb]. f_equal.
      destruct (Nat.eqb_spec u beta) as [U|U]; [|reflexivity]. cbn [andb]. destruct (lexb a z) eqn:LZ; cbn [negb].
      - apply ANS in LZ; [|auto]. destruct (plt (S m) z w) eqn:W; [|auto]. specialize (BT z Hz LZ W). lia.
      - destruct (pfx_cases (S m) z a) as [V|[V|V]]; [eapply plt_trans; eauto|rewrite (same_plt_l (S m) z a); auto|]. apply plt_lex in V; [congruence|rewrite !HN; auto]. }
    rewrite <- (PL beta y Hy Say (fun z Hz => eq_trans (lexb_fill (S m) z y (eq_trans (HN z Hz) (eq_sym LyN))) (eq_trans (eq_sym (same_plt_r (S m) w y z Sy)) (eq_sym (Y z Hz)))) NX).
    assert (FF : fm (fm w) = fm w) by (apply fill_eq; [apply fill_len|]; rewrite same_sym, fill_same by lia; apply same_refl). rewrite FF.
    rewrite from_eq by (rewrite <- Ly; apply (lb_gt A _ a _ HA); [apply at_lb_in; auto|]; rewrite Y; auto). rewrite Ey. cbn [obind]. rewrite Ly, <- Fwy. unfold lbk. rewrite Jw. unfold lbk. cbn [Nat.add]. do 2 f_equal.
    unfold insert_at. rewrite Fwy. replace (firstn (S n) (firstn n a ++ beta :: skipn n a)) with (firstn n a ++ [beta]).
    2: { rewrite firstn_app, firstn_firstn, Nat.min_r by lia. rewrite firstn_length, Nat.min_l by (rewrite La; lia). replace (S n - n) with 1 by lia. reflexivity. }
    apply same_eq in Say. rewrite Say, <- app_assoc. f_equal. cbn [app]. f_equal. rewrite <- skipn_firstn_comm. rewrite fill_firstn by lia. rewrite <- (firstn_skipn (S m) y) at 3. rewrite skipn_app, firstn_length. replace (n - Nat.min (S m) (length y)) with 0 by lia. reflexivity. }
  destruct (more_spec C) as (g & G0 & G1 & z0 & Hz0 & Sz0 & Ez0). cbv zeta. rewrite G0.
  assert (DONE : forall z, In z A -> same n z a = true -> beta < rg (at_ m z) -> lexb a z = false).
  { intros z Hz Sz Bz. destruct (lexb a z) eqn:LZ; [|auto]. exfalso. apply ANS in LZ; [|auto]. destruct (r_pos z Hz) as (d & Z). pose proof (proj2 (r_lt a z Ha Hz) LZ) as PZ. unfold lbk in F.
    specialize (F (lb (map fst (m_r E)) (fm z) - S (lb (map fst (m_r E)) (fm a))) (fm z, d)). cbn [fst] in F. rewrite at_fill in F by lia. rewrite (proj2 (Nat.ltb_lt _ _) Bz) in F. discriminate F; [rewrite nth_skipn; rewrite <- Z; f_equal; lia|].
    intros i' e' Hi He. rewrite nth_skipn in He. destruct (r_at _ _ He) as (w & Hw & Ew & Jw). rewrite Ew, fill_same by lia. apply (between z w); auto; [rewrite same_sym; auto| |].
    - destruct (plt n w a) eqn:P; [|auto]. apply (plt_le (S m)) in P; [|lia|rewrite !HN; auto]. apply r_lt in P; auto. lia.
    - destruct (plt (S m) z w) eqn:P; [|auto]. apply r_lt in P; auto. lia. }
  destruct (Nat.ltb_spec (S beta) g) as [D|D].
  { set (R := map fst (m_r E)) in *. assert (FR : forall z, In z A -> lexb (fm z) (fill n a) = plt n z a) by (intros z Hz; rewrite lexb_fill by (rewrite fill_len, !HN; auto); unfold plt; rewrite fill_firstn by lia; reflexivity).
    assert (R0 : forall z, In z A -> plt n z a = false -> lb R (fill n a) <= lb R (fm z)).
    { intros z Hz P. apply lb_mono. intros k Hk Lk. apply r_keys in Hk as (w & Hw & ->). rewrite FR in Lk by auto. rewrite fm_lt by auto. apply (plt_le (S m) n); [lia|rewrite !HN; auto|]. destruct (pfx_cases n z a) as [V|[V|V]]; [congruence|rewrite (same_plt_r n z a); auto|eapply plt_trans; eauto]. }
    assert (R1 : forall w, In w A -> lb R (fill n a) <= lb R (fm w) -> plt n w a = false).
    { intros w Hw P. destruct (plt n w a) eqn:Q; [|auto]. exfalso. destruct (r_pos w Hw) as (d & W). apply (f_equal (option_map fst)) in W. rewrite <- nth_error_map in W. cbn in W. rewrite <- FR in Q by auto. pose proof (lb_gt _ _ _ _ r_incr W Q) as V. exact (Nat.lt_irrefl _ (Nat.lt_le_trans _ _ _ V P)). }
    destruct (r_pos z0 Hz0) as (d0 & Z0). fold R in Z0. pose proof (R0 z0 Hz0) as RZ. assert (Pz0 : plt n z0 a = false) by (destruct (plt n z0 a) eqn:Q; [apply plt_same in Q; congruence|auto]).
    assert (SA : forall k : key, same n (fill n a) k = same n a k) by (intros k; rewrite (same_sym n (fill n a)), fill_same, same_sym by lia; reflexivity).
    destruct (skip_to_spec (same n (fill n a)) (fun k => S beta <? rg (at_ m k)) (skipn (lbk (m_r E) (fill n a)) (m_r E)) (lbk (m_r E) (fill n a)) (lb R (fm z0) - lb R (fill n a)) (fm z0, d0)) as (k & i & c & K0 & K1 & K2 & K3 & K4).
    - unfold lbk. fold R. rewrite nth_skipn, <- Z0. f_equal. specialize (RZ Pz0). lia.
    - cbn [fst]. rewrite at_fill by lia. apply Nat.ltb_lt. lia.
    - intros i' e' Hi He. unfold lbk in He. fold R in He. rewrite nth_skipn in He. destruct (r_at _ _ He) as (w & Hw & Ew & Jw). fold R in Jw. rewrite Ew, SA, fill_same by lia. apply (between z0 w); auto; [rewrite same_sym; auto|apply R1; auto; lia|].
      destruct (plt (S m) z0 w) eqn:P; [|auto]. apply r_lt in P; auto. fold R in P. specialize (RZ Pz0). lia.
    - rewrite K0. cbn [obind]. unfold lbk in K1, K4. fold R in K1, K4. rewrite nth_skipn in K1. destruct (r_at _ _ K1) as (w & Hw & Ew & Jw). fold R in Jw. cbn [fst] in Ew. subst k. rewrite SA, fill_same in K2 by lia. rewrite at_fill in K3 by lia. apply Nat.ltb_lt in K3.
      assert (BT : forall z, In z A -> same n z a = true -> plt (S m) z w = true -> rg (at_ m z) <= S beta).
      { intros z Hz S1 P2. destruct (r_pos z Hz) as (d & Z). fold R in Z. apply r_lt in P2; auto. fold R in P2. rewrite Jw in P2. specialize (K4 (lb R (fm z) - lb R (fill n a)) (fm z, d)). cbn [fst] in K4. rewrite at_fill in K4 by lia.
        assert (RZ' : lb R (fill n a) <= lb R (fm z)) by (apply R0; auto; destruct (plt n z a) eqn:Q; [apply plt_same in Q; congruence|auto]). apply Nat.ltb_ge, K4; [lia|]. rewrite nth_skipn, <- Z. f_equal. lia. }
      destruct (group_first (S m) w Hw) as (y & Ey & Hy & Sy & Y & Ly). assert (Say : same n a y = true). { rewrite (same_same_r n y w); [auto|]. rewrite same_sym. apply (same_le (S m)); [lia|auto]. }
      assert (Lw : length w = length y) by (rewrite !HN; auto). pose proof (HN y Hy) as LyN.
      assert (Fwy : fm w = fm y) by (apply fill_eq; auto).
      assert (NX : nxt (S beta) y).
      { split; [auto|]. split; [rewrite <- (same_at (S m) w y) by auto; auto|]. intros z u Hz Hu. unfold ExtProofs9.lt4. rewrite <- (same_plt_r n a y), <- (same_same_r n a y), Y by auto. destruct (plt n z a) eqn:P; [reflexivity|]. cbn [orb]. destruct (same n z a) eqn:Q; [|reflexivity]. cbn [andb].
        destruct (Nat.lt_trichotomy u beta) as [U|[U|U]].
        - rewrite (proj2 (Nat.ltb_lt u (S beta))), (proj2 (Nat.ltb_lt u beta)) by lia. reflexivity.
        - subst u. rewrite (DONE z Hz Q Hu). rewrite (proj2 (Nat.ltb_lt beta (S beta))), Nat.eqb_refl by lia. rewrite orb_true_r. reflexivity.
        - rewrite (proj2 (Nat.ltb_ge u (S beta))), (proj2 (Nat.ltb_ge u beta)), (proj2 (Nat.eqb_neq u beta)) by lia. cbn [orb andb]. destruct (plt (S m) z w) eqn:W; [|apply andb_false_r]. specialize (BT z Hz Q W). rewrite (proj2 (Nat.eqb_neq u (S beta))) by lia. reflexivity. }
      rewrite <- (PL (S beta) y Hy Say (fun z Hz => eq_trans (lexb_fill (S m) z y (eq_trans (HN z Hz) (eq_sym LyN))) (eq_trans (eq_sym (same_plt_r (S m) w y z Sy)) (eq_sym (Y z Hz)))) NX).
      assert (KA : firstn n (fill n a) ++ firstn (S m - n) (skipn n (fm w)) ++ skipn (S m) (fill n a) = fm w).
      { rewrite fill_firstn by lia. rewrite <- skipn_firstn_comm, fill_firstn by lia. assert (V : skipn (S m) (fill n a) = skipn (S m) (fm w)).
        { apply (nth_ext _ _ 0 0); [rewrite !skipn_length, !fill_len, !HN; auto|]. intros q Hq. rewrite skipn_length, fill_len, La in Hq. rewrite !nth_skip_. change (at_ (S m + q) (fill n a) = at_ (S m + q) (fm w)). rewrite !at_fill_0 by lia. reflexivity. }
        rewrite V. apply same_eq in K2. rewrite K2. rewrite <- (firstn_skipn (S m) (fm w)) at 2. rewrite app_assoc. f_equal. rewrite fill_firstn by lia. rewrite <- (firstn_skipn n (firstn (S m) w)) at 2. rewrite firstn_firstn, Nat.min_l by lia. reflexivity. }
      rewrite KA, Ey. cbn [obind]. rewrite Ly, <- Fwy. unfold lbk. fold R. rewrite Jw. do 2 f_equal. rewrite first_x. apply ins_same; auto. }
  destruct next_group as (Hn0 & y & Ey & Hy & Py & Y & Ly & NX); [|auto|].
  { intros z u Hz Hu Hzs. specialize (G1 z Hz Hzs). destruct (Nat.eq_dec u beta) as [U|U]; [|left; lia]. right. split; [auto|]. apply DONE; auto. lia. }
  rewrite (begin_next _ _ NX). assert (Lq : length a = length y) by (rewrite !HN; auto). assert (Ly' : length y = N) by auto.
  assert (FG : forall t, n <= t -> lb A (fill t y) = lb A y).
  { intros t Ht. apply lb_ext. intros z Hz. apply first_group; auto. intros w Hw Sw. rewrite Y by auto. apply negb_false_iff. rewrite (same_plt_r n w y); auto. apply (same_le t); auto. }
  rewrite (proj2 (Nat.ltb_lt 0 n)) by auto. assert (El : Nat.min n m = n) by lia.
  assert (WK : forall k, In k (map fst (m_w E)) <-> exists z, In z A /\ k = fill n z) by (intros k; rewrite w_keys by lia; rewrite El; tauto).
  assert (NY : forall z, In z A -> plt n a z = true -> plt n z y = false).
  { intros z Hz P. destruct (plt n z y) eqn:Q; [|auto]. apply plt_lex in Q; [|rewrite !HN; auto]. rewrite Y, P in Q by auto. discriminate. }
  destruct (table_next n (map fst (m_w E)) y WK (w_incr ltac:(lia)) Hy Py NY) as (W1 & W2). destruct (keys_at _ _ _ W1) as (d & W3). unfold lbk at 1 2. rewrite W3.
  assert (WL : lb (map fst (m_w E)) (fill n a) < length (m_w E)) by (assert (X' : S (lb (map fst (m_w E)) (fill n a)) < length (m_w E)) by (apply nth_error_Some; congruence); lia).
  rewrite (proj2 (Nat.eqb_neq _ _)) by lia. cbn [negb andb obind]. assert (FF : fill n (fill n y) = fill n y) by (apply fill_eq; [apply fill_len|]; rewrite same_sym, fill_same by lia; apply same_refl). rewrite FF.
  assert (KED : S (lb A a) <= lb A y) by (apply (lb_gt A _ a _ HA); [apply at_lb_in; auto|]; rewrite Y, plt_irr by auto; reflexivity).
  rewrite from_eq by (rewrite FG by lia; lia). rewrite FG by lia. rewrite (at_lb_in A y HA Hy). cbn [obind].
  assert (RR : lbk (m_r E) (fill n y) = lbk (m_r E) (fm y)).
  { unfold lbk. apply lb_ext. intros k Hk. apply r_keys in Hk as (z & Hz & ->). rewrite fm_lt by auto. rewrite lexb_fill by (rewrite fill_len, !HN; auto). unfold plt at 1. rewrite fill_firstn by lia. fold (plt n z y).
    destruct (plt n z y) eqn:P; [symmetry; apply (plt_le (S m) n); [lia|rewrite !HN; auto|auto]|]. destruct (plt (S m) z y) eqn:Q; [|auto]. apply plt_lex in Q; [|rewrite !HN; auto]. rewrite Y in Q by auto. apply negb_true_iff in Q.
    destruct (pfx_cases n z a) as [V|[V|V]]; [rewrite (plt_trans _ _ _ _ V Py) in P; discriminate|rewrite (same_plt_l n z a), Py in P by auto; discriminate|congruence]. }
  rewrite RR. unfold place. rewrite oE, Et, El, FG by lia. rewrite (proj2 (Nat.ltb_lt 0 n)), (proj2 (Nat.ltb_ge (S m) n)), (proj2 (Nat.leb_le n m)) by lia. unfold lbk. rewrite W2. reflexivity.
Qed.
End Nx.
