(** operator[](array) is the position in lexicographic order. *)
From Verif Require Import Prelude ExtModel ExtSpec ExtProofs ExtProofs2.
Local Arguments Nat.ltb : simpl never.
Local Arguments Nat.eqb : simpl never.
Local Arguments Nat.leb : simpl never.
Local Arguments sm : simpl never.

Lemma fill_all a : fill (length a) a = a.
Proof. unfold fill. rewrite firstn_all, Nat.sub_diag. apply app_nil_r. Qed.
Lemma lookup_sum (W : mapk) k : ordk W -> match nth_error W (lbk W k) with Some (k', v) => if keyb k' k then v else 0 | None => 0 end = sm (fun e => (if keyb (fst e) k then 1 else 0) * snd e) W.
Proof.
  unfold lbk. induction W as [|(k', v) W IH]; [auto|]. intros (H1 & H2). cbn [map fst lb]. rewrite sm_cons. cbn [fst snd]. destruct (lexb k' k) eqn:E; cbn [nth_error].
  - rewrite IH by auto. destruct (keyb k' k) eqn:E'; [apply keyb_eq in E' as ->; rewrite lexb_irr in E; discriminate|]. lia.
  - rewrite sm_0; [destruct (keyb k' k); lia|]. intros e He. destruct (keyb (fst e) k) eqn:E'; [|lia]. apply keyb_eq in E'. subst k. specialize (H1 e He). cbn [fst] in H1. congruence.
Qed.
Lemma reps_has M A f a : reps M A f -> In a A -> exists e, In e M /\ fst e = f a.
Proof.
  intros (_ & H & _) Ha. specialize (H (fun k => if keyb k (f a) then 1 else 0)).
  assert (HA : 1 <= sm (fun x => if keyb (f x) (f a) then 1 else 0) A).
  { clear -Ha. induction A as [|x A IH]; [destruct Ha|]. rewrite sm_cons. destruct Ha as [->|Ha]; [rewrite keyb_refl; lia|]. specialize (IH Ha). lia. }
  rewrite <- H in HA. clear -HA. induction M as [|e M IH]; [cbn in HA; unfold sm in HA; cbn in HA; lia|]. rewrite sm_cons in HA.
  destruct (keyb (fst e) (f a)) eqn:E; [apply keyb_eq in E; exists e; cbn; auto|]. destruct IH as (e' & He & E'); [lia|]. exists e'. cbn. auto.
Qed.
Lemma reps_if M A f (p : key -> bool) (g : key -> nat) : reps M A f -> sm (fun e => if p (fst e) then g (fst e) * snd e else 0) M = sm (fun a => if p (f a) then g (f a) else 0) A.
Proof.
  intros (_ & H & _). rewrite <- (H (fun k => if p k then g k else 0)). apply sm_ext. intros e _. destruct (p (fst e)); lia.
Qed.

Section Tables.
Variable N : nat.
Variable rg : nat -> nat.
Variables n m : nat.
Hypothesis Hm : m < N.
Hypothesis Hn : n <= N.
Variable A : list key.
Hypothesis HA : incr (fun x => x) A.
Hypothesis HN : forall a, In a A -> length a = N.

Definition proj (l : nat) (a : key) : key := set m (at_ m a) (fill l a).
Lemma proj_len l a : length (proj l a) = length a.
Proof. unfold proj. rewrite set_len, fill_len. auto. Qed.
Lemma proj_at l a : length a = N -> at_ m (proj l a) = at_ m a.
Proof. intros H. apply at_set_eq. rewrite fill_len. lia. Qed.
Lemma proj_firstn u l a : u <= l -> l <= m -> firstn u (proj l a) = firstn u a.
Proof. intros Hu Hl. unfold proj. rewrite set_firstn, fill_firstn by lia. auto. Qed.
Lemma proj_same u l a b : u <= l -> l <= m -> same u (proj l a) b = same u a b.
Proof. intros Hu Hl. unfold same. rewrite proj_firstn; auto. Qed.
Lemma proj_plt u l a b : u <= l -> l <= m -> plt u (proj l a) b = plt u a b.
Proof. intros Hu Hl. unfold plt. rewrite proj_firstn; auto. Qed.
Lemma proj_m a : length a = N -> proj m a = fill (S m) a.
Proof.
  intros H. apply ext_at; [rewrite proj_len, fill_len; auto|]. intros i Hi. rewrite proj_len in Hi. unfold proj. destruct (Nat.eq_dec i m) as [->|Hne].
  - rewrite at_set_eq by (rewrite fill_len; lia). rewrite at_fill by lia. auto.
  - rewrite at_set_ne by auto. destruct (Nat.lt_ge_cases i m); [rewrite !at_fill by lia; auto|rewrite !at_fill_0 by lia; auto].
Qed.
Lemma proj_shape l a : length a = N -> l <= m -> set m 0 (proj l a) = fill l (proj l a).
Proof.
  intros H Hl. unfold proj. rewrite set_set. apply ext_at; [rewrite set_len, !fill_len, set_len, fill_len; auto|]. intros i Hi. rewrite set_len, fill_len in Hi. destruct (Nat.eq_dec i m) as [->|Hne].
  - rewrite at_set_eq by (rewrite fill_len; auto). rewrite at_fill_0; auto.
  - rewrite at_set_ne by auto. destruct (Nat.le_gt_cases l i) as [C|C]; [rewrite !at_fill_0; auto|]. rewrite !at_fill by auto. rewrite at_set_ne by auto. rewrite at_fill; auto.
Qed.
(** ** r *)
Lemma build_r_ok : forall fuel l r, length l <= fuel -> incr (fun x => x) l -> (forall a, In a l -> length a = N) -> ordk r -> (forall e x, In e r -> In x l -> lexb (fst e) (fill (S m) x) = true) ->
  ordk (build_r m fuel l r) /\
  (forall phi : key -> nat, sm (fun e => phi (fst e) * snd e) (build_r m fuel l r) = sm (fun a => phi (fill (S m) a)) l + sm (fun e => phi (fst e) * snd e) r) /\
  (forall e, In e (build_r m fuel l r) -> (exists a, In a l /\ fst e = fill (S m) a) \/ In e r).
Proof.
  induction fuel as [|fuel IH]; intros l r Hf Hl Hlen Hr Hlt.
  - destruct l; [|cbn in Hf; lia]. cbn. split; [auto|]. split; [intros; unfold sm; cbn; auto|auto].
  - destruct l as [|x l]; [cbn; split; [auto|split; [intros; unfold sm; cbn; auto|auto]]|].
    cbn [build_r]. rewrite at_fill by lia. set (a := set m (S (at_ m x)) (fill (S m) x)). set (c := lb l a).
    assert (Hx : length x = N) by (apply Hlen; cbn; auto). destruct Hl as (Hxl & Hl).
    assert (HlN : forall y, In y l -> length y = N) by (intros; apply Hlen; cbn; auto).
    assert (Hcmp : forall y, In y l -> lexb y a = same (S m) y x).
    { intros y Hy. unfold a. rewrite lexb_succ by (rewrite ?(HlN y Hy); lia). destruct (plt (S m) y x) eqn:E; [|auto]. apply plt_lex in E; [|rewrite HlN; auto]. rewrite (lexb_asym _ _ (Hxl y Hy)) in E. discriminate. }
    assert (Hfst : forall y, In y (firstn c l) -> fill (S m) y = fill (S m) x).
    { intros y Hy. assert (Hy' : In y l) by (rewrite <- (firstn_skipn c l); apply in_or_app; auto). apply fill_eq; [rewrite HlN; auto|]. rewrite <- Hcmp by auto. apply lb_before in Hy. auto. }
    assert (Hsnd : forall y, In y (skipn c l) -> lexb (fill (S m) x) (fill (S m) y) = true).
    { intros y Hy. assert (Hy' : In y l) by (rewrite <- (firstn_skipn c l); apply in_or_app; auto). apply fill_lt; [rewrite (HlN y Hy'); auto|].
      apply lb_after in Hy; [|auto]. rewrite Hcmp in Hy by auto. destruct (lex_pfx (S m) x y (eq_trans Hx (eq_sym (HlN y Hy'))) (Hxl y Hy')) as [C|C]; [exact C|rewrite same_sym in C; congruence]. }
    assert (Hnew : ~ In (fill (S m) x) (map fst r)).
    { intros C. apply in_map_iff in C as (e & E & C). specialize (Hlt e x C (or_introl eq_refl)). rewrite E, lexb_irr in Hlt. discriminate. }
    destruct (IH (skipn c l) (emplace lexb (fill (S m) x) (S c) r)) as (I1 & I2 & I3).
    + rewrite skipn_length. cbn in Hf. lia.
    + apply incr_skipn, Hl.
    + intros y Hy. apply HlN. rewrite <- (firstn_skipn c l); apply in_or_app; auto.
    + apply ups, Hr.
    + intros e y He Hy. apply (upd_keys lexb lexb_total) in He as [->|He]; [auto|]. apply Hlt; [auto|]. right. rewrite <- (firstn_skipn c l); apply in_or_app; auto.
    + split; [exact I1|]. split.
      * intros phi. rewrite I2, (emplace_sum lexb lexb_total) by auto. rewrite sm_cons. rewrite <- (firstn_skipn c l) at 2. rewrite sm_app.
        rewrite (sm_ext (fun a => phi (fill (S m) a)) (fun _ => phi (fill (S m) x)) (firstn c l)) by (intros y Hy; rewrite Hfst; auto).
        assert (Hc : forall k (l' : list key), sm (fun _ => k) l' = k * length l'). { clear. intros k l'. induction l' as [|y l' IH]; [unfold sm; cbn; lia|]. rewrite sm_cons, IH. cbn [length]. lia. }
        rewrite Hc, firstn_length, Nat.min_l by apply lb_le. lia.
      * intros e He. destruct (I3 e He) as [(y & Hy & E)|H].
        -- left. exists y. split; [right; rewrite <- (firstn_skipn c l); apply in_or_app; auto|auto].
        -- apply (upd_keys lexb lexb_total) in H as [E|H]; [left; exists x; cbn; auto|auto].
Qed.
Definition r_ := build_r m (length A) A [].
Lemma r_ok : reps r_ A (fill (S m)).
Proof.
  destruct (build_r_ok (length A) A [] (le_n _) HA HN I (fun _ _ H => False_ind _ H)) as (H1 & H2 & H3). split; [exact H1|]. split; [intros phi; unfold r_; rewrite H2; unfold sm at 2; cbn; lia|].
  intros e He. destruct (H3 e He) as [H|[]]. exact H.
Qed.
Lemma reps_ext M f g : (forall a, In a A -> f a = g a) -> reps M A f -> reps M A g.
Proof.
  intros H (H1 & H2 & H3). split; [auto|]. split; [intros phi; rewrite H2; apply sm_ext; intros a Ha; rewrite H; auto|]. intros e He. destruct (H3 e He) as (a & Ha & E). exists a. rewrite <- H; auto.
Qed.
Lemma coarse_ok i M : i < m -> reps M A (proj (S i)) -> reps (coarse i M) A (proj i).
Proof.
  intros Hi (H1 & H2 & H3). unfold coarse. destruct (fold_add (fun e => set i 0 (fst e)) snd M [] I) as (F1 & F2 & F3 & _).
  assert (E : forall a, In a A -> set i 0 (proj (S i) a) = proj i a).
  { intros a Ha. apply ext_at; [rewrite set_len, !proj_len; auto|]. intros j Hj. rewrite set_len, proj_len in Hj. destruct (Nat.eq_dec j i) as [->|Hne].
    - rewrite at_set_eq by (rewrite proj_len; auto). unfold proj. rewrite at_set_ne by lia. rewrite at_fill_0; auto.
    - rewrite at_set_ne by auto. unfold proj. destruct (Nat.eq_dec j m) as [->|Hjm]; [rewrite !at_set_eq by (rewrite fill_len; auto); auto|]. rewrite !at_set_ne by auto.
      destruct (Nat.lt_ge_cases j i); [rewrite !at_fill by lia; auto|rewrite !at_fill_0 by lia; auto]. }
  split; [exact F1|]. split.
  - intros phi. rewrite F2, (H2 (fun k => phi (set i 0 k))). unfold sm at 2. cbn. rewrite Nat.add_0_r. apply sm_ext. intros a Ha. rewrite E; auto.
  - intros e He. destruct (F3 e He) as [H|[]]. apply in_map_iff in H as (e' & E' & He'). destruct (H3 e' He') as (a & Ha & Ea). exists a. split; [auto|]. rewrite <- E', Ea. auto.
Qed.
Lemma ww_ok l : l <= m -> reps (ww m r_ l) A (proj l).
Proof.
  intros Hl. unfold ww. remember (m - l) as d eqn:Hd. revert l Hl Hd. induction d as [|d IH]; intros l Hl Hd.
  - assert (l = m) by lia. subst l. cbn. apply (reps_ext _ (fill (S m))); [intros a Ha; rewrite proj_m; auto|apply r_ok].
  - cbn [seq rev]. rewrite fold_left_app. cbn [fold_left]. apply coarse_ok; [lia|]. apply IH; lia.
Qed.
Lemma ww_m : ww m r_ m = r_.
Proof. unfold ww. rewrite Nat.sub_diag. reflexivity. Qed.
Lemma ww_wf l : l <= m -> wf N l m (ww m r_ l).
Proof.
  intros Hl. destruct (ww_ok l Hl) as (H1 & H2 & H3). split; [auto|]. intros e He. destruct (H3 e He) as (a & Ha & E). rewrite E. split; [rewrite proj_len; auto|]. apply proj_shape; auto.
Qed.
Lemma ww_ne l : l <= m -> A <> [] -> ww m r_ l <> [].
Proof. intros Hl Hne C. assert (Ha : exists a, In a A) by (clear -Hne; destruct A as [|a A']; [contradiction|exists a; cbn; auto]). destruct Ha as (a & Ha). destruct (reps_has _ _ _ a (ww_ok l Hl) Ha) as (e & He & _). rewrite C in He. destruct He. Qed.

(** ** w: the elements with a smaller prefix *)
Lemma w_ok l x id : l <= m -> good N 0 l m (ww m r_ l) x -> In id A ->
  ordk (weigh rg m x) /\ sm (fun e => (if keyb (fst e) (fill l id) then 1 else 0) * snd e) (weigh rg m x) = sm (fun a => if plt l a id then rg (at_ m a) else 0) A.
Proof.
  intros Hl G Hid. unfold weigh. destruct (fold_add (fun e => set m 0 (fst e)) (fun e => rg (at_ m (fst e)) * snd e) x [] I) as (F1 & F2 & _).
  split; [exact F1|]. rewrite (F2 (fun k => if keyb k (fill l id) then 1 else 0)). unfold sm at 2. cbn [fold_right]. rewrite Nat.add_0_r.
  assert (HidN : length id = N) by auto.
  destruct (reps_has _ _ _ id (ww_ok l Hl) Hid) as (d & Hd & Ed).
  rewrite (sm_ext _ (fun e => (if same l (fst e) id then rg (at_ m (fst e)) else 0) * snd e)).
  2:{ intros e He. destruct (g_shape _ _ _ _ _ _ G e He) as (HeN & Hs). rewrite Hs. destruct (same l (fst e) id) eqn:E.
      - rewrite (fill_eq l (fst e) id) by (auto; lia). rewrite keyb_refl. lia.
      - destruct (keyb (fill l (fst e)) (fill l id)) eqn:E'; [|lia]. apply keyb_eq in E'. assert (C : same l (fst e) id = true).
        { apply same_eq. rewrite <- (fill_firstn l l (fst e)), <- (fill_firstn l l id) by lia. rewrite E'. auto. } congruence. }
  change (grp l m x id rg = sm (fun a => if plt l a id then rg (at_ m a) else 0) A).
  assert (Es : same l id (fst d) = true) by (rewrite Ed, same_sym, proj_same by lia; apply same_refl).
  rewrite (grp_same l m x id (fst d)) by auto. rewrite (g_sum _ _ _ _ _ _ G d Hd). rewrite <- (prev_same 0 l m) with (P := id) by (auto; lia). unfold prev.
  destruct (ww_ok l Hl) as (_ & H2 & _). rewrite (H2 (fun k => if same 0 k id && plt l k id then rg (at_ m k) else 0)). apply sm_ext. intros a Ha. rewrite proj_plt, proj_at by auto.
  rewrite proj_same by lia. reflexivity.
Qed.
(** ** p: the elements with the same first n numbers and a smaller prefix of length m *)
Lemma p_ok P id s : n <= m -> good N n m m r_ P -> In id A ->
  sm (fun e => if s <? rg (at_ m (fst e)) then snd e else 0) (while_ (fun e => same m (fst e) (fill m id)) (skipn (lbk P (fill m id)) P)) =
  sm (fun a => if same n a id && plt m a id && (s <? rg (at_ m a)) then 1 else 0) A.
Proof.
  intros Hnm G Hid. assert (HidN : length id = N) by auto. unfold lbk. rewrite (scan_filter fst).
  2:{ apply ordk_incr, (g_ord _ _ _ _ _ _ G). }
  2:{ intros e He E. rewrite lexb_fill by (rewrite (proj1 (g_shape _ _ _ _ _ _ G e He)); lia). rewrite fill_same in E by lia. destruct (plt m (fst e) id) eqn:C; [|auto]. apply plt_same in C. congruence. }
  2:{ intros a b Ha Hb E1 E2 E3. pose proof (proj1 (g_shape _ _ _ _ _ _ G a Ha)) as La. pose proof (proj1 (g_shape _ _ _ _ _ _ G b Hb)) as Lb. rewrite lexb_fill in E1 by lia. rewrite fill_same in * by lia.
      destruct (pfx_cases m (fst a) id) as [C|[C|C]]; [congruence|auto|]. exfalso. rewrite <- (same_plt_l m (fst b) id) in C by auto. apply plt_lex in C; [|lia]. rewrite (lexb_asym _ _ E2) in C. discriminate. }
  rewrite sm_filter. rewrite (sm_ext _ (fun e => (if same m (fst e) id then (fun v => if s <? rg v then 1 else 0) (at_ m (fst e)) else 0) * snd e)).
  2:{ intros e He. rewrite fill_same by lia. destruct (same m (fst e) id), (s <? rg (at_ m (fst e))); lia. }
  change (grp m m P id (fun v => if s <? rg v then 1 else 0) = sm (fun a => if same n a id && plt m a id && (s <? rg (at_ m a)) then 1 else 0) A).
  destruct (reps_has _ _ _ id r_ok Hid) as (d & Hd & Ed).
  assert (Es : same m id (fst d) = true) by (rewrite Ed, fill_same by lia; apply same_refl).
  rewrite (grp_same m m P id (fst d)) by auto. rewrite (g_sum _ _ _ _ _ _ G d Hd). rewrite <- (prev_same n m m) with (P := id) by (auto; lia). unfold prev.
  destruct r_ok as (_ & H2 & _). rewrite (H2 (fun k => if same n k id && plt m k id then (if s <? rg (at_ m k) then 1 else 0) else 0)). apply sm_ext. intros a Ha.
  rewrite at_fill by lia. unfold same, plt. rewrite !fill_firstn by lia. destruct (keyb (firstn n a) (firstn n id)), (lexb (firstn m a) (firstn m id)); reflexivity.
Qed.
(** ** q: the elements with the same first n numbers and a smaller inserted value *)
Lemma q_ok id s : n <= m -> In id A ->
  sm (fun e => Nat.min s (rg (at_ m (fst e))) * snd e) (while_ (fun e => same m (fst e) (fill n id)) (skipn (lbk (ww m r_ n) (fill n id)) (ww m r_ n))) =
  sm (fun a => if same n a id then Nat.min s (rg (at_ m a)) else 0) A.
Proof.
  intros Hnm Hid. assert (HidN : length id = N) by auto. pose proof (ww_ok n Hnm) as Q. pose proof Q as (Q1 & Q2 & Q3).
  assert (Hk : forall e, In e (ww m r_ n) -> length (fst e) = N /\ same m (fst e) (fill n id) = same n (fst e) id).
  { intros e He. destruct (Q3 e He) as (a & Ha & E). rewrite E. split; [rewrite proj_len; auto|]. rewrite (proj_same n n) by lia.
    destruct (same n a id) eqn:C.
    - apply same_eq. unfold proj. rewrite set_firstn by lia. rewrite (fill_eq n a id) by (auto; rewrite HN by auto; auto). auto.
    - destruct (same m (proj n a) (fill n id)) eqn:C'; [|auto]. apply (same_le m n) in C'; [|auto]. rewrite proj_same, fill_same in C' by lia. congruence. }
  unfold lbk. rewrite (scan_filter fst).
  2:{ apply ordk_incr, Q1. }
  2:{ intros e He E. destruct (Hk e He) as (L & E'). rewrite lexb_fill by lia. rewrite E' in E. destruct (plt n (fst e) id) eqn:C; [|auto]. apply plt_same in C. congruence. }
  2:{ intros a b Ha Hb E1 E2 E3. destruct (Hk a Ha) as (La & Ea), (Hk b Hb) as (Lb & Eb). rewrite Ea, Eb in *. rewrite lexb_fill in E1 by lia.
      destruct (pfx_cases n (fst a) id) as [C|[C|C]]; [congruence|auto|]. exfalso. rewrite <- (same_plt_l n (fst b) id) in C by auto. apply plt_lex in C; [|lia]. rewrite (lexb_asym _ _ E2) in C. discriminate. }
  rewrite sm_filter. rewrite (sm_ext _ (fun e => if same n (fst e) id then Nat.min s (rg (at_ m (fst e))) * snd e else 0)) by (intros e He; rewrite (proj2 (Hk e He)); auto).
  rewrite (reps_if _ A (proj n) (fun k => same n k id) (fun k => Nat.min s (rg (at_ m k)))) by auto. apply sm_ext. intros a Ha. rewrite proj_same, proj_at by auto. auto.
Qed.
(** ** r: the elements with the same first m numbers and a smaller number at m *)
Lemma rn_ok id t g : m < t -> In id A ->
  sm (fun e => g (at_ m (fst e)) * snd e) (while_ (fun e => same m (fst e) (fill t id) && (at_ m (fst e) <? at_ m id)) (skipn (lbk r_ (fill m (fill t id))) r_)) =
  sm (fun a => if same m a id && (at_ m a <? at_ m id) then g (at_ m a) else 0) A.
Proof.
  intros Ht Hid. assert (HidN : length id = N) by auto. pose proof r_ok as Q. pose proof Q as (Q1 & Q2 & Q3).
  assert (Hk : forall e, In e r_ -> length (fst e) = N) by (intros e He; destruct (Q3 e He) as (a & Ha & ->); rewrite fill_len; auto).
  assert (Hf : fill m (fill t id) = fill m id) by (apply fill_eq; [rewrite fill_len; auto|]; rewrite same_sym, fill_same by lia; apply same_refl). rewrite Hf.
  unfold lbk. rewrite (scan_filter fst).
  2:{ apply ordk_incr, Q1. }
  2:{ intros e He E. apply andb_true_iff in E as (E & _). rewrite lexb_fill by (rewrite Hk; auto). rewrite fill_same in E by lia. destruct (plt m (fst e) id) eqn:C; [|auto]. apply plt_same in C. congruence. }
  2:{ intros a b Ha Hb E1 E2 E3. pose proof (Hk a Ha) as La. pose proof (Hk b Hb) as Lb. rewrite lexb_fill in E1 by lia. rewrite fill_same in * by lia. apply andb_true_iff in E3 as (E3 & E4). apply Nat.ltb_lt in E4.
      destruct (pfx_cases m (fst a) id) as [C|[C|C]]; [congruence| |].
      - rewrite C. cbn [andb]. apply Nat.ltb_lt. apply (lex_pfx (S m)) in E2; [|lia]. rewrite plt_S, same_S in E2 by lia.
        assert (Eab : same m (fst a) (fst b) = true) by (rewrite (same_same_r m (fst b) id); auto). assert (Epl : plt m (fst a) (fst b) = false) by (destruct (plt m (fst a) (fst b)) eqn:X; [apply plt_same in X; congruence|auto]).
        rewrite Eab, Epl in E2. cbn [orb andb] in E2. destruct E2 as [E2|E2]; [apply Nat.ltb_lt in E2|apply Nat.eqb_eq in E2]; lia.
      - exfalso. rewrite <- (same_plt_l m (fst b) id) in C by auto. apply plt_lex in C; [|lia]. rewrite (lexb_asym _ _ E2) in C. discriminate. }
  rewrite sm_filter. rewrite (reps_if _ A (fill (S m)) (fun k => same m k (fill t id) && (at_ m k <? at_ m id)) (fun k => g (at_ m k))) by auto. apply sm_ext. intros a Ha.
  rewrite fill_same by lia. rewrite at_fill by lia. unfold same. rewrite fill_firstn by lia. auto.
Qed.
Lemma lb_A t id : In id A -> lb A (fill t id) = sm (fun a => b2n (plt t a id)) A.
Proof. intros Hid. rewrite lb_cnt by auto. apply sm_ext. intros a Ha. rewrite lexb_fill; [auto|]. rewrite !HN; auto. Qed.

(** ** Construction *)
Record table_ok (E : enum) : Prop := {
  t_ord : m_ord E = A;
  t_r : m_r E = r_;
  t_q : n <= m -> m_q E = ww m r_ n;
  t_p : n < m -> good N n m m r_ (m_p E);
  t_w : 0 < Nat.min m n -> exists x, good N 0 (Nat.min m n) m (ww m r_ (Nat.min m n)) x /\ m_w E = weigh rg m x;
  t_qr : n <= m -> m_qr E = build_qr rg n m (ww m r_ n);
  t_size : m_size E = sm (fun a => rg (at_ m a)) A }.
Lemma setup_ok : A <> [] -> exists E, setup rg n m A = Some E /\ table_ok E.
Proof.
  intros Hne. unfold setup. fold r_.
  assert (HP : exists P, (if (0 <? m) && (n <? m) then sum_part_ids n m m r_ else Some []) = Some P /\ (n < m -> good N n m m r_ P)).
  { destruct (Nat.ltb_spec 0 m); cbn [andb]; [|exists []; split; [auto|lia]]. destruct (Nat.ltb_spec n m); [|exists []; split; [auto|lia]].
    destruct (sum_part_ids_ok N n m m) with (rw := r_) as (P & E & G); [lia|lia|auto|rewrite <- ww_m; apply ww_wf; auto|rewrite <- ww_m; apply ww_ne; auto|]. exists P. auto. }
  destruct HP as (P & EP & GP). rewrite EP. cbn [obind]. set (l := Nat.min m n). assert (Hl : l <= m) by (unfold l; lia).
  assert (HW : exists W, (if (0 <? m) && (0 <? l) then do x <- sum_part_ids 0 l m (ww m r_ l); Some (weigh rg m x) else Some []) = Some W /\ (0 < l -> exists x, good N 0 l m (ww m r_ l) x /\ W = weigh rg m x)).
  { destruct (Nat.ltb_spec 0 m); cbn [andb]; [|exists []; split; [auto|unfold l; lia]]. destruct (Nat.ltb_spec 0 l); [|exists []; split; [auto|lia]].
    destruct (sum_part_ids_ok N 0 l m) with (rw := ww m r_ l) as (x & E & G); [lia|lia|auto|apply ww_wf; auto|apply ww_ne; auto|]. rewrite E. cbn [obind]. eauto. }
  destruct HW as (W & EW & GW). rewrite EW. cbn [obind]. eexists. split; [reflexivity|].
  assert (Hq : n <= m -> (if (0 <? m) && (n <? m) then ww m r_ n else r_) = ww m r_ n).
  { intros H. destruct (Nat.ltb_spec n m); [replace (0 <? m) with true by (symmetry; apply Nat.ltb_lt; lia); auto|]. rewrite andb_false_r. assert (n = m) by lia. subst n. rewrite ww_m. auto. }
  constructor; cbn [m_ord m_r m_q m_p m_w m_qr m_size]; auto.
  - intros H. rewrite (proj2 (Nat.leb_le n m)) by auto. rewrite Hq by auto. auto.
  - assert (Hs : forall M l, l <= m -> reps M A (proj l) -> sm (fun e => rg (at_ m (fst e)) * snd e) M = sm (fun a => rg (at_ m a)) A).
    { intros M l' Hl' (_ & H2 & _). rewrite (H2 (fun k => rg (at_ m k))). apply sm_ext. intros a Ha. rewrite proj_at; auto. }
    destruct ((0 <? m) && (n <? m)) eqn:C; [|apply (Hs r_ m); [auto|rewrite <- ww_m; apply ww_ok; auto]]. apply andb_true_iff in C as (_ & C). apply Nat.ltb_lt in C. apply (Hs _ n); [lia|]. apply ww_ok. lia.
Qed.

(** ** The number of smaller elements *)
Definition term (id : key) (s : nat) (a : key) : nat :=
  (if plt n a id then rg (at_ m a) else 0) + (if same n a id then Nat.min s (rg (at_ m a)) + (if (s <? rg (at_ m a)) && lexb a id then 1 else 0) else 0).
Lemma same_at t a b i : same t a b = true -> i < t -> at_ i a = at_ i b.
Proof. intros E Hi. apply same_eq in E. rewrite <- (at_firstn i t a), <- (at_firstn i t b), E; auto. Qed.
Lemma forward_ok E i : table_ok E -> In (strip n i) A -> at_ n i < rg (at_ m (strip n i)) -> forward N rg n m E i = Some (sm (term (strip n i) (at_ n i)) A).
Proof.
  intros T Hid Hs. unfold forward. rewrite (t_ord E T). set (id := strip n i) in *. set (s := at_ n i) in *. assert (HidN : length id = N) by auto.
  rewrite (proj2 (Nat.ltb_lt _ _)) by auto. cbn [negb]. pose proof (find_key_spec A id HA) as F. destruct (find_key A id) as [it_id|]; [|contradiction]. destruct F as (Eit & Hit). cbn [obind].
  f_equal. rewrite lb_cnt in Eit by auto. unfold cnt in Eit.
  assert (Hlen : it_id < length A) by (apply nth_error_Some; rewrite Hit; discriminate).
  destruct (Nat.ltb_spec m n) as [C|C].
  - (* m < n *)
    assert (Hk : (if n =? N then id else fill n id) = fill n id) by (destruct (Nat.eqb_spec n N) as [->|]; [rewrite <- HidN, fill_all; auto|auto]). rewrite Hk.
    assert (Hkid : (if n =? N then it_id else lb_in A 0 (S it_id) (fill n id)) = sm (fun a => b2n (plt n a id)) A).
    { assert (Hle : sm (fun a => b2n (plt n a id)) A <= it_id).
      { rewrite Eit. apply sm_le. intros a Ha. destruct (plt n a id) eqn:X; [|cbn; lia]. rewrite (plt_lex n a id); [auto|rewrite !HN; auto|auto]. }
      destruct (Nat.eqb_spec n N) as [X|X].
      - rewrite Eit. apply sm_ext. intros a Ha. unfold plt. rewrite !firstn_all2 by (rewrite ?HN; auto; lia). auto.
      - rewrite lb_in_eq; rewrite lb_A by auto; [auto|lia]. }
    rewrite Hkid. set (it_kid := sm (fun a => b2n (plt n a id)) A) in *.
    (* k *)
    assert (Ek : it_id - it_kid = sm (fun a => b2n (same n a id && lexb a id)) A).
    { enough (it_id = it_kid + sm (fun a => b2n (same n a id && lexb a id)) A) by lia. rewrite Eit. unfold it_kid. rewrite <- sm_add. apply sm_ext. intros a Ha.
      rewrite (lexb_split n a id) by (rewrite !HN; auto). destruct (plt n a id) eqn:X; [rewrite (plt_same _ _ _ X); auto|]. cbn [orb b2n]. destruct (same n a id); auto. }
    (* p *)
    assert (Ep : lb_in A (S it_id) (length A) (set (n - 1) (S (at_ (n - 1) (fill n id))) (fill n id)) - it_kid = sm (fun a => b2n (same n a id)) A).
    { rewrite at_fill by lia. destruct n as [|n'] eqn:En; [lia|]. cbn [Nat.sub]. rewrite Nat.sub_0_r. set (u := set n' (S (at_ n' id)) (fill (S n') id)).
      assert (Eu : lb A u = it_kid + sm (fun a => b2n (same (S n') a id)) A).
      { rewrite lb_cnt by auto. unfold cnt, it_kid. rewrite <- sm_add. apply sm_ext. intros a Ha. unfold u. rewrite lexb_succ by (rewrite ?HN; auto; lia).
        destruct (plt (S n') a id) eqn:X; [rewrite (plt_same _ _ _ X); auto|]. destruct (same (S n') a id); auto. }
      rewrite lb_in_eq; [lia|]. split; [|apply lb_le].
      assert (Hge : lexb id u = true) by (unfold u; rewrite lexb_succ by lia; rewrite same_refl; apply orb_true_r).
      pose proof (lb_nth A u) as Hnth. destruct (Nat.le_gt_cases (S it_id) (lb A u)) as [Y|Y]; [auto|]. exfalso.
      destruct (nth_error A (lb A u)) as [z|] eqn:Ez; [|lia]. destruct (Nat.eq_dec (lb A u) it_id) as [Z|Z]; [rewrite Z, Hit in Ez; injection Ez as ->; congruence|].
      assert (W : lexb z id = true) by (apply (incr_nth A (lb A u) it_id); auto; lia). rewrite (lexb_trans z id u) in Hnth; auto. discriminate. }
    rewrite Ek, Ep.
    (* q *)
    assert (Eq : (if S m <? n then rg (at_ m id) * (it_kid - lb_in A 0 (S it_kid) (fill (S m) (fill n id))) else if (n <=? m) && negb (s =? 0) then sm (fun e => Nat.min s (rg (at_ m (fst e))) * snd e) (while_ (fun e => same m (fst e) (fill n (fill n id))) (skipn (lbk (m_q E) (fill n (fill n id))) (m_q E))) else 0)
       = sm (fun a => if same (S m) a id && plt n a id then rg (at_ m a) else 0) A).
    { destruct (Nat.ltb_spec (S m) n) as [X|X].
      - replace (fill (S m) (fill n id)) with (fill (S m) id) by (apply fill_eq; [rewrite fill_len; auto|rewrite fill_same by lia; apply same_refl]).
        assert (Y : it_kid = sm (fun a => b2n (plt (S m) a id)) A + sm (fun a => b2n (same (S m) a id && plt n a id)) A).
        { unfold it_kid. rewrite <- sm_add. apply sm_ext. intros a Ha. destruct (plt (S m) a id) eqn:Z; [rewrite (plt_le n (S m) a id) by (auto; try lia; rewrite !HN; auto); rewrite (plt_same _ _ _ Z); auto|].
          destruct (same (S m) a id) eqn:Z'; [auto|]. destruct (plt n a id) eqn:Z''; [|auto]. apply (plt_pfx (S m) n) in Z''; [|lia|rewrite !HN; auto]. destruct Z''; congruence. }
        rewrite lb_in_eq; rewrite lb_A by auto; [|lia]. replace (it_kid - _) with (sm (fun a => b2n (same (S m) a id && plt n a id)) A) by lia. rewrite <- sm_mul. apply sm_ext. intros a Ha.
        destruct (same (S m) a id) eqn:Z; [|cbn; lia]. rewrite (same_at (S m) a id m) by (auto; lia). destruct (plt n a id); cbn; lia.
      - rewrite (proj2 (Nat.leb_gt n m)) by lia. cbn [andb]. assert (n = S m) by lia. rewrite sm_0; [auto|]. intros a Ha. destruct (same (S m) a id && plt n a id) eqn:Z; [|auto]. apply andb_true_iff in Z as (Z1 & Z2). rewrite H in Z2. apply plt_same in Z2. congruence. }
    rewrite Eq.
    (* r *)
    rewrite (proj2 (Nat.leb_gt n m)) by lia. rewrite (t_r E T), rn_ok by auto.
    (* w *)
    assert (Ew : (if 0 <? Nat.min m n then match nth_error (m_w E) (lbk (m_w E) (fill (Nat.min m n) (fill n id))) with Some (k, v) => if keyb k (fill (Nat.min m n) (fill n id)) then v else 0 | None => 0 end else 0)
       = sm (fun a => if plt m a id then rg (at_ m a) else 0) A).
    { destruct (Nat.ltb_spec 0 (Nat.min m n)) as [X|X].
      - destruct (t_w E T X) as (x & G & ->). rewrite (Nat.min_l m n) in * by lia. replace (fill m (fill n id)) with (fill m id) by (apply fill_eq; [rewrite fill_len; auto|rewrite fill_same by lia; apply same_refl]).
        destruct (w_ok m x id) as (W1 & W2); auto. rewrite lookup_sum by auto. exact W2.
      - assert (m = 0) by lia. rewrite sm_0; [auto|]. intros a _. rewrite H. reflexivity. }
    rewrite Ew, <- sm_mul, <- !sm_add. apply sm_ext. intros a Ha. unfold term. assert (HaN : length a = N) by auto.
    destruct (same n a id) eqn:X1.
    + assert (X2 : plt n a id = false) by (destruct (plt n a id) eqn:Y; [apply plt_same in Y; congruence|auto]).
      assert (X3 : plt m a id = false) by (destruct (plt m a id) eqn:Y; [apply (plt_le n) in Y; [congruence|lia|lia]|auto]).
      rewrite X2, X3, !andb_false_r. rewrite (same_at n a id m X1) by auto. rewrite Nat.ltb_irrefl, andb_false_r. cbn [andb]. rewrite Nat.min_l by lia. rewrite (proj2 (Nat.ltb_lt s (rg (at_ m id)))) by auto. cbn [andb b2n]. destruct (lexb a id); cbn; lia.
    + cbn [andb b2n]. rewrite !Nat.mul_0_r, !Nat.add_0_r. destruct (plt n a id) eqn:X2.
      * rewrite andb_true_r. destruct (plt m a id) eqn:X3.
        -- rewrite (plt_same _ _ _ X3). cbn [andb]. destruct (same (S m) a id) eqn:X4; [|lia]. apply (same_le (S m) m) in X4; [|lia]. apply plt_same in X3. congruence.
        -- destruct (plt_pfx (S m) n a id C (eq_trans HaN (eq_sym HidN)) X2) as [Y|Y].
           ++ rewrite (plt_same _ _ _ Y). rewrite plt_S in Y by lia. rewrite X3 in Y. cbn [orb] in Y. rewrite Y. lia.
           ++ rewrite Y. rewrite same_S in Y by lia. apply andb_true_iff in Y as (Y1 & Y2). rewrite Y1. apply Nat.eqb_eq in Y2. rewrite Y2, Nat.ltb_irrefl. cbn [andb]. lia.
      * rewrite andb_false_r. destruct (plt m a id) eqn:X3; [apply (plt_le n) in X3; [congruence|lia|lia]|]. destruct (same m a id && (at_ m a <? at_ m id)) eqn:X4; [|lia]. exfalso.
        assert (Y : plt (S m) a id = true) by (rewrite plt_S, X3, X4 by lia; auto). apply (plt_le n) in Y; [congruence|lia|lia].
  - (* n <= m *)
    rewrite (proj2 (Nat.eqb_neq n N)) by lia. rewrite (proj2 (Nat.ltb_ge (S m) n)) by lia. rewrite (proj2 (Nat.leb_le n m)) by auto. cbn [andb].
    assert (Hkid : lb_in A 0 (S it_id) (fill (S m) id) = sm (fun a => b2n (plt (S m) a id)) A).
    { assert (Hle : sm (fun a => b2n (plt (S m) a id)) A <= it_id).
      { rewrite Eit. apply sm_le. intros a Ha. destruct (plt (S m) a id) eqn:X; [|cbn; lia]. rewrite (plt_lex (S m) a id); [auto|rewrite !HN; auto|auto]. }
      rewrite lb_in_eq; rewrite lb_A by auto; [auto|lia]. }
    rewrite Hkid.
    assert (Ek : it_id - sm (fun a => b2n (plt (S m) a id)) A = sm (fun a => b2n (same (S m) a id && lexb a id)) A).
    { enough (it_id = sm (fun a => b2n (plt (S m) a id)) A + sm (fun a => b2n (same (S m) a id && lexb a id)) A) by lia. rewrite Eit. rewrite <- sm_add. apply sm_ext. intros a Ha.
      rewrite (lexb_split (S m) a id) by (rewrite !HN; auto). destruct (plt (S m) a id) eqn:X; [rewrite (plt_same _ _ _ X); auto|]. cbn [orb b2n]. destruct (same (S m) a id); auto. }
    rewrite Ek.
    assert (Hff : forall u, u <= S m -> fill u (fill (S m) id) = fill u id) by (intros u Hu; apply fill_eq; [rewrite fill_len; auto|rewrite same_sym, fill_same by lia; apply same_refl]).
    (* p *)
    assert (Ep : (if S n <=? m then sm (fun e => if s <? rg (at_ m (fst e)) then snd e else 0) (while_ (fun e => same m (fst e) (set m 0 (fill (S m) id))) (skipn (lbk (m_p E) (set m 0 (fill (S m) id))) (m_p E))) else 0)
       = sm (fun a => if same n a id && plt m a id && (s <? rg (at_ m a)) then 1 else 0) A).
    { destruct (Nat.leb_spec (S n) m) as [X|X].
      - assert (Y : set m 0 (fill (S m) id) = fill m id).
        { rewrite <- (proj_m id) by auto. rewrite (proj_shape m id) by auto. unfold proj. apply fill_eq; [rewrite set_len, fill_len; auto|]. apply same_eq. rewrite set_firstn, fill_firstn; auto. }
        rewrite Y. apply p_ok; auto. apply (t_p E T). lia.
      - assert (n = m) by lia. rewrite sm_0; [auto|]. intros a Ha. destruct (same n a id) eqn:Z; [|auto]. destruct (plt m a id) eqn:Z'; [|auto]. rewrite <- H in Z'. apply plt_same in Z'. congruence. }
    rewrite Ep.
    (* q *)
    assert (Eq : (if negb (s =? 0) then sm (fun e => Nat.min s (rg (at_ m (fst e))) * snd e) (while_ (fun e => same m (fst e) (fill n (fill (S m) id))) (skipn (lbk (m_q E) (fill n (fill (S m) id))) (m_q E))) else 0)
       = sm (fun a => if same n a id then Nat.min s (rg (at_ m a)) else 0) A).
    { rewrite Hff by lia. rewrite (t_q E T C). destruct (Nat.eqb_spec s 0) as [X|X]; cbn [negb]; [|apply q_ok; auto]. rewrite X, sm_0; [auto|]. intros a _. destruct (same n a id); auto. }
    rewrite Eq.
    (* r *)
    rewrite (t_r E T), (rn_ok id (S m) (fun v => if s <? rg v then 1 else 0)) by auto.
    (* w *)
    assert (Ew : (if 0 <? Nat.min m n then match nth_error (m_w E) (lbk (m_w E) (fill (Nat.min m n) (fill (S m) id))) with Some (k, v) => if keyb k (fill (Nat.min m n) (fill (S m) id)) then v else 0 | None => 0 end else 0)
       = sm (fun a => if plt n a id then rg (at_ m a) else 0) A).
    { destruct (Nat.ltb_spec 0 (Nat.min m n)) as [X|X].
      - destruct (t_w E T X) as (x & G & ->). rewrite (Nat.min_r m n) in * by lia. rewrite Hff by lia.
        destruct (w_ok n x id) as (W1 & W2); auto. rewrite lookup_sum by auto. exact W2.
      - assert (n = 0) by lia. rewrite sm_0; [auto|]. intros a _. rewrite H. reflexivity. }
    rewrite Ew, <- !sm_add. apply sm_ext. intros a Ha. unfold term. assert (HaN : length a = N) by auto.
    destruct (plt n a id) eqn:X1.
    + rewrite (plt_same _ _ _ X1). cbn [andb]. assert (Y : forall u, n <= u -> same u a id = false) by (intros u Hu; destruct (same u a id) eqn:Z; [|auto]; apply (same_le u n) in Z; [|auto]; apply plt_same in X1; congruence).
      rewrite !Y by lia. cbn. lia.
    + destruct (same n a id) eqn:X2.
      * cbn [andb]. destruct (plt m a id) eqn:X3.
        -- assert (Y : forall u, m <= u -> same u a id = false) by (intros u Hu; destruct (same u a id) eqn:Z; [|auto]; apply (same_le u m) in Z; [|auto]; apply plt_same in X3; congruence).
           rewrite !Y by lia. rewrite (plt_lex m a id) by (auto; lia). cbn [andb b2n]. rewrite andb_true_r. lia.
        -- cbn [andb]. rewrite (lexb_split (S m) a id) by lia. rewrite same_S, plt_S, X3 by lia. cbn [orb]. destruct (same m a id) eqn:X4; cbn [andb orb].
           ++ destruct (Nat.ltb_spec (at_ m a) (at_ m id)) as [Y|Y]; [rewrite (proj2 (Nat.eqb_neq _ _)) by lia; cbn [andb orb b2n]; rewrite andb_true_r; lia|].
              destruct (Nat.eqb_spec (at_ m a) (at_ m id)) as [Z|Z]; cbn [andb orb b2n]; [|rewrite andb_false_r; lia]. rewrite Z, (proj2 (Nat.ltb_lt s (rg (at_ m id)))) by auto. cbn [andb]. destruct (lexb (skipn (S m) a) (skipn (S m) id)); cbn; lia.
           ++ rewrite andb_false_r. cbn. lia.
      * assert (Y : forall u, n <= u -> same u a id = false) by (intros u Hu; destruct (same u a id) eqn:Z; [|auto]; apply (same_le u n) in Z; [congruence|auto]).
        rewrite !Y by lia. cbn. lia.
Qed.
End Tables.
