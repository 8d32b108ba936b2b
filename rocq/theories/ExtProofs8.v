(** begin(i) finds the element with i smaller elements. *)
From Verif Require Import Prelude ExtModel ExtSpec ExtProofs ExtProofs2 ExtProofs3 ExtProofs5 ExtProofs6 ExtProofs7.
Local Arguments Nat.ltb : simpl never.
Local Arguments Nat.eqb : simpl never.
Local Arguments Nat.leb : simpl never.
Local Arguments Nat.div : simpl never.
Local Arguments Nat.modulo : simpl never.
Local Arguments sm : simpl never.

Section Rev.
Variable N : nat.
Variable rg : nat -> nat.
Variables n m : nat.
Hypothesis Hm : m < N.
Hypothesis Hn : n <= N.
Variable A : list key.
Hypothesis HA : incr (fun x => x) A.
Hypothesis HN : forall a, In a A -> length a = N.
Notation r_ := (r_ m A).
Notation f_ := (fun a => rg (at_ m a)).

Lemma same_0 a b : same 0 a b = true.
Proof. apply same_eq. reflexivity. Qed.
Lemma plt_0 a b : plt 0 a b = false.
Proof. reflexivity. Qed.

Lemma w_stage E i : table_ok N rg n m A E -> i < m_size E ->
  exists a1, let l := Nat.min n m in let S1 := sm (fun b => if plt l b a1 then rg (at_ m b) else 0) A in
    In a1 A /\ S1 <= i < S1 + sm (fun b => if same l b a1 then rg (at_ m b) else 0) A /\
    (if 0 <? l then match fst (rfind i None (rev (m_w E))) with Some (k, v) => Some (copyr 0 l k (repeat 0 N), i - v) | None => None end else Some (repeat 0 N, i)) = Some (fill l a1, i - S1).
Proof.
  intros T Hi. rewrite (t_size _ _ _ _ _ _ T) in Hi. set (l := Nat.min n m). destruct (Nat.ltb_spec 0 l) as [C|C].
  - destruct (t_w _ _ _ _ _ _ T) as (x & G & EW); [lia|]. rewrite Nat.min_comm in G. fold l in G. assert (Hl : l <= m) by lia.
    destruct (choose N n m Hm Hn A HA HN l (m_w E) f_ i) as (e & F & a1 & Ha1 & Ek & Ev & Hi'); [lia| | | |exact Hi|].
    + rewrite EW. exact (proj1 (fold_add (fun e => set m 0 (fst e)) (fun e => rg (at_ m (fst e)) * snd e) x [] I)).
    + intros e He. rewrite EW in He. exact (w_entry N rg n m Hm Hn A HA HN l x e Hl G He).
    + intros a Ha. rewrite EW. exact (w_cover N rg n m Hm Hn A HA HN l x a Hl G Ha).
    + exists a1. cbv zeta. split; [auto|]. rewrite <- Ev. split; [auto|]. rewrite F. destruct e as [k v]. cbn [fst snd] in *. subst k. rewrite (proj2 (Nat.ltb_lt 0 l)) by auto. f_equal. f_equal.
      assert (HaN : length a1 = N) by auto. rewrite <- HaN, <- (fill_0 a1). rewrite (copyr_fill N 0 l (fill l a1) a1); [|rewrite fill_len; auto|auto|lia|apply same_0].
      apply fill_eq; [apply fill_len|]. rewrite same_sym, fill_same by auto. apply same_refl.
  - assert (l = 0) as -> by lia. destruct A as [|a1 A'] eqn:EA; [cbn in Hi; unfold sm in Hi; cbn in Hi; lia|]. exists a1. cbv zeta. rewrite <- EA in *.
    assert (Hz : sm (fun b => if plt 0 b a1 then rg (at_ m b) else 0) A = 0) by (apply sm_0; intros; rewrite plt_0; auto).
    rewrite Hz. split; [rewrite EA; left; auto|]. split; [split; [lia|]; cbn [Nat.add]; erewrite sm_ext; [exact Hi|]; intros; cbv beta; rewrite same_0; auto|].
    rewrite fill_0, Nat.sub_0_r. rewrite (HN a1) by (rewrite EA; left; auto). auto.
Qed.

Lemma sm_same_plt t a b (h : key -> nat) : same t a b = true -> sm (fun x => if plt t x a then h x else 0) A = sm (fun x => if plt t x b then h x else 0) A.
Proof. intros E. apply sm_ext. intros x _. rewrite (same_plt_r t a b) by auto. auto. Qed.
Lemma sm_same_same t a b (h : key -> nat) : same t a b = true -> sm (fun x => if same t x a then h x else 0) A = sm (fun x => if same t x b then h x else 0) A.
Proof. intros E. apply sm_ext. intros x _. rewrite (same_same_r t a b) by auto. auto. Qed.

Lemma cnt_split t u id : t <= u -> u <= N -> In id A ->
  sm (fun a => b2n (same t a id && lexb a id)) A = sm (fun a => b2n (same t a id && plt u a id)) A + sm (fun a => b2n (same u a id && lexb a id)) A.
Proof.
  intros Htu Hu Hid. rewrite <- sm_add. apply sm_ext. intros a Ha. assert (L : length a = length id) by (rewrite !HN; auto).
  destruct (same u a id) eqn:X.
  - rewrite (same_le u t a id) by auto. cbn [andb]. destruct (plt u a id) eqn:Y; [apply plt_same in Y; congruence|]. cbn. lia.
  - cbn [andb b2n]. rewrite Nat.add_0_r. f_equal. f_equal. rewrite (lexb_split u a id) by auto. rewrite X. cbn [andb]. rewrite orb_false_r. auto.
Qed.

Lemma reverse_gt E i : m < n -> table_ok N rg n m A E -> i < m_size E ->
  exists a s, reverse N rg n m E i = Some (firstn n a ++ s :: skipn n a) /\ In a A /\ s < rg (at_ m a) /\ sm (term rg n m a s) A = i.
Proof.
  intros C T Hi. destruct (w_stage E i T Hi) as (a1 & Ha1 & HS1 & Ew). rewrite (Nat.min_r n m) in HS1, Ew by lia.
  set (S1 := sm (fun b => if plt m b a1 then rg (at_ m b) else 0) A) in *.
  unfold reverse. rewrite (t_ord _ _ _ _ _ _ T), (t_r _ _ _ _ _ _ T). rewrite (proj2 (Nat.ltb_lt _ _) Hi). cbn [negb]. rewrite (Nat.min_r n m) by lia. rewrite Ew. cbn [obind].
  rewrite (proj2 (Nat.ltb_lt m n)) by auto.
  destruct (r_stage N n m Hm Hn A HA HN rg a1 (i - S1) Ha1) as (a2 & Ha2 & E12 & Er & HS0); [lia|]. rewrite Er. cbv beta iota.
  set (S0 := sm (fun a => if same m a a2 && (at_ m a <? at_ m a2) then rg (at_ m a) else 0) A) in *. set (i2 := i - S1 - S0) in *. set (g := rg (at_ m a2)) in *.
  set (c2 := sm (fun a => b2n (same (S m) a a2)) A) in *.
  assert (Hi2 : i2 < g * c2) by lia. assert (Hg : 0 < g) by (destruct g; [cbn in Hi2; lia|lia]).
  rewrite (lb_A N A HA HN) by auto. set (t2 := sm (fun a => b2n (plt (S m) a a2)) A).
  assert (Hc2 : 0 < c2) by (apply (pos_pos N n m Hm Hn); auto).
  destruct (group_nth N n m Hm Hn A HA HN (S m) a2 0 Ha2 Hc2) as (a & Ea & Ha & Eaa & _). fold t2 in Ea. rewrite Nat.add_0_r in Ea. rewrite Ea. cbn [obind].
  assert (Ega : rg (at_ m a) = g) by (unfold g; f_equal; apply (same_at (S m)); auto). rewrite Ega.
  assert (Hlb2 : lb A (set m (S (at_ m (fill (S m) a2))) (fill (S m) a2)) = t2 + c2) by (rewrite at_fill by lia; apply (lb_succ N); auto; lia).
  assert (Hlen : forall x, lb A x <= length A) by (intros x; clear; induction A as [|y l IH]; cbn; [lia|]; destruct (lexb y x); lia).
  rewrite lb_in_eq by (rewrite Hlb2; split; [lia|]; rewrite <- Hlb2; apply Hlen). rewrite Hlb2.
  assert (ST : exists a3, In a3 A /\ same (S m) a3 a2 = true /\ let t3 := sm (fun a => b2n (plt n a a3)) A in let c3 := sm (fun a => b2n (same n a a3)) A in let d := sm (fun a => b2n (same (S m) a a3 && plt n a a3)) A in
    g * d <= i2 < g * d + g * c3 /\
    (if S m <? n then if g =? 0 then None else
       do v <- nth_error A (t2 + i2 / g);
       Some (lb_in A t2 (t2 + i2 / g) (fill n v), lb_in A (S (lb_in A t2 (t2 + i2 / g) (fill n v))) (t2 + c2) (set (n - 1) (S (at_ (n - 1) (copyr (S m) n v (fill (S m) a2)))) (copyr (S m) n v (fill (S m) a2))),
             copyr (S m) n v (fill (S m) a2), i2 - g * (lb_in A t2 (t2 + i2 / g) (fill n v) - t2))
     else Some (t2, t2 + c2, fill (S m) a2, i2)) = Some (t3, t3 + c3, fill n a3, i2 - g * d)).
  { destruct (Nat.ltb_spec (S m) n) as [D|D].
    - rewrite (proj2 (Nat.eqb_neq g 0)) by lia. assert (Hk : i2 / g < c2) by (apply Nat.div_lt_upper_bound; lia).
      destruct (group_nth N n m Hm Hn A HA HN (S m) a2 (i2 / g) Ha2 Hk) as (a3 & E3 & Ha3 & E32 & Ek). fold t2 in E3. rewrite E3. cbn [obind]. exists a3. split; [auto|]. split; [auto|]. cbv zeta.
      assert (H3N : length a3 = N) by auto. assert (H2N : length a2 = N) by auto.
      rewrite (copyr_fill N (S m) n a3 a2) by (auto; lia).
      set (t3 := sm (fun a0 => b2n (plt n a0 a3)) A). set (c3 := sm (fun a0 => b2n (same n a0 a3)) A). set (d := sm (fun a0 => b2n (same (S m) a0 a3 && plt n a0 a3)) A).
      assert (Et2 : t2 = sm (fun a0 => b2n (plt (S m) a0 a3)) A) by (apply sm_ext; intros x _; rewrite (same_plt_r (S m) a3 a2) by auto; auto).
      assert (Ec2 : c2 = sm (fun a0 => b2n (same (S m) a0 a3)) A) by (apply sm_ext; intros x _; rewrite (same_same_r (S m) a3 a2) by auto; auto).
      assert (Et3 : t3 = t2 + d).
      { rewrite Et2. unfold t3, d. rewrite <- sm_add. apply sm_ext. intros x Hx. assert (HxN : length x = length a3) by (rewrite !HN; auto).
        destruct (plt (S m) x a3) eqn:X.
        - rewrite (plt_same _ _ _ X), (plt_le n (S m) x a3) by (auto; lia). auto.
        - destruct (plt n x a3) eqn:Y; [|rewrite andb_false_r; auto]. destruct (plt_pfx (S m) n x a3 (Nat.lt_le_incl _ _ D) HxN Y) as [Z|Z]; [congruence|]. rewrite Z. auto. }
      assert (Hd : i2 / g = d + sm (fun a0 => b2n (same n a0 a3 && lexb a0 a3)) A) by (rewrite <- Ek; apply cnt_split; auto; lia).
      pose proof (same_pos N n m Hm Hn A n a3 Ha3) as Hc3. fold c3 in Hc3.
      assert (Elb : lb_in A t2 (t2 + i2 / g) (fill n a3) = t3) by (rewrite lb_in_eq; rewrite (lb_A N A HA HN) by auto; fold t3; [auto|lia]). rewrite Elb.
      assert (Elb2 : lb A (set (n - 1) (S (at_ (n - 1) (fill n a3))) (fill n a3)) = t3 + c3).
      { rewrite at_fill by lia. replace (fill n a3) with (fill (S (n - 1)) a3) by (f_equal; lia). rewrite (lb_succ N A HA HN) by (auto; lia). replace (S (n - 1)) with n by lia. auto. }
      assert (Hcc : t3 + c3 <= t2 + c2).
      { rewrite Et2, Ec2. unfold t3, c3. rewrite <- !sm_add. apply sm_le. intros x Hx. assert (HxN : length x = length a3) by (rewrite !HN; auto).
        destruct (same n x a3) eqn:X.
        - rewrite (same_le n (S m) x a3) by (auto; lia). destruct (plt n x a3) eqn:Y; [apply plt_same in Y; congruence|]. cbn. lia.
        - destruct (plt n x a3) eqn:Y; [|cbn; lia]. destruct (plt_pfx (S m) n x a3 (Nat.lt_le_incl _ _ D) HxN Y) as [Z|Z]; rewrite Z; cbn; lia. }
      rewrite lb_in_eq by (rewrite Elb2; lia). rewrite Elb2. split.
      + pose proof (Nat.div_mod i2 g). pose proof (Nat.mod_upper_bound i2 g). assert (i2 < g * (d + c3)); [|lia]. assert (g * S (i2 / g) <= g * (d + c3)) by (apply Nat.mul_le_mono_l; lia). lia.
      + replace (t3 - t2) with d by lia. auto.
    - assert (n = S m) as -> by lia. exists a2. split; [auto|]. split; [apply same_refl|]. cbv zeta.
      assert (Hd : sm (fun a0 => b2n (same (S m) a0 a2 && plt (S m) a0 a2)) A = 0).
      { apply sm_0. intros x _. destruct (plt (S m) x a2) eqn:X; [apply plt_same in X; rewrite X|rewrite andb_false_r]; auto. }
      rewrite Hd. rewrite Nat.mul_0_r. fold t2 c2. split; [lia|]. rewrite Nat.sub_0_r. auto. }
  destruct ST as (a3 & Ha3 & E32 & Hd & ST). cbv zeta in ST. rewrite ST. clear ST. cbv zeta in Hd. cbn [obind].
  set (t3 := sm (fun a0 => b2n (plt n a0 a3)) A) in *. set (c3 := sm (fun a0 => b2n (same n a0 a3)) A) in *. set (d := sm (fun a0 => b2n (same (S m) a0 a3 && plt n a0 a3)) A) in *. set (i3 := i2 - g * d) in *.
  replace (t3 + c3 - t3) with c3 by lia. assert (Hc3 : 0 < c3) by (apply (pos_pos N n m Hm Hn); auto). rewrite (proj2 (Nat.eqb_neq c3 0)) by lia.
  destruct (group_nth N n m Hm Hn A HA HN n a3 (i3 mod c3) Ha3) as (a4 & E4 & Ha4 & E43 & Ek); [apply Nat.mod_upper_bound; lia|]. fold t3 in E4. rewrite E4. cbn [obind].
  assert (H3N : length a3 = N) by auto. assert (H4N : length a4 = N) by auto. rewrite (copyr_fill N n N a4 a3) by (auto; lia). rewrite <- H4N, fill_all.
  exists a4, (i3 / c3). split; [auto|]. split; [auto|].
  assert (E42 : same (S m) a4 a2 = true) by (rewrite (same_same_l (S m) a4 a3); [auto|apply (same_le n); [lia|auto]]).
  assert (Eg4 : rg (at_ m a4) = g) by (unfold g; f_equal; apply (same_at (S m)); auto).
  assert (Hs : i3 / c3 < rg (at_ m a4)) by (rewrite Eg4; apply Nat.div_lt_upper_bound; lia). split; [auto|].
  assert (E42' : same m a4 a2 = true) by (apply (same_le (S m)); auto). assert (E41 : same m a4 a1 = true) by (rewrite (same_same_l m a4 a2) by auto; auto).
  rewrite (rank_gt N rg n m Hm Hn A HN a4 _ C Ha4 Hs). rewrite Ek. rewrite (sm_same_plt m a4 a1) by auto. fold S1.
  assert (Q0 : sm (fun a0 => if same m a0 a4 && (at_ m a0 <? at_ m a4) then rg (at_ m a0) else 0) A = S0).
  { apply sm_ext. intros x _. rewrite (same_same_r m a4 a2), (same_at (S m) a4 a2 m) by auto. auto. }
  assert (Q1 : sm (fun a0 => if same (S m) a0 a4 && plt n a0 a4 then rg (at_ m a0) else 0) A = g * d).
  { unfold d. rewrite <- sm_mul. apply sm_ext. intros x _. rewrite (same_plt_r n a4 a3) by auto. rewrite (same_same_r (S m) a4 a3) by (apply (same_le n); [lia|auto]).
    destruct (same (S m) x a3) eqn:X; [|cbn; lia]. cbn [andb]. destruct (plt n x a3); [|cbn; lia]. cbn [b2n]. rewrite Nat.mul_1_r. unfold g. f_equal. apply (same_at (S m)); [|lia]. rewrite (same_same_l (S m) x a3) by auto. auto. }
  assert (Q2 : sm (fun a0 => b2n (same n a0 a4)) A = c3) by (apply sm_ext; intros x _; rewrite (same_same_r n a4 a3) by auto; auto).
  rewrite Q0, Q1, Q2. pose proof (Nat.div_mod i3 c3). lia.
Qed.

Lemma reverse_le E i : n <= m -> table_ok N rg n m A E -> i < m_size E ->
  exists a s, reverse N rg n m E i = Some (firstn n a ++ s :: skipn n a) /\ In a A /\ s < rg (at_ m a) /\ sm (term rg n m a s) A = i.
Proof.
  intros C T Hi. destruct (w_stage E i T Hi) as (a1 & Ha1 & HS1 & Ew). rewrite (Nat.min_l n m) in HS1, Ew by lia.
  set (S1 := sm (fun b => if plt n b a1 then rg (at_ m b) else 0) A) in *.
  unfold reverse. rewrite (t_ord _ _ _ _ _ _ T), (t_r _ _ _ _ _ _ T). rewrite (proj2 (Nat.ltb_lt _ _) Hi). cbn [negb]. rewrite (Nat.min_l n m) by lia. rewrite Ew. cbn [obind].
  rewrite (proj2 (Nat.ltb_ge m n)) by auto. rewrite (t_qr _ _ _ _ _ _ T C).
  destruct (q_stage N rg n m Hm Hn A HA HN a1 C Ha1) as (Q1 & Q2). rewrite Q1. cbn [obind].
  set (q := filter (fun e => same n (fst e) a1) (ww m r_ n)) in *. set (i1 := i - S1).
  assert (HN1 : length a1 = N) by auto.
  destruct (beta_ok rg m q i1) as (v' & s' & v & s & w & B1 & B2 & Hv & Hw & Bw & Hs & Bb); [rewrite (Q2 rg); lia|].
  destruct (rfind i1 None (rev (beta_sz rg m q))) as [qq nq]. cbn [fst snd] in B1, B2. subst nq. cbn [obind]. rewrite B2. cbv beta iota.
  rewrite (proj2 (Nat.eqb_neq (v' - v) 0)) by lia. rewrite Bw, Nat.div_mul by lia. rewrite (proj2 (Nat.eqb_neq w 0)) by lia.
  set (k := (i1 - s) / w). assert (Hk : k < v' - v) by (apply Nat.div_lt_upper_bound; lia).
  set (beta := v + k). set (i2 := (i1 - s) mod w). assert (Hi2 : i2 < w) by (apply Nat.mod_upper_bound; lia).
  destruct (Bb beta) as (Bm & Bl); [unfold beta; lia|].
  assert (Em : sm (fun a => if same n a a1 then Nat.min beta (rg (at_ m a)) else 0) A = s + k * w).
  { rewrite <- (Q2 (fun x => Nat.min beta (rg x))). replace k with (beta - v) by (unfold beta; lia). rewrite <- Bm. apply sm_ext. intros x _. rewrite Nat.min_comm. auto. }
  assert (El : w = sm (fun a => if same n a a1 then (if beta <? rg (at_ m a) then 1 else 0) else 0) A) by (rewrite <- Bl; exact (Q2 (fun x => if beta <? rg x then 1 else 0))).
  assert (ST : exists a3, In a3 A /\ same n a3 a1 = true /\ let pn := sm (fun a => if same n a a3 && plt m a a3 && (beta <? rg (at_ m a)) then 1 else 0) A in
     pn <= i2 < pn + sm (fun a => if same m a a3 then (if beta <? rg (at_ m a) then 1 else 0) else 0) A /\
     (if S n <=? m then
            match skipn (lbk (m_p E) (fill n a1)) (m_p E) with
            | [] => None
            | (k, c) :: r => let (pid, pn) := ploop rg n m beta r k k (if beta <? rg (at_ m k) then c else 0) 0 i2 in Some (copyr n m pid (fill n a1), i2 - pn)
            end
          else Some (fill n a1, i2)) = Some (fill m a3, i2 - pn)).
  { destruct (Nat.leb_spec (S n) m) as [D|D].
    - destruct (p_stage N rg n m Hm Hn A HA HN (m_p E) a1 beta i2 D (t_p _ _ _ _ _ _ T D) Ha1) as (k0 & c & r & Es & a3 & pid & pn & Ep & Ha3 & HpN & Ep3 & E31 & Hpn & Hi3); [lia|].
      exists a3. split; [auto|]. split; [auto|]. cbv zeta. rewrite <- Hpn. split; [auto|]. rewrite Es, Ep. do 2 f_equal.
      assert (Ep1 : same n pid a1 = true) by (rewrite (same_same_l n pid a3); [auto|apply (same_le m); [lia|auto]]).
      rewrite (copyr_fill N n m pid a1) by (auto; lia). apply fill_eq; [rewrite HpN; symmetry; auto|auto].
    - assert (Enm : n = m) by lia. exists a1. split; [auto|]. split; [apply same_refl|]. cbv zeta.
      assert (Hz : sm (fun a => if same n a a1 && plt m a a1 && (beta <? rg (at_ m a)) then 1 else 0) A = 0).
      { apply sm_0. intros x _. rewrite Enm. destruct (plt m x a1) eqn:X; [apply plt_same in X; rewrite X|rewrite andb_false_r]; auto. }
      rewrite Hz. split; [|rewrite Nat.sub_0_r, Enm; auto].
      assert (X : sm (fun a => if same m a a1 then (if beta <? rg (at_ m a) then 1 else 0) else 0) A = w) by (rewrite El; apply sm_ext; intros x _; rewrite Enm; auto). lia. }
  destruct ST as (a3 & Ha3 & E31 & Hpn & ST). cbv zeta in ST, Hpn. rewrite ST. clear ST. cbn [obind].
  set (pn := sm (fun a => if same n a a3 && plt m a a3 && (beta <? rg (at_ m a)) then 1 else 0) A) in *.
  destruct (r_stage N n m Hm Hn A HA HN (fun x => if beta <? rg x then 1 else 0) a3 (i2 - pn) Ha3) as (a4 & Ha4 & E43 & Er & HS0); [lia|]. rewrite Er. cbv beta iota. cbv zeta in HS0.
  set (S0 := sm (fun a => if same m a a4 && (at_ m a <? at_ m a4) then (if beta <? rg (at_ m a) then 1 else 0) else 0) A) in *. set (i4 := i2 - pn - S0) in *.
  assert (Hb4 : beta < rg (at_ m a4)) by (destruct (Nat.ltb_spec beta (rg (at_ m a4))); [auto|lia]). rewrite (proj2 (Nat.ltb_lt _ _) Hb4) in HS0.
  destruct (group_nth N n m Hm Hn A HA HN (S m) a4 i4 Ha4) as (a5 & E5 & Ha5 & E54 & Ek); [unfold i4; lia|].
  assert (HN4 : length a4 = N) by auto. assert (HN5 : length a5 = N) by auto.
  assert (FIN : (if S m <? N then do v0 <- nth_error A (lb A (fill (S m) a4) + i4); Some (copyr (S m) N v0 (fill (S m) a4), beta) else Some (fill (S m) a4, beta)) = Some (a5, beta)).
  { destruct (Nat.ltb_spec (S m) N) as [D|D].
    - rewrite (lb_A N A HA HN) by auto. rewrite E5. cbn [obind]. rewrite (copyr_fill N (S m) N a5 a4) by (auto; lia). rewrite <- HN5 at 1. rewrite fill_all. auto.
    - assert (S m = N) by lia. do 2 f_equal. rewrite (fill_eq (S m) a4 a5); [|lia|rewrite same_sym; auto]. replace (S m) with (length a5) by lia. apply fill_all. }
  rewrite FIN. cbn [obind]. exists a5, beta. split; [auto|]. split; [auto|].
  assert (Eg5 : at_ m a5 = at_ m a4) by (apply (same_at (S m)); auto). assert (Hb5 : beta < rg (at_ m a5)) by (rewrite Eg5; auto). split; [auto|].
  assert (E54' : same m a5 a4 = true) by (apply (same_le (S m)); auto).
  assert (E53 : same m a5 a3 = true) by (rewrite (same_same_l m a5 a4) by auto; auto).
  assert (E51 : same n a5 a1 = true) by (rewrite (same_same_l n a5 a3) by (apply (same_le m); auto); auto).
  assert (E53n : same n a5 a3 = true) by (apply (same_le m); auto).
  rewrite (rank_le N rg n m Hm Hn A HN a5 beta C Ha5 Hb5). rewrite Ek. rewrite (sm_same_plt n a5 a1) by auto. fold S1. rewrite (sm_same_same n a5 a1) by auto. rewrite Em.
  assert (Q0 : sm (fun a => if same m a a5 && (at_ m a <? at_ m a5) then (if beta <? rg (at_ m a) then 1 else 0) else 0) A = S0).
  { apply sm_ext. intros x _. rewrite (same_same_r m a5 a4), Eg5 by auto. auto. }
  assert (Q3 : sm (fun a => if same n a a5 && plt m a a5 && (beta <? rg (at_ m a)) then 1 else 0) A = pn).
  { apply sm_ext. intros x _. rewrite (same_same_r n a5 a3), (same_plt_r m a5 a3) by auto. auto. }
  rewrite Q0, Q3. pose proof (Nat.div_mod (i1 - s) w). fold k i2 in H. unfold i4, i1 in *. lia.
Qed.
End Rev.
