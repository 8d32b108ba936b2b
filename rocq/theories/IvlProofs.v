(** Lists of intervals: coverage, order, and replacing a run of entries by one. *)
From Verif Require Import Prelude IvlModel IvlSpec.
Open Scope Z_scope.

Section Lists.
Context {V : Type}.
Notation entry := (entry V).
Implicit Types (l A B C M : list entry) (x y : entry).

Fixpoint cov (f r : bool) l (k : Z) (w : V) : Prop :=
  match l with
  | [] => False
  | x :: t => (second x = w /\ (f = true \/ m_start x <= k) /\ (k < m_end x \/ (r = true /\ t = []))) \/ cov false r t k w
  end.
Fixpoint sorted l : Prop :=
  match l with [] => True | x :: t => m_start x <= m_end x /\ Forall (fun y => m_end x <= m_start y) t /\ sorted t end.
Fixpoint full (f r : bool) l : Prop :=
  match l with [] => True | x :: t => (m_start x < m_end x \/ f = true \/ (r = true /\ t = [])) /\ full false r t end.
Definition is_nil l : bool := match l with [] => true | _ => false end.
Definition wf (f r : bool) l : Prop := sorted l /\ full f r l /\ (f = true \/ r = true -> l <> []).

Lemma is_nil_app A B : is_nil (A ++ B) = is_nil A && is_nil B.
Proof. destruct A; reflexivity. Qed.
Lemma is_nil_true l : is_nil l = true <-> l = [].
Proof. destruct l; cbn; split; congruence. Qed.

Lemma sorted_app A B : sorted (A ++ B) <-> sorted A /\ sorted B /\ (forall a b, In a A -> In b B -> m_end a <= m_start b).
Proof.
  induction A as [|x A IH]; cbn [app sorted].
  - split; [intros H; repeat split; auto; intros a b []|tauto].
  - rewrite IH, !Forall_forall. split.
    + intros (H1 & H2 & H3 & H4 & H5). repeat split; auto.
      * intros y Hy; apply H2, in_or_app; auto.
      * intros a b [<-|Ha] Hb; [apply H2, in_or_app; auto|auto].
    + intros ((H1 & H2 & H3) & H4 & H5). repeat split; auto.
      * intros y Hy. apply in_app_or in Hy as [Hy|Hy]; [auto|apply H5; cbn; auto].
      * intros a b Ha Hb; apply H5; cbn; auto.
Qed.
Lemma sorted_in l x : sorted l -> In x l -> m_start x <= m_end x.
Proof. induction l as [|y l IH]; cbn; [tauto|]. intros (H1 & H2 & H3) [<-|H]; auto. Qed.

Lemma full_app f r A B : full f r (A ++ B) <-> full f (r && is_nil B) A /\ full (f && is_nil A) r B.
Proof.
  revert f. induction A as [|x A IH]; intros f; cbn [app full is_nil].
  - rewrite andb_true_r. tauto.
  - rewrite IH, andb_false_r. rewrite !andb_true_iff, is_nil_true. cbn [andb].
    assert (E : (r = true /\ A ++ B = []) <-> ((r = true /\ B = []) /\ A = [])).
    { split; [intros (? & H); apply app_eq_nil in H; tauto|intros ((? & ->) & ->); auto]. }
    rewrite E. tauto.
Qed.
Lemma cov_app f r A B k w : cov f r (A ++ B) k w <-> cov f (r && is_nil B) A k w \/ cov (f && is_nil A) r B k w.
Proof.
  revert f. induction A as [|x A IH]; intros f; cbn [app cov is_nil].
  - rewrite andb_true_r. tauto.
  - rewrite IH, andb_false_r. rewrite !andb_true_iff, is_nil_true. cbn [andb].
    assert (E : (r = true /\ A ++ B = []) <-> ((r = true /\ B = []) /\ A = [])).
    { split; [intros (? & H); apply app_eq_nil in H; tauto|intros ((? & ->) & ->); auto]. }
    rewrite E. tauto.
Qed.
Lemma cov_in f r l k w : cov f r l k w -> exists x, In x l /\ second x = w /\ (f = true \/ m_start x <= k) /\ (r = true \/ k < m_end x).
Proof.
  revert f. induction l as [|x l IH]; intros f; cbn; [tauto|].
  intros [(H1 & H2 & H3)|H].
  - exists x. repeat split; auto. destruct H3 as [H3|[H3 _]]; auto.
  - destruct (IH _ H) as (y & Hy & H1 & [H2|H2] & H3); [discriminate|]. exists y; auto.
Qed.
Lemma cov_mono_f f r l k w : cov false r l k w -> cov f r l k w.
Proof. destruct l; cbn; [tauto|]. intros [(H1 & [H2|H2] & H3)|H]; [discriminate| |]; auto. Qed.
(** A list whose flags are both off covers what its elements cover *)
Lemma in_cov f r l x k : In x l -> m_start x <= k < m_end x -> cov f r l k (second x).
Proof.
  revert f. induction l as [|y l IH]; intros f; cbn; [tauto|]. intros [->|H] Hk.
  - left. split; [reflexivity|]. split; [right|left]; lia.
  - right. apply IH; auto.
Qed.

Definition hd_st M s := match M with [] => s | x :: _ => Z.min (m_start x) s end.
Definition last_en M e := match rev M with [] => e | x :: _ => Z.max (m_end x) e end.

Lemma last_cases M : M = [] \/ exists M' y, M = M' ++ [y].
Proof. destruct M as [|x M _] using rev_ind; [auto|right; eauto]. Qed.
Lemma last_en_app M y e : last_en (M ++ [y]) e = Z.max (m_end y) e.
Proof. unfold last_en. rewrite rev_app_distr. reflexivity. Qed.

Section Splice.
Variables (f r nf nr : bool) (A M C : list entry) (s e : Z) (v : V).
Hypothesis Hwf : wf f r (A ++ M ++ C).
Hypothesis Hse : s < e \/ (s = e /\ (nf = true \/ nr = true)).
Hypothesis HA : forall a, In a A -> m_end a <= s.
Hypothesis HC : forall c, In c C -> e <= m_start c.
Hypothesis HnA : nf = true -> A = [].
Hypothesis HnC : nr = true -> C = [].
Hypothesis HM : forall x, In x M -> second x = v.
Hypothesis Hfirst : forall x t, M = x :: t -> s <= m_end x.
Hypothesis Hlast : forall x t, M = t ++ [x] -> m_start x <= e.
Hypothesis Hf : f = true -> A ++ M <> [].
Hypothesis Hr : r = true -> M ++ C <> [].
Let inI (k : Z) : Prop := (nf = true \/ s <= k) /\ (nr = true \/ k < e).
Let new := Entry (hd_st M s) (last_en M e) v.

Lemma fA : f && is_nil A = f && is_nil A && negb (is_nil M).
Proof.
  clear -Hf. destruct f; [|reflexivity]. destruct A; [|reflexivity]. destruct M; [|reflexivity]. exfalso. exact (Hf eq_refl eq_refl).
Qed.
Lemma rC : r && is_nil C = r && is_nil C && negb (is_nil M).
Proof.
  clear -Hr. destruct r; [|reflexivity]. destruct C; [|reflexivity]. destruct M; [|reflexivity]. exfalso. exact (Hr eq_refl eq_refl).
Qed.

Lemma old_cov k w : cov f r (A ++ M ++ C) k w <-> cov f false A k w \/ cov (f && is_nil A) (r && is_nil C) M k w \/ cov false r C k w.
Proof.
  rewrite !cov_app, !is_nil_app.
  replace (r && (is_nil M && is_nil C)) with false.
  2:{ destruct r; [|reflexivity]. destruct M; [|reflexivity]. destruct C; [|reflexivity]. exfalso. exact (Hr eq_refl eq_refl). }
  replace (f && is_nil A && is_nil M) with false; [tauto|].
  rewrite fA. destruct f, (is_nil A), (is_nil M); reflexivity.
Qed.
Lemma new_cov k w : cov (f || nf) (r || nr) (A ++ new :: C) k w <->
  cov f false A k w \/ (w = v /\ ((f || nf) && is_nil A = true \/ hd_st M s <= k) /\ (k < last_en M e \/ (r || nr) && is_nil C = true)) \/ cov false r C k w.
Proof.
  change (A ++ new :: C) with (A ++ [new] ++ C). rewrite !cov_app. cbn [is_nil app cov]. rewrite !andb_false_r. cbn [m_start m_end second].
  assert (E1 : cov (f || nf) false A k w <-> cov f false A k w).
  { destruct nf eqn:E; [rewrite (HnA eq_refl); cbn; tauto|rewrite orb_false_r; tauto]. }
  assert (E2 : cov false (r || nr) C k w <-> cov false r C k w).
  { destruct nr eqn:E; [rewrite (HnC eq_refl); cbn; tauto|rewrite orb_false_r; tauto]. }
  rewrite E1, E2. unfold new; cbn [m_start m_end second].
  assert (E3 : ((r || nr) && is_nil C = true /\ @nil entry = []) <-> (r || nr) && is_nil C = true) by tauto.
  rewrite E3. assert (E4 : v = w <-> w = v) by (split; congruence). rewrite E4. tauto.
Qed.

Lemma A_out k w : cov f false A k w -> ~ inI k.
Proof.
  intros H (H1 & H2). assert (nf <> true) by (intros E; rewrite (HnA E) in H; exact H).
  destruct (cov_in _ _ _ _ _ H) as (x & Hx & _ & _ & [?|H3]); [discriminate|]. specialize (HA x Hx). destruct H1; [tauto|lia].
Qed.
Lemma C_out k w : cov false r C k w -> ~ inI k.
Proof.
  intros H (H1 & H2). assert (nr <> true) by (intros E; rewrite (HnC E) in H; exact H).
  destruct (cov_in _ _ _ _ _ H) as (x & Hx & _ & [?|H3] & _); [discriminate|]. specialize (HC x Hx). destruct H2; [tauto|lia].
Qed.
Lemma sorted_M : sorted M.
Proof. destruct Hwf as (H & _). rewrite !sorted_app in H. tauto. Qed.

Lemma hd_in x : In x M -> hd_st M s <= m_start x.
Proof.
  pose proof sorted_M as Hs. clear - Hs. unfold hd_st. destruct M as [|y t]; [intros []|]. cbn in Hs. destruct Hs as (H1 & H2 & H3).
  rewrite Forall_forall in H2. intros [<-|H]; [lia|]. specialize (H2 _ H). lia.
Qed.
Lemma last_in x : In x M -> m_end x <= last_en M e.
Proof.
  pose proof sorted_M as Hs. clear - Hs. destruct (last_cases M) as [E|(t & y & E)]; rewrite E in *; [intros []|].
  rewrite last_en_app. rewrite sorted_app in Hs. destruct Hs as (_ & Hy & H3). cbn in Hy. intros H. apply in_app_or in H as [H|[<-|[]]]; [|lia].
  specialize (H3 x y H (or_introl eq_refl)). lia.
Qed.
Lemma hd_s : hd_st M s <= s.
Proof. unfold hd_st. destruct M; lia. Qed.
Lemma last_e : e <= last_en M e.
Proof. unfold last_en. destruct (rev M); lia. Qed.

Lemma M_first f1 r1 k : M <> [] -> (f1 = true \/ hd_st M s <= k) -> k < s -> cov f1 r1 M k v.
Proof.
  intros Hne H1 H2. destruct M as [|x t] eqn:E; [congruence|]. cbn [cov]. left.
  specialize (Hfirst x t eq_refl). unfold hd_st in H1. split; [apply HM; cbn; auto|]. split; [destruct H1; [auto|right; lia]|left; lia].
Qed.
Lemma M_last f1 r1 k : M <> [] -> (r1 = true \/ k < last_en M e) -> e <= k -> cov f1 r1 M k v.
Proof.
  intros Hne H1 H2. destruct (last_cases M) as [E|(t & y & E)]; [congruence|]. rewrite E in *. specialize (Hlast y t eq_refl).
  rewrite last_en_app in H1. apply cov_app. right. cbn. left. split; [apply HM, in_or_app; cbn; auto|].
  split; [right; lia|]. destruct H1; [auto|left; lia].
Qed.

Lemma new_iff k :
  (((f || nf) && is_nil A = true \/ hd_st M s <= k) /\ (k < last_en M e \/ (r || nr) && is_nil C = true)) <->
  inI k \/ cov (f && is_nil A) (r && is_nil C) M k v.
Proof.
  unfold inI. split.
  - intros (H1 & H2).
    destruct (Z_lt_le_dec k s) as [Hks|Hks].
    + destruct nf eqn:Enf.
      * left. split; auto. right. lia.
      * rewrite orb_false_r in H1. right. apply M_first; auto.
        intros E. destruct H1 as [H1|H1].
        -- rewrite fA, E in H1. cbn in H1. rewrite andb_false_r in H1. discriminate.
        -- rewrite E in H1. cbn in H1. lia.
    + destruct (Z_lt_le_dec k e) as [Hke|Hke]; [left; auto|].
      destruct nr eqn:Enr.
      * left. split; auto.
      * rewrite orb_false_r in H2. right. apply M_last; auto; [|tauto].
        intros E. destruct H2 as [H2|H2].
        -- rewrite E in H2. cbn in H2. lia.
        -- rewrite rC, E in H2. cbn in H2. rewrite andb_false_r in H2. discriminate.
  - pose proof hd_s. pose proof last_e. intros [(H1 & H2)|H1].
    + split.
      * destruct H1 as [H1|H1]; [left; rewrite H1, (HnA H1), orb_true_r; reflexivity|right; lia].
      * destruct H2 as [H2|H2]; [right; rewrite H2, (HnC H2), orb_true_r; reflexivity|left; lia].
    + destruct (cov_in _ _ _ _ _ H1) as (x & Hx & _ & H3 & H4). pose proof (hd_in x Hx). pose proof (last_in x Hx). split.
      * destruct H3 as [H3|H3]; [left; apply andb_true_iff in H3 as (-> & ->); reflexivity|right; lia].
      * destruct H4 as [H4|H4]; [right; apply andb_true_iff in H4 as (-> & ->); reflexivity|left; lia].
Qed.

Lemma splice_agrees k w : inI k -> cov f r (A ++ M ++ C) k w -> w = v.
Proof.
  intros Hk H. apply old_cov in H as [H|[H|H]].
  - exfalso. exact (A_out _ _ H Hk).
  - destruct (cov_in _ _ _ _ _ H) as (x & Hx & <- & _). auto.
  - exfalso. exact (C_out _ _ H Hk).
Qed.
Lemma splice_cov k w : cov (f || nf) (r || nr) (A ++ new :: C) k w <-> (inI k /\ w = v) \/ (~ inI k /\ cov f r (A ++ M ++ C) k w).
Proof.
  rewrite new_cov, new_iff, old_cov. split.
  - intros [H|[(-> & [H|H])|H]].
    + right. split; [exact (A_out _ _ H)|auto].
    + auto.
    + destruct (Z_lt_le_dec k s), (Z_lt_le_dec k e), nf eqn:Ef, nr eqn:Er; unfold inI;
        try (left; split; [|reflexivity]; split; auto; right; lia);
        try (right; split; [intros ([?|?] & [?|?]); solve [discriminate|lia]|auto]).
    + right. split; [exact (C_out _ _ H)|auto].
  - intros [(H & ->)|(H & [H1|[H1|H1]])]; auto.
    right. left. destruct (cov_in _ _ _ _ _ H1) as (x & Hx & Hw & _). rewrite (HM x Hx) in Hw. subst w. auto.
Qed.

Lemma splice_wf : wf (f || nf) (r || nr) (A ++ new :: C).
Proof.
  destruct Hwf as (Hs & Hfu & Hne). pose proof hd_s. pose proof last_e.
  rewrite !sorted_app in Hs. destruct Hs as (HsA & (HsM & HsC & HMC) & HAM).
  assert (Hx : forall a, In a A -> m_end a <= m_start new).
  { intros a Ha. cbn. unfold hd_st. destruct M as [|x t] eqn:E; [auto|]. apply Z.min_glb; [|auto]. apply HAM; [auto|]. cbn; auto. }
  assert (Hy : forall c, In c C -> m_end new <= m_start c).
  { intros c Hc. cbn. destruct (last_cases M) as [E|(t & y & E)].
    - rewrite E. cbn. auto.
    - rewrite E, last_en_app. apply Z.max_lub; [|auto]. apply HMC; [rewrite E; apply in_or_app; cbn; auto|auto]. }
  assert (Hse' : s <= e) by (destruct Hse; lia).
  split; [|split].
  - change (A ++ new :: C) with (A ++ [new] ++ C). rewrite !sorted_app. repeat split; auto.
    + cbn. lia.
    + intros a b [<-|[]] Hb. auto.
    + intros a b Ha Hb. apply in_app_or in Hb as [[<-|[]]|Hb]; [auto|]. apply HAM; [auto|apply in_or_app; auto].
  - change (A ++ new :: C) with (A ++ [new] ++ C). rewrite !full_app in *. cbn [is_nil app full]. rewrite !andb_false_r. rewrite is_nil_app in Hfu.
    destruct Hfu as (F1 & F2 & F3). split; [|split; [split|]]; auto.
    + destruct nf eqn:E1; [rewrite (HnA eq_refl); exact I|]. rewrite orb_false_r. revert F1.
      replace (r && (is_nil M && is_nil C)) with false; [auto|].
      destruct r; [|reflexivity]. destruct M; [|reflexivity]. destruct C; [|reflexivity]. exfalso. exact (Hr eq_refl eq_refl).
    + cbn. destruct Hse as [?|(? & [E|E])]; [left; lia| |].
      * right. left. rewrite E, (HnA E), orb_true_r. reflexivity.
      * right. right. rewrite E, (HnC E), orb_true_r. auto.
    + destruct nr eqn:E2; [rewrite (HnC eq_refl); exact I|]. rewrite orb_false_r. revert F3.
      replace (f && is_nil A && is_nil M) with false; [tauto|].
      rewrite fA. destruct f, (is_nil A), (is_nil M); reflexivity.
  - intros _. destruct A; discriminate.
Qed.
End Splice.
End Lists.
