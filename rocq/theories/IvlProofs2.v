(** The core of the insertion: positions of the run to merge, conflict check, merge. *)
From Verif Require Import Prelude IvlModel IvlSpec IvlProofs.
Open Scope Z_scope.

Section Core.
Context {V : Type} (veqb : V -> V -> bool).
Hypothesis Hveqb : forall a b, veqb a b = true <-> a = b.
Notation entry := (entry V).
Implicit Types (l A B C M P Q : list entry) (x y : entry).

Lemma nth_mid A x R : nth_error (A ++ x :: R) (length A) = Some x.
Proof. rewrite nth_error_app2, Nat.sub_diag; [reflexivity|lia]. Qed.
Lemma firstn_len A R : firstn (length A) (A ++ R) = A.
Proof. rewrite firstn_app, Nat.sub_diag, firstn_all. apply app_nil_r. Qed.
Lemma skipn_len A R : skipn (length A) (A ++ R) = R.
Proof. rewrite skipn_app, Nat.sub_diag, skipn_all. reflexivity. Qed.

(** P is the entry before the run, joined because it ends at s and has the value v *)
Definition joined_left A A' P (s : Z) (v : V) : Prop :=
  A = A' ++ P /\ ((exists p, P = [p] /\ m_end p = s /\ second p = v) \/ (P = [] /\ forall A1 a, A = A1 ++ [a] -> m_end a = s -> second a <> v)).
Definition joined_right C C' Q (e : Z) (v : V) : Prop :=
  C = Q ++ C' /\ ((exists q, Q = [q] /\ m_start q = e /\ second q = v) \/ (Q = [] /\ forall C1 c, C = c :: C1 -> m_start c = e -> second c <> v)).

Lemma join_left A s v : exists A' P, joined_left A A' P s v.
Proof.
  unfold joined_left. destruct (last_cases A) as [->|(A1 & a & ->)].
  - exists [], []. split; [reflexivity|]. right. split; [reflexivity|]. intros A1 a H. destruct A1; discriminate.
  - destruct (Z.eq_dec (m_end a) s) as [E|E]; [destruct (veqb (second a) v) eqn:Ev|].
    + apply Hveqb in Ev. exists A1, [a]. split; [reflexivity|]. left. eauto.
    + exists (A1 ++ [a]), []. split; [symmetry; apply app_nil_r|]. right. split; [reflexivity|]. intros A2 b H.
      apply app_inj_tail in H as (_ & <-). intros _ H. apply Hveqb in H. congruence.
    + exists (A1 ++ [a]), []. split; [symmetry; apply app_nil_r|]. right. split; [reflexivity|]. intros A2 b H.
      apply app_inj_tail in H as (_ & <-). intros H. congruence.
Qed.
Lemma join_right C e v : exists C' Q, joined_right C C' Q e v.
Proof.
  unfold joined_right. destruct C as [|c C1].
  - exists [], []. split; [reflexivity|]. right. split; [reflexivity|]. intros; discriminate.
  - destruct (Z.eq_dec (m_start c) e) as [E|E]; [destruct (veqb (second c) v) eqn:Ev|].
    + apply Hveqb in Ev. exists C1, [c]. split; [reflexivity|]. left. eauto.
    + exists (c :: C1), []. split; [reflexivity|]. right. split; [reflexivity|]. intros C2 b H. injection H as <- <-.
      intros _ H. apply Hveqb in H. congruence.
    + exists (c :: C1), []. split; [reflexivity|]. right. split; [reflexivity|]. intros C2 b H. injection H as <- <-. congruence.
Qed.

Lemma start_pos A A' P R s v : joined_left A A' P s v ->
  (if negb (length A =? 0)%nat && ends_at (A ++ R) (length A - 1) s && match nth_error (A ++ R) (length A - 1) with Some x => veqb (second x) v | None => false end
    then (length A - 1)%nat else length A) = length A'.
Proof.
  intros (E & [(p & -> & Hp & Hv)|(-> & H)]).
  - subst A. rewrite app_length. cbn [length]. replace (length A' + 1 - 1)%nat with (length A') by lia. unfold ends_at.
    rewrite <- app_assoc. cbn [app]. rewrite nth_mid, Hp, Z.eqb_refl. replace (veqb (second p) v) with true by (symmetry; apply Hveqb; auto).
    replace (length A' + 1 =? 0)%nat with false by (symmetry; apply Nat.eqb_neq; lia). reflexivity.
  - rewrite app_nil_r in E. subst A'. destruct (last_cases A) as [->|(A1 & a & ->)]; [reflexivity|].
    rewrite app_length. cbn [length]. replace (length A1 + 1 - 1)%nat with (length A1) by lia. unfold ends_at.
    rewrite <- app_assoc. cbn [app]. rewrite nth_mid. destruct (Z.eqb_spec (m_end a) s) as [Ea|Ea]; [|rewrite andb_false_r; reflexivity].
    destruct (veqb (second a) v) eqn:Ev; [|rewrite andb_false_r; reflexivity]. apply Hveqb in Ev. exfalso. exact (H A1 a eq_refl Ea Ev).
Qed.
Lemma end_pos L C C' Q e v : joined_right C C' Q e v ->
  match nth_error (L ++ C) (length L) with Some x => if (m_start x =? e) && veqb (second x) v then S (length L) else length L | None => length L end
  = (length L + length Q)%nat.
Proof.
  intros (E & [(q & -> & Hq & Hv)|(-> & H)]).
  - subst C. cbn [app]. rewrite nth_mid, Hq, Z.eqb_refl. replace (veqb (second q) v) with true by (symmetry; apply Hveqb; auto). cbn. lia.
  - cbn [app] in E. subst C'. rewrite Nat.add_0_r. destruct C as [|c C1].
    + rewrite app_nil_r. replace (nth_error L (length L)) with (@None entry); [reflexivity|]. symmetry. apply nth_error_None. lia.
    + rewrite nth_mid. destruct (Z.eqb_spec (m_start c) e) as [Ea|Ea]; [|reflexivity].
      destruct (veqb (second c) v) eqn:Ev; [|reflexivity]. apply Hveqb in Ev. exfalso. exact (H C1 c eq_refl Ea Ev).
Qed.

Lemma finish_fail A B C s e v b : In b B -> second b <> v -> finish veqb (A ++ B ++ C) s e v (length A) (length A + length B) = Some (A ++ B ++ C, false).
Proof.
  intros Hb Hv. unfold finish. cbv zeta. replace (length A + length B - length A)%nat with (length B) by lia. rewrite skipn_len, firstn_len.
  replace (forallb _ B) with false; [reflexivity|]. symmetry. apply not_true_is_false. rewrite forallb_forall. intros H. apply Hv, Hveqb, H, Hb.
Qed.
Lemma finish_ok A A' P B C C' Q s e v :
  joined_left A A' P s v -> joined_right C C' Q e v -> (forall b, In b B -> second b = v) ->
  let M := P ++ B ++ Q in
  finish veqb (A ++ B ++ C) s e v (length A) (length A + length B) = Some (A' ++ Entry (hd_st M s) (last_en M e) v :: C', true) /\
  A ++ B ++ C = A' ++ M ++ C' /\ (forall x, In x M -> second x = v).
Proof.
  intros HA HC HB M.
  assert (EL : A ++ B ++ C = A' ++ M ++ C').
  { destruct HA as (-> & _). destruct HC as (-> & _). unfold M. rewrite <- !app_assoc. reflexivity. }
  assert (HM : forall x, In x M -> second x = v).
  { unfold M. intros x Hx. apply in_app_or in Hx as [Hx|Hx]; [|apply in_app_or in Hx as [Hx|Hx]]; [|auto|].
    - destruct HA as (_ & [(p & -> & _ & Hp)|(-> & _)]); [destruct Hx as [<-|[]]; auto|destruct Hx].
    - destruct HC as (_ & [(p & -> & _ & Hp)|(-> & _)]); [destruct Hx as [<-|[]]; auto|destruct Hx]. }
  split; [|auto].
  unfold finish. cbv zeta. replace (length A + length B - length A)%nat with (length B) by lia. rewrite skipn_len, firstn_len.
  replace (forallb _ B) with true by (symmetry; apply forallb_forall; intros x Hx; apply Hveqb; auto). cbn [negb].
  rewrite (start_pos _ _ _ _ _ _ HA).
  replace (length A + length B)%nat with (length (A ++ B)) by apply app_length.
  rewrite app_assoc, (end_pos _ _ _ _ _ _ HC), <- app_assoc, EL.
  assert (El : (length (A ++ B) + length Q = length A' + length M)%nat).
  { destruct HA as (-> & _). unfold M. rewrite !app_length. lia. }
  rewrite El. destruct (last_cases M) as [E|(M1 & y & E)].
  - rewrite E. cbn [length app hd_st]. unfold last_en; cbn [rev]. rewrite Nat.add_0_r, Nat.eqb_refl, firstn_len, skipn_len. reflexivity.
  - rewrite E, last_en_app, app_length. cbn [length].
    replace (length A' =? length A' + (length M1 + 1))%nat with false by (symmetry; apply Nat.eqb_neq; lia).
    rewrite firstn_len.
    replace (skipn (length A' + (length M1 + 1)) (A' ++ (M1 ++ [y]) ++ C')) with C'.
    2:{ rewrite app_assoc. replace (length A' + (length M1 + 1))%nat with (length (A' ++ M1 ++ [y])) by (rewrite !app_length; reflexivity). symmetry; apply skipn_len. }
    replace (nth_error (A' ++ (M1 ++ [y]) ++ C') (length A' + (length M1 + 1) - 1)) with (Some y).
    2:{ rewrite <- app_assoc, app_assoc. cbn [app]. replace (length A' + (length M1 + 1) - 1)%nat with (length (A' ++ M1)) by (rewrite app_length; lia). symmetry; apply nth_mid. }
    assert (Hh : forall x, In x (M1 ++ [y]) -> second x = v) by (rewrite <- E; exact HM).
    destruct M1 as [|x M2]; cbn [app]; rewrite nth_mid; cbn [obind hd_st]; rewrite (Hh _ (or_introl eq_refl)); reflexivity.
Qed.

Definition inI (nf nr : bool) (s e k : Z) : Prop := (nf = true \/ s <= k) /\ (nr = true \/ k < e).
(** What the insertion has to do with a list *)
Definition outcome (f r nf nr : bool) l (s e : Z) (v : V) l' (ok : bool) : Prop :=
  if ok then
    (forall k w, inI nf nr s e k -> cov f r l k w -> w = v) /\ wf (f || nf) (r || nr) l' /\
    (forall k w, cov (f || nf) (r || nr) l' k w <-> (inI nf nr s e k /\ w = v) \/ (~ inI nf nr s e k /\ cov f r l k w))
  else l' = l /\ exists k w, inI nf nr s e k /\ cov f r l k w /\ w <> v.

Lemma assemble f r nf nr A B C s e v :
  wf f r (A ++ B ++ C) -> s < e \/ (s = e /\ (nf = true \/ nr = true)) ->
  (forall a, In a A -> m_end a <= s) -> (forall c, In c C -> e <= m_start c) ->
  (forall b, In b B -> s <= m_end b /\ m_start b <= e /\ second b = v) ->
  (nf = true -> A = [] \/ exists a, A = [a] /\ m_end a = s /\ second a = v) ->
  (nr = true -> C = [] \/ exists c, C = [c] /\ m_start c = e /\ second c = v) ->
  (f = true -> A = [] -> B = [] -> exists c C1, C = c :: C1 /\ m_start c = e /\ second c = v) ->
  (r = true -> B = [] -> C = [] -> exists A1 a, A = A1 ++ [a] /\ m_end a = s /\ second a = v) ->
  exists l', finish veqb (A ++ B ++ C) s e v (length A) (length A + length B) = Some (l', true) /\ outcome f r nf nr (A ++ B ++ C) s e v l' true.
Proof.
  intros Hwf Hse HA HC HB HnA HnC Hf Hr.
  destruct (join_left A s v) as (A' & P & JA). destruct (join_right C e v) as (C' & Q & JC).
  destruct (finish_ok A A' P B C C' Q s e v JA JC (fun b Hb => proj2 (proj2 (HB b Hb)))) as (E & EL & HM).
  set (M := P ++ B ++ Q) in *.
  exists (A' ++ Entry (hd_st M s) (last_en M e) v :: C'). split; [exact E|].
  assert (Hs : s <= e) by (destruct Hse; lia).
  assert (HsA : forall a, In a (A ++ B ++ C) -> m_start a <= m_end a) by (intros a; apply sorted_in, Hwf).
  assert (Hwf' : wf f r (A' ++ M ++ C')) by (rewrite <- EL; exact Hwf).
  assert (X1 : forall a, In a A' -> m_end a <= s) by (intros a Ha; apply HA; destruct JA as (-> & _); apply in_or_app; auto).
  assert (X2 : forall a, In a C' -> e <= m_start a) by (intros a Ha; apply HC; destruct JC as (-> & _); apply in_or_app; auto).
  assert (X3 : nf = true -> A' = []).
  { intros H. destruct (HnA H) as [E1|(a & E1 & Ha & Hv)].
    - destruct JA as (E2 & _). rewrite E1 in E2. symmetry in E2. apply app_eq_nil in E2. tauto.
    - destruct JA as (E2 & [(p & -> & _)|(-> & HP)]).
      + rewrite E1 in E2. change [a] with ([] ++ [a]) in E2. apply app_inj_tail in E2 as (<- & _). reflexivity.
      + exfalso. exact (HP [] a E1 Ha Hv). }
  assert (X4 : nr = true -> C' = []).
  { intros H. destruct (HnC H) as [E1|(a & E1 & Ha & Hv)].
    - destruct JC as (E2 & _). rewrite E1 in E2. symmetry in E2. apply app_eq_nil in E2. tauto.
    - destruct JC as (E2 & [(p & -> & _)|(-> & HP)]).
      + rewrite E1 in E2. cbn in E2. congruence.
      + exfalso. exact (HP [] a E1 Ha Hv). }
  assert (X5 : forall x t, M = x :: t -> s <= m_end x).
  { unfold M. intros x t H. destruct JA as (_ & [(p & -> & Hp & _)|(-> & _)]).
    - cbn in H. injection H as <- <-. lia.
    - cbn [app] in H. destruct B as [|b B1].
      + cbn [app] in H. destruct JC as (EC & [(q & -> & Hq & _)|(-> & _)]); [|discriminate].
        injection H as <- <-. assert (m_start q <= m_end q); [|lia]. apply HsA. rewrite EC. apply in_or_app; right. cbn; auto.
      + cbn in H. injection H as <- <-. apply HB. cbn; auto. }
  assert (X6 : forall x t, M = t ++ [x] -> m_start x <= e).
  { unfold M. intros x t H. destruct JC as (_ & [(p & -> & Hp & _)|(-> & _)]).
    - rewrite app_assoc in H. apply app_inj_tail in H as (_ & <-). lia.
    - rewrite app_nil_r in H. destruct (last_cases B) as [->|(B1 & b & ->)].
      + rewrite app_nil_r in H. destruct JA as (EA & [(q & -> & Hq & _)|(-> & _)]); [|destruct t; discriminate].
        change [q] with ([] ++ [q]) in H. apply app_inj_tail in H as (_ & <-). assert (m_start q <= m_end q); [|lia]. apply HsA. rewrite EA. apply in_or_app; left. apply in_or_app; cbn; auto.
      + rewrite app_assoc in H. apply app_inj_tail in H as (_ & <-). apply HB. apply in_or_app; cbn; auto. }
  assert (X7 : f = true -> A' ++ M <> []).
  { intros H E1. apply app_eq_nil in E1 as (E1 & E2). unfold M in E2. apply app_eq_nil in E2 as (E2 & E3). apply app_eq_nil in E3 as (E3 & E4).
    destruct JA as (E5 & _). rewrite E1, E2 in E5. destruct (Hf H E5 E3) as (c & C1 & H1 & H2 & H3).
    destruct JC as (_ & [(q & E6 & _)|(_ & H6)]); [congruence|]. exact (H6 _ _ H1 H2 H3). }
  assert (X8 : r = true -> M ++ C' <> []).
  { intros H E1. apply app_eq_nil in E1 as (E2 & E1). unfold M in E2. apply app_eq_nil in E2 as (E2 & E3). apply app_eq_nil in E3 as (E3 & E4).
    destruct JC as (E5 & _). rewrite E1, E4 in E5. destruct (Hr H E3 E5) as (A1 & a & H1 & H2 & H3).
    destruct JA as (_ & [(q & E6 & _)|(_ & H6)]); [congruence|]. exact (H6 _ _ H1 H2 H3). }
  rewrite EL. unfold outcome. split; [|split].
  - intros k w Hk. eapply splice_agrees with (nf := nf) (nr := nr); eauto.
  - eapply splice_wf; eauto.
  - intros k w. eapply splice_cov; eauto.
Qed.

Lemma ub_split l s : exists A R, l = A ++ R /\ ub l s = length A /\ (forall a, In a A -> m_end a <= s) /\ (sorted l -> forall b, In b R -> s < m_end b).
Proof.
  induction l as [|x l (A & R & E & E1 & H1 & H2)]; cbn [ub].
  - exists [], []. cbn. repeat split; auto; tauto.
  - destruct (Z.ltb_spec s (m_end x)) as [Hx|Hx].
    + exists [], (x :: l). cbn [app length]. repeat split; auto; [intros a []|]. cbn [sorted]. intros (Ha & Hb & Hc) b [<-|Hin]; [auto|].
      rewrite Forall_forall in Hb. specialize (Hb _ Hin). pose proof (sorted_in _ _ Hc Hin). lia.
    + exists (x :: A), R. cbn. rewrite E1. repeat split; auto; [congruence| |].
      * intros a [<-|Ha]; auto.
      * intros (Ha & Hb & Hc) b Hin. auto.
Qed.
Lemma lb_split l e : exists B C, l = B ++ C /\ lb l e = length B /\ (forall b, In b B -> m_start b < e) /\ (sorted l -> forall c, In c C -> e <= m_start c).
Proof.
  induction l as [|x l (A & R & E & E1 & H1 & H2)]; cbn [lb].
  - exists [], []. cbn. repeat split; auto; tauto.
  - destruct (Z.ltb_spec (m_start x) e) as [Hx|Hx].
    + exists (x :: A), R. cbn. rewrite E1. repeat split; auto; [congruence| |].
      * intros a [<-|Ha]; auto.
      * intros (Ha & Hb & Hc) b Hin. auto.
    + exists [], (x :: l). cbn [app length]. repeat split; auto; [intros a []|]. cbn [sorted]. intros (Ha & Hb & Hc) b [<-|Hin]; [auto|].
      rewrite Forall_forall in Hb. specialize (Hb _ Hin). lia.
Qed.
Lemma all_or B v : (forall b, In b B -> second b = v) \/ exists b, In b B /\ second b <> v.
Proof.
  induction B as [|b B IH]; [left; intros b []|]. destruct (veqb (second b) v) eqn:E.
  - apply Hveqb in E. destruct IH as [IH|(c & H & H1)]; [left; intros x [<-|Hx]; auto|right; exists c; cbn; auto].
  - right. exists b. split; [cbn; auto|]. intros H. apply Hveqb in H. congruence.
Qed.
(** An entry of a well-formed list without extent is the first one of a left-infinite or the last one of a right-infinite list *)
Lemma full_mid f r A x C : full f r (A ++ x :: C) -> m_start x < m_end x \/ (f = true /\ A = []) \/ (r = true /\ C = []).
Proof.
  rewrite full_app. intros (_ & H). cbn in H. destruct H as ([H|[H|H]] & _); auto. apply andb_true_iff in H as (-> & H). apply is_nil_true in H. auto.
Qed.
Lemma cov_mid f r A x C k : m_start x <= k < m_end x -> cov f r (A ++ x :: C) k (second x).
Proof. intros H. apply in_cov; [apply in_or_app; cbn; auto|auto]. Qed.

(** A proper interval: any list, any kind of insertion *)
Lemma core_lt f r nf nr l s e v bnd :
  wf f r l -> s < e -> (f = true -> exists x t, l = x :: t /\ m_start x <= s) -> (r = true -> exists t x, l = t ++ [x] /\ e <= m_end x) ->
  (nf = true -> forall x, In x l -> s <= m_start x) -> (nr = true -> forall x, In x l -> m_end x <= e) ->
  (nf = true -> f = true -> forall k w, inI nf nr s e k -> cov f r l k w -> w = v) ->
  (nr = true -> r = true -> forall k w, inI nf nr s e k -> cov f r l k w -> w = v) ->
  exists l' ok, finish veqb l s e v (find_start r l s e bnd) (find_end f l e (find_start r l s e bnd)) = Some (l', ok) /\ outcome f r nf nr l s e v l' ok.
Proof.
  intros Hwf Hse Hf Hr Hnf Hnr Haf Har. pose proof Hwf as (Hs & Hfu & _).
  destruct (ub_split l s) as (A & R & El & EA & HA & HR). specialize (HR Hs).
  assert (ES : find_start r l s e bnd = length A).
  { unfold find_start. rewrite EA. replace (s =? e) with false by (symmetry; apply Z.eqb_neq; lia). rewrite !andb_false_r. cbn [andb negb].
    destruct r; [|reflexivity]. destruct (Hr eq_refl) as (t & x & E & Hx). cbn [andb].
    destruct (Nat.eqb_spec (length A) (length l)) as [H|H]; [|reflexivity]. exfalso.
    rewrite El, app_length in H. destruct R; [|cbn in H; lia]. rewrite app_nil_r in El. subst A. assert (m_end x <= s); [|lia].
    apply HA. rewrite E. apply in_or_app; cbn; auto. }
  assert (HsR : sorted R) by (rewrite El, sorted_app in Hs; tauto).
  destruct (lb_split R e) as (B & C & ER & EB & HB & HC). specialize (HC HsR).
  assert (EE : find_end f l e (length A) = (length A + length B)%nat).
  { assert (H0 : (if (length A =? length l)%nat then length l else (length A + lb (skipn (length A) l) e)%nat) = (length A + length B)%nat).
    { destruct (Nat.eqb_spec (length A) (length l)) as [H|H].
      - rewrite El, app_length in *. rewrite ER, app_length in *. lia.
      - rewrite El, skipn_len, EB. reflexivity. }
    unfold find_end. rewrite H0. destruct f; [|reflexivity]. cbn [andb]. destruct (Nat.eqb_spec (length A + length B) 0) as [H|H]; [|reflexivity].
    destruct (Hf eq_refl) as (x & t & E & Hx). exfalso. destruct A; [|discriminate]. destruct B; [|discriminate]. cbn in ER, El.
    assert (Hx2 : e <= m_start x) by (apply HC; rewrite <- ER, <- El, E; cbn; auto). lia. }
  rewrite ES, EE. rewrite El, ER.
  assert (HBi : forall b, In b B -> inI nf nr s e (Z.max (m_start b) s) /\ cov f r (A ++ B ++ C) (Z.max (m_start b) s) (second b)).
  { intros b Hb. assert (HbR : In b R) by (rewrite ER; apply in_or_app; auto).
    pose proof (HR b HbR). pose proof (HB b Hb). split; [split; right; lia|].
    apply in_split in Hb as (B1 & B2 & E).
    replace (A ++ B ++ C) with ((A ++ B1) ++ b :: (B2 ++ C)) by (rewrite E, <- !app_assoc; reflexivity).
    apply cov_mid. rewrite El, ER, E in Hfu. replace (A ++ (B1 ++ b :: B2) ++ C) with ((A ++ B1) ++ b :: (B2 ++ C)) in Hfu by (rewrite <- !app_assoc; reflexivity).
    destruct (full_mid _ _ _ _ _ Hfu) as [H1|[(H1 & H2)|(H1 & H2)]]; [lia| |].
    - apply app_eq_nil in H2 as (-> & ->). destruct (Hf H1) as (x & t & E1 & Hx). rewrite El, ER, E in E1. cbn in E1. injection E1 as -> _. lia.
    - apply app_eq_nil in H2 as (-> & ->). destruct (Hr H1) as (t & x & E1 & Hx). rewrite El, ER, E in E1. rewrite app_nil_r, app_assoc in E1.
      apply app_inj_tail in E1 as (_ & <-). lia. }
  destruct (all_or B v) as [Hv|(b & Hb & Hv)].
  2:{ exists (A ++ B ++ C), false. split; [apply (finish_fail _ _ _ _ _ _ b); auto|]. split; [reflexivity|]. destruct (HBi b Hb) as (H1 & H2). eauto. }
  rewrite El, ER in Hwf, Hfu.
  assert (Hl : A ++ B ++ C = l) by congruence.
  assert (Hzero : forall x A1 C1, l = A1 ++ x :: C1 -> m_end x <= m_start x -> (f = true /\ A1 = []) \/ (r = true /\ C1 = [])).
  { intros x A1 C1 E Hx. rewrite Hl, E in Hfu. destruct (full_mid _ _ _ _ _ Hfu) as [?|?]; [lia|auto]. }
  destruct (assemble f r nf nr A B C s e v) as (l' & H1 & H2); auto.
  - intros b Hb. assert (HbR : In b R) by (rewrite ER; apply in_or_app; auto). pose proof (HR b HbR). pose proof (HB b Hb). repeat split; auto; lia.
  - intros H. destruct A as [|a A1]; [auto|]. right.
    assert (Ha : In a l) by (rewrite <- Hl; cbn; auto). pose proof (Hnf H a Ha). pose proof (HA a (or_introl eq_refl)).
    destruct (Hzero a [] (A1 ++ B ++ C)) as [(H3 & _)|(H3 & H4)]; [symmetry; exact Hl|lia| |].
    + assert (E0 : A1 = []).
      { destruct A1 as [|a2 A2]; [reflexivity|]. exfalso. assert (Ha2 : In a2 l) by (rewrite <- Hl; cbn; auto).
        pose proof (Hnf H a2 Ha2). pose proof (HA a2 (or_intror (or_introl eq_refl))).
        destruct (Hzero a2 [a] (A2 ++ B ++ C)) as [(_ & H6)|(H5 & H6)]; [symmetry; exact Hl|lia|discriminate|].
        destruct (Hr H5) as (t & x & E & Hx). apply app_eq_nil in H6 as (-> & H6). apply app_eq_nil in H6 as (-> & ->). rewrite E in Hl. cbn in Hl.
        change [a; a2] with ([a] ++ [a2]) in Hl. apply app_inj_tail in Hl as (_ & <-). lia. }
      subst A1. exists a. split; [reflexivity|]. split; [pose proof (sorted_in _ _ Hs Ha); lia|].
      apply (Haf H H3 (s - 1)). { split; [auto|]. right. lia. } rewrite <- Hl. cbn. left. split; [reflexivity|]. split; [auto|]. left. pose proof (sorted_in _ _ Hs Ha). lia.
    + exfalso. destruct (Hr H3) as (t & x & E & Hx). apply app_eq_nil in H4 as (-> & H4). apply app_eq_nil in H4 as (-> & ->). rewrite E in Hl. cbn in Hl.
      change [a] with ([] ++ [a]) in Hl. apply app_inj_tail in Hl as (_ & <-). lia.
  - intros H. destruct (last_cases C) as [?|(C1 & c & EC)]; [auto|]. right.
    assert (Hc : In c l) by (rewrite <- Hl, EC; rewrite !in_app_iff; cbn; auto 12). pose proof (Hnr H c Hc).
    assert (Hc2 : e <= m_start c) by (apply HC; rewrite EC; apply in_or_app; cbn; auto).
    assert (El2 : l = (A ++ B ++ C1) ++ c :: []) by (rewrite <- Hl, EC, <- !app_assoc; reflexivity).
    destruct (Hzero c (A ++ B ++ C1) []) as [(H3 & H4)|(H3 & _)]; [exact El2|lia| |].
    + exfalso. destruct (Hf H3) as (x & t & E & Hx). rewrite H4, E in El2. cbn in El2. injection El2 as -> _. lia.
    + assert (E0 : C1 = []).
      { destruct (last_cases C1) as [?|(C2 & c2 & EC2)]; [auto|]. exfalso.
        assert (Hc3 : In c2 l) by (rewrite El2, EC2; rewrite !in_app_iff; cbn; auto 12). pose proof (Hnr H c2 Hc3).
        assert (Hc4 : e <= m_start c2) by (apply HC; rewrite EC, EC2; rewrite !in_app_iff; cbn; auto 12).
        assert (El3 : l = (A ++ B ++ C2) ++ c2 :: [c]) by (rewrite El2, EC2, <- !app_assoc; reflexivity).
        destruct (Hzero c2 _ _ El3) as [(H5 & H6)|(_ & ?)]; [lia| |discriminate].
        destruct (Hf H5) as (x & t & E & Hx). rewrite H6, E in El3. cbn in El3. injection El3 as -> _. lia. }
      subst C1. cbn in EC. exists c. split; [exact EC|]. split; [pose proof (sorted_in _ _ Hs Hc); lia|].
      apply (Har H H3 e). { split; [right; lia|auto]. } rewrite El2. apply cov_app. right. cbn. left. split; [reflexivity|]. split; [right; pose proof (sorted_in _ _ Hs Hc); lia|auto].
  - intros H EA0 EB0. exfalso. destruct (Hf H) as (x & t & E & Hx). rewrite EA0, EB0, E in Hl. cbn in Hl. specialize (HC x). rewrite Hl in HC. specialize (HC (or_introl eq_refl)). lia.
  - intros H EB0 EC0. exfalso. destruct (Hr H) as (t & x & E & Hx). rewrite EB0, EC0, !app_nil_r in Hl. specialize (HA x). rewrite Hl, E in HA. assert (m_end x <= s) by (apply HA, in_or_app; cbn; auto). lia.
  - eauto.
Qed.

(** An infinite insertion ending at or before everything stored *)
Lemma core_left f r l s v :
  wf f r l -> (f = true -> exists x t, l = x :: t /\ m_start x <= s) -> (forall x, In x l -> s <= m_start x) ->
  (f = true -> forall k w, inI true false s s k -> cov f r l k w -> w = v) ->
  exists l', finish veqb l s s v (find_start r l s s 1) (find_end f l s (find_start r l s s 1)) = Some (l', true) /\ outcome f r true false l s s v l' true.
Proof.
  intros Hwf Hf Hst Hag. pose proof Hwf as (Hs & Hfu & Hne).
  assert (Hen : forall x, In x l -> s <= m_end x) by (intros x Hx; pose proof (Hst x Hx); pose proof (sorted_in _ _ Hs Hx); lia).
  assert (Hhd : f = true -> forall x t, l = x :: t -> m_start x = s /\ second x = v).
  { intros H x t E. destruct (Hf H) as (x' & t' & E' & Hx). rewrite E in E'. injection E' as <- <-. assert (Hin : In x l) by (rewrite E; cbn; auto).
    split; [pose proof (Hst x Hin); lia|]. apply (Hag H (s - 1)); [split; [auto|right; lia]|]. rewrite E. cbn. left. split; [reflexivity|]. split; [auto|left].
    pose proof (Hen x Hin). lia. }
  destruct (ub_split l s) as (A & R & El & EA & HA & HR). specialize (HR Hs).
  assert (HAz : forall a, In a A -> m_start a = s /\ m_end a = s).
  { intros a Ha. assert (Hin : In a l) by (rewrite El; apply in_or_app; auto). pose proof (HA a Ha). pose proof (Hst a Hin). pose proof (sorted_in _ _ Hs Hin). lia. }
  assert (HA2 : A = [] \/ (exists a, A = [a]) \/ (exists a b, A = [a; b] /\ R = [] /\ f = true)).
  { destruct A as [|a [|b A]]; [auto|eauto|]. right. right.
    assert (Hz : m_start b = s /\ m_end b = s) by (apply HAz; cbn; auto).
    assert (Hb : A ++ R = []).
    { rewrite El in Hfu. change ((a :: b :: A) ++ R) with ([a] ++ b :: (A ++ R)) in Hfu. destruct (full_mid _ _ _ _ _ Hfu) as [?|[(_ & ?)|(_ & ?)]]; [lia|discriminate|auto]. }
    apply app_eq_nil in Hb as (-> & ->). exists a, b. repeat split; auto.
    rewrite El in Hfu. cbn in Hfu. destruct Hfu as ([H|[H|(_ & H)]] & _); [|auto|discriminate].
    specialize (HAz a (or_introl eq_refl)). lia. }
  set (st0 := find_start r l s s 1).
  assert (ES : (st0 = 0%nat) \/ (exists a b, l = [a; b] /\ f = true /\ m_end a = s /\ m_start b = s /\ st0 = 1%nat)).
  { unfold st0, find_start. rewrite EA. rewrite Z.eqb_refl. cbn [Nat.eqb andb negb]. destruct HA2 as [->|[(a & ->)|(a & b & -> & -> & Hft)]].
    - left. cbn [length Nat.eqb negb andb]. destruct r; [|reflexivity]. destruct l as [|x t]; [|reflexivity]. reflexivity.
    - left. cbn [length Nat.eqb negb andb Nat.sub]. unfold ends_at. rewrite El. cbn [app nth_error].
      replace (m_end a =? s) with true by (symmetry; apply Z.eqb_eq, HAz; cbn; auto). destruct (nth_error _ _); rewrite ?andb_false_r; reflexivity.
    - right. exists a, b. rewrite app_nil_r in El. cbn [length Nat.eqb negb andb Nat.sub]. unfold ends_at. rewrite El. cbn [app nth_error].
      replace (m_end b =? s) with true by (symmetry; apply Z.eqb_eq, HAz; cbn; auto). rewrite andb_false_r. repeat split; auto; apply HAz; cbn; auto. }
  clearbody st0. destruct ES as [->|(a & b & E & Hft & Ha & Hb & ->)].
  - assert (EE : find_end f l s 0 = 0%nat \/ (find_end f l s 0 = 1%nat /\ f = true)).
    { unfold find_end. destruct l as [|x t].
      - left. cbn. rewrite andb_false_r. reflexivity.
      - cbn [length Nat.eqb skipn lb]. replace (m_start x <? s) with false by (symmetry; apply Z.ltb_ge, Hst; cbn; auto). cbn.
        destruct f; [|auto]. cbn. destruct (_ && _); auto. }
    assert (EE2 : find_end f l s 0 = 0%nat -> f = true -> exists x t, l = x :: t /\ m_start x = s /\ second x = v).
    { intros _ H. destruct (Hf H) as (x & t & E & _). exists x, t. split; [auto|]. eauto. }
    destruct EE as [EE|(EE & Hft)].
    + destruct (assemble f r true false [] [] l s s v) as (l' & H1 & H2); cbn [app]; auto; try tauto; try (intros; discriminate); try solve [intros ? []].
      * rewrite EE. eauto.
    + destruct (Hf Hft) as (x & t & E & Hx). destruct (Hhd Hft x t E) as (Hx1 & Hx2).
      destruct (assemble f r true false [] [x] t s s v) as (l' & H1 & H2); cbn [app]; auto; try tauto; try (intros; discriminate); try solve [intros ? []].
      * rewrite <- E. auto.
      * intros c Hc. apply Hst. rewrite E. cbn; auto.
      * intros b [<-|[]]. split; [|split; [lia|auto]]. apply Hen. rewrite E. cbn; auto.
      * rewrite EE, E. exists l'. split; [exact H1|exact H2].
  - destruct (Hhd Hft a [b] E) as (Ha1 & Ha2).
    assert (EE : find_end f l s 1 = 1%nat).
    { unfold find_end. rewrite E. cbn [length Nat.eqb skipn lb Nat.add]. replace (m_start b <? s) with false by (symmetry; apply Z.ltb_ge; lia). cbn. rewrite andb_false_r. reflexivity. }
    rewrite EE, E.
    destruct (assemble f r true false [a] [] [b] s s v) as (l' & H1 & H2); cbn [app]; auto; try tauto; try (intros; discriminate); try solve [intros ? []].
    + rewrite <- E. auto.
    + intros x [<-|[]]. lia.
    + intros x [<-|[]]. lia.
    + intros _. right. eauto.
    + exists l'. split; [exact H1|exact H2].
Qed.
(** An infinite insertion starting at or after everything stored *)
Lemma core_right f r l s v :
  wf f r l -> (r = true -> exists t x, l = t ++ [x] /\ s <= m_end x) -> (forall x, In x l -> m_end x <= s) ->
  (r = true -> forall k w, inI false true s s k -> cov f r l k w -> w = v) ->
  exists l', finish veqb l s s v (find_start r l s s 2) (find_end f l s (find_start r l s s 2)) = Some (l', true) /\ outcome f r false true l s s v l' true.
Proof.
  intros Hwf Hr Hen Hag. pose proof Hwf as (Hs & Hfu & Hne).
  assert (Hst : forall x, In x l -> m_start x <= s) by (intros x Hx; pose proof (Hen x Hx); pose proof (sorted_in _ _ Hs Hx); lia).
  assert (Hlast : r = true -> forall t x, l = t ++ [x] -> m_end x = s /\ second x = v).
  { intros H t x E. destruct (Hr H) as (t' & x' & E' & Hx). rewrite E in E'. apply app_inj_tail in E' as (<- & <-). assert (Hin : In x l) by (rewrite E; apply in_or_app; cbn; auto).
    split; [pose proof (Hen x Hin); lia|]. apply (Hag H s); [split; [right; lia|auto]|]. rewrite E. apply cov_app. right. cbn. left. split; [reflexivity|]. split; [right|auto].
    pose proof (Hst x Hin). lia. }
  assert (EU : ub l s = length l).
  { clear -Hen. induction l as [|x l IH]; [reflexivity|]. cbn. replace (s <? m_end x) with false by (symmetry; apply Z.ltb_ge, Hen; cbn; auto).
    rewrite IH; [reflexivity|]. intros y Hy; apply Hen; cbn; auto. }
  assert (ES : find_start r l s s 2 = length l \/ (r = true /\ exists t x, l = t ++ [x] /\ m_start x = s /\ m_end x = s /\ find_start r l s s 2 = length t)).
  { unfold find_start. rewrite EU. cbn [Nat.eqb andb]. rewrite Nat.eqb_refl, andb_true_r. destruct r; [|auto]. cbn [andb].
    destruct (Hr eq_refl) as (t & x & E & _). rewrite E, app_length. cbn [length]. replace (length t + 1 - 1)%nat with (length t) by lia. rewrite nth_mid.
    destruct (Z.eqb_spec (m_end x) (m_start x)); [|auto]. destruct (Z.eqb_spec (m_end x) s); [|auto]. cbn. right. split; [auto|]. exists t, x. repeat split; auto; lia. }
  destruct ES as [ES|(Hrt & t & x & E & Hx1 & Hx2 & ES)]; rewrite ES.
  - assert (EE : find_end f l s (length l) = length l).
    { unfold find_end. rewrite Nat.eqb_refl. destruct l as [|y l1]; cbn; [rewrite andb_false_r|rewrite andb_false_r]; reflexivity. }
    rewrite EE. destruct (assemble f r false true l [] [] s s v) as (l' & H1 & H2); rewrite ?app_nil_r; auto; try tauto; try (intros; discriminate); try solve [intros ? []].
    + intros H _ _. destruct (Hr H) as (t & x & E & _). exists t, x. split; [auto|]. eauto.
    + cbn [length app] in H1. rewrite !app_nil_r, Nat.add_0_r in H1. rewrite !app_nil_r in H2. eauto.
  - destruct (Hlast Hrt t x E) as (_ & Hv).
    assert (EE : find_end f l s (length t) = length t \/ (find_end f l s (length t) = 1%nat /\ t = [])).
    { unfold find_end. rewrite E, app_length, skipn_len. cbn [length lb]. replace (length t =? length t + 1)%nat with false by (symmetry; apply Nat.eqb_neq; lia).
      replace (m_start x <? s) with false by (symmetry; apply Z.ltb_ge; lia). rewrite Nat.add_0_r. destruct f; [|auto]. cbn [andb].
      destruct t; [|auto]. cbn. destruct (_ && _); auto. }
    destruct EE as [EE|(EE & ->)]; rewrite EE, E.
    + destruct (assemble f r false true t [] [x] s s v) as (l' & H1 & H2); cbn [app]; auto; try tauto; try (intros; discriminate); try solve [intros ? []].
      * rewrite <- E. auto.
      * intros a Ha. apply Hen. rewrite E. apply in_or_app; auto.
      * intros c [<-|[]]. lia.
      * intros _. right. eauto.
      * intros _ _ _. eauto.
      * rewrite Nat.add_0_r in H1. exists l'. split; [exact H1|exact H2].
    + destruct (assemble f r false true [] [x] [] s s v) as (l' & H1 & H2); cbn [app]; auto; try tauto; try (intros; discriminate); try solve [intros ? []].
      * cbn in E. rewrite <- E. auto.
      * intros b [<-|[]]. split; [lia|split; [lia|auto]].
      * exists l'. split; [exact H1|exact H2].
Qed.
End Core.
