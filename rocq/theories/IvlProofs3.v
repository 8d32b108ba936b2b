(** Insertion and lookup refine the partial function. *)
From Verif Require Import Prelude IvlModel IvlSpec IvlProofs IvlProofs2.
Open Scope Z_scope.

Section Map.
Context {V : Type} (veqb : V -> V -> bool).
Hypothesis Hveqb : forall a b, veqb a b = true <-> a = b.
Notation entry := (entry V).
Implicit Types (l A B C : list entry) (x y : entry) (m : imap V) (g : Z -> option V) (o : ivl_op V).

Lemma lower_front_ok r l s : wf true r l -> exists x t, l = x :: t /\ lower_front l s = Some (Entry (Z.min (m_start x) s) (m_end x) (second x) :: t) /\
  wf true r (Entry (Z.min (m_start x) s) (m_end x) (second x) :: t) /\
  (forall k w, cov true r (Entry (Z.min (m_start x) s) (m_end x) (second x) :: t) k w <-> cov true r l k w).
Proof.
  intros (Hs & Hf & Hne). destruct l as [|x t]; [exfalso; apply Hne; auto|]. exists x, t. split; [reflexivity|]. split; [reflexivity|]. split.
  - cbn [sorted full] in *. destruct Hs as (H1 & H2 & H3). split; [|split; [|discriminate]]; cbn [sorted full m_start m_end].
    + split; [lia|]. split; auto.
    + split; [auto|tauto].
  - intros k w. cbn. tauto.
Qed.
Lemma raise_back_app t y e : raise_back (t ++ [y]) e = Some (t ++ [Entry (m_start y) (Z.max (m_end y) e) (second y)]).
Proof.
  induction t as [|x t IH]; [reflexivity|]. cbn [app raise_back]. rewrite IH. destruct (t ++ [y]) eqn:E; [destruct t; discriminate|reflexivity].
Qed.
Lemma raise_back_ok f l e : wf f true l -> exists t y, l = t ++ [y] /\ raise_back l e = Some (t ++ [Entry (m_start y) (Z.max (m_end y) e) (second y)]) /\
  wf f true (t ++ [Entry (m_start y) (Z.max (m_end y) e) (second y)]) /\
  (forall k w, cov f true (t ++ [Entry (m_start y) (Z.max (m_end y) e) (second y)]) k w <-> cov f true l k w).
Proof.
  intros (Hs & Hf & Hne). destruct (last_cases l) as [->|(t & y & ->)]; [exfalso; apply Hne; auto|]. exists t, y. split; [reflexivity|].
  split; [apply raise_back_app|]. split.
  - rewrite !sorted_app, !full_app in *. cbn [sorted full is_nil m_start m_end] in *. destruct Hs as (H1 & H2 & H3). destruct Hf as (F1 & F2).
    split; [|split; [|intros _; destruct t; discriminate]].
    + rewrite sorted_app. cbn. repeat split; auto; [lia|]. intros a b Ha [<-|[]]. cbn. apply H3; cbn; auto.
    + rewrite full_app. cbn. repeat split; auto.
  - intros k w. rewrite !cov_app. cbn. tauto.
Qed.

Lemma prep f r l0 s e : wf f r l0 -> exists l1 l,
  (if f then lower_front l0 s else Some l0) = Some l1 /\ (if r then raise_back l1 e else Some l1) = Some l /\ wf f r l /\
  (forall k w, cov f r l k w <-> cov f r l0 k w) /\
  (f = true -> exists x t, l = x :: t /\ m_start x <= s) /\ (r = true -> exists t x, l = t ++ [x] /\ e <= m_end x) /\
  ((forall x, In x l0 -> s <= m_start x) -> forall x, In x l -> s <= m_start x) /\
  ((forall x, In x l0 -> m_end x <= e) -> forall x, In x l -> m_end x <= e).
Proof.
  intros Hwf.
  assert (H1 : exists l1, (if f then lower_front l0 s else Some l0) = Some l1 /\ wf f r l1 /\ (forall k w, cov f r l1 k w <-> cov f r l0 k w) /\
    (f = true -> exists x t, l1 = x :: t /\ m_start x <= s) /\ ((forall x, In x l0 -> s <= m_start x) -> forall x, In x l1 -> s <= m_start x) /\
    ((forall x, In x l0 -> m_end x <= e) -> forall x, In x l1 -> m_end x <= e)).
  { destruct f.
    - destruct (lower_front_ok r l0 s Hwf) as (x & t & -> & E & W & Hc). eexists. split; [exact E|]. split; [auto|]. split; [auto|]. split; [|split].
      + intros _. do 2 eexists. split; [reflexivity|]. cbn. lia.
      + intros H y [<-|Hy]; cbn; [|apply H; cbn; auto]. specialize (H x (or_introl eq_refl)). lia.
      + intros H y [<-|Hy]; cbn; apply H; cbn; auto.
    - exists l0. split; [reflexivity|]. split; [auto|]. split; [tauto|]. split; [discriminate|]. auto. }
  destruct H1 as (l1 & E1 & W1 & C1 & F1 & S1 & N1). exists l1. destruct r.
  - destruct (raise_back_ok f l1 e W1) as (t & y & E & E2 & W & Hc). eexists. split; [auto|]. split; [exact E2|]. split; [auto|].
    split; [intros k w; rewrite Hc; auto|]. split; [|split; [|split]].
    + intros H. destruct (F1 H) as (x & t' & E3 & Hx). rewrite E in E3. destruct t as [|z t]; cbn in *; injection E3 as <- <-; do 2 eexists; (split; [reflexivity|]); auto.
    + intros _. do 2 eexists. split; [reflexivity|]. cbn. lia.
    + intros H x Hx. specialize (S1 H). rewrite E in S1. apply in_app_or in Hx as [Hx|[<-|[]]]; cbn; apply S1, in_or_app; cbn; auto.
    + intros H x Hx. specialize (N1 H). rewrite E in N1. apply in_app_or in Hx as [Hx|[<-|[]]]; cbn; [apply N1, in_or_app; auto|].
      apply Z.max_lub; [|lia]. apply N1, in_or_app; cbn; auto.
  - exists l1. do 4 (split; [assumption || reflexivity|]). split; [assumption|]. split; [discriminate|]. auto.
Qed.

(** The map stands for g *)
Definition good m g : Prop := wf (left_inf m) (right_inf m) (entries m) /\ forall k w, cov (left_inf m) (right_inf m) (entries m) k w <-> g k = Some w.

Definition insideb o (k : Z) : bool :=
  match lo o with Some s => s <=? k | None => true end && match hi o with Some e => k <? e | None => true end.
Lemma insideb_ok o k : insideb o k = true <-> inside o k.
Proof.
  unfold insideb, inside. rewrite andb_true_iff. destruct (lo o), (hi o); rewrite ?Z.leb_le, ?Z.ltb_lt; tauto.
Qed.
Lemma inside_dec o k : inside o k \/ ~ inside o k.
Proof. rewrite <- insideb_ok. destruct (insideb o k); auto. Qed.

Lemma outcome_step f r nf nr l0 l s e o g l' ok :
  wf f r l -> (forall k w, cov f r l k w <-> cov f r l0 k w) -> (forall k w, cov f r l0 k w <-> g k = Some w) ->
  (forall k, inI nf nr s e k <-> inside o k) -> (exists k, inside o k) ->
  outcome f r nf nr l s e (value o) l' ok ->
  exists g', step g o g' ok /\ good (if ok then IMap l' (f || nf) (r || nr) else IMap l' f r) g'.
Proof.
  intros Hwf Hc Hg HI Hne. destruct ok; cbn [outcome].
  - intros (H1 & H2 & H3). exists (fun k => if insideb o k then Some (value o) else g k). split; [constructor; auto|split; [exact H2|]].
    + intros k w Hk Hw. apply (H1 k w); [apply HI, Hk|]. apply Hc, Hg, Hw.
    + intros k Hk. apply insideb_ok in Hk. rewrite Hk. reflexivity.
    + intros k Hk. rewrite <- insideb_ok in Hk. destruct (insideb o k); [exfalso; auto|reflexivity].
    + intros k w. cbn [left_inf right_inf entries]. rewrite H3, HI, Hc, Hg, <- insideb_ok. destruct (insideb o k); [|split; [intros [(? & _)|(_ & ?)]; [discriminate|auto]|auto]].
      split; [intros [(_ & ->)|(H & _)]; [auto|exfalso; auto]|]. intros H. left. split; [auto|congruence].
  - intros (-> & k & w & H1 & H2 & H3). exists g. split.
    + constructor; [right|auto]. intros H. apply H3, (H k); [apply HI, H1|]. apply Hg, Hc, H2.
    + split; [exact Hwf|]. cbn. intros k' w'. rewrite Hc. apply Hg.
Qed.

Lemma last_in_rev l x t : rev l = x :: t -> l = rev t ++ [x].
Proof. intros H. rewrite <- (rev_involutive l), H. reflexivity. Qed.
Lemma sorted_first x t : sorted (x :: t) -> forall y, In y (x :: t) -> m_start x <= m_start y.
Proof. cbn. intros (H1 & H2 & H3) y [<-|Hy]; [lia|]. rewrite Forall_forall in H2. specialize (H2 _ Hy). lia. Qed.
Lemma sorted_last t x : sorted (t ++ [x]) -> forall y, In y (t ++ [x]) -> m_end y <= m_end x.
Proof. rewrite sorted_app. cbn. intros (H1 & H2 & H3) y Hy. apply in_app_or in Hy as [Hy|[<-|[]]]; [|lia]. specialize (H3 y x Hy (or_introl eq_refl)). lia. Qed.

Lemma good_left m g : good m g -> left_inf m = true -> unbounded_left g.
Proof.
  intros (Hwf & Hg) Hf. destruct m as [l f r]; cbn in *. subst f. destruct l as [|x t]; [exfalso; destruct Hwf as (_ & _ & H); apply H; auto|].
  exists (m_end x - 1). intros k Hk E. specialize (Hg k (second x)). rewrite E in Hg. cbn in Hg. assert (H : @None V = Some (second x)); [|discriminate].
  apply Hg. left. split; [reflexivity|]. split; [auto|left; lia].
Qed.
Lemma good_right m g : good m g -> right_inf m = true -> unbounded_right g.
Proof.
  intros (Hwf & Hg) Hf. destruct m as [l f r]; cbn in *. subst r. destruct (last_cases l) as [->|(t & x & ->)]; [exfalso; destruct Hwf as (_ & _ & H); apply H; auto|].
  exists (m_start x). intros k Hk E. specialize (Hg k (second x)). rewrite E, cov_app in Hg. cbn in Hg. assert (H : @None V = Some (second x)); [|discriminate].
  apply Hg. right. left. split; [reflexivity|]. split; [right; lia|auto].
Qed.
(** Every entry stands for some key *)
Lemma entry_cov f r l x : wf f r l -> In x l -> exists k, cov f r l k (second x).
Proof.
  intros (Hs & Hf & _) Hx. pose proof (sorted_in _ _ Hs Hx) as Hle. apply in_split in Hx as (A & C & E). rewrite E in *.
  destruct (full_mid _ _ _ _ _ Hf) as [H|[(H & ->)|(H & ->)]].
  - exists (m_start x). apply cov_mid. lia.
  - exists (m_end x - 1). cbn. left. split; [auto|]. split; [auto|left; lia].
  - exists (m_start x). apply cov_app. right. cbn. left. split; [auto|]. split; [right; lia|auto].
Qed.

Lemma insert_step m g o : good m g -> safe_op g o -> exists m' ok g', insert veqb m o = Some (m', ok) /\ step g o g' ok /\ good m' g'.
Proof.
  intros HG (SR & SL). pose proof HG as (Hwf & Hg). destruct m as [l0 f r]. cbn [entries left_inf right_inf] in *.
  destruct o as [[s|] [e|] v]; cbn [lo hi value] in *.
  - unfold insert; cbn [lo hi value]. unfold insert_core; cbn [entries left_inf right_inf Nat.eqb andb].
    destruct (Z.ltb_spec e s) as [Hes|Hes]; [|destruct (Z.eqb_spec s e) as [He|He]]; cbn [orb].
    + exists (IMap l0 f r), false, g. split; [reflexivity|]. split; [|exact HG]. constructor; [left|auto]. intros k (H1 & H2). cbn in *. lia.
    + exists (IMap l0 f r), false, g. split; [reflexivity|]. split; [|exact HG]. constructor; [left|auto]. intros k (H1 & H2). cbn in *. lia.
    + destruct (prep f r l0 s e Hwf) as (l1 & l & E1 & E2 & W & C & F & R & _ & _). rewrite E1; cbn [obind]; rewrite E2; cbn [obind]; clear E1 E2.
      destruct (core_lt veqb Hveqb f r false false l s e v 0) as (l' & ok & -> & HO); auto; try discriminate; [lia|]. cbn [obind].
      destruct (outcome_step f r false false l0 l s e (Op (Some s) (Some e) v) g l' ok) as (g' & S1 & G1); auto.
      * intros k. unfold inI, inside. cbn. split; [intros ([?|?] & [?|?]); try discriminate; auto|intros (? & ?); auto].
      * exists s. split; cbn; lia.
      * exists (IMap l' f r), ok, g'. split; [reflexivity|]. split; [exact S1|]. rewrite !orb_false_r in G1. destruct ok; exact G1.
  - unfold insert; cbn [lo hi value entries]. set (e := match rev l0 with [] => s | x :: _ => if s <? m_end x then m_end x else s end).
    assert (Hse : s <= e) by (unfold e; destruct (rev l0) as [|x t]; [lia|]; destruct (Z.ltb_spec s (m_end x)); lia).
    assert (Hen : forall x, In x l0 -> m_end x <= e).
    { unfold e. intros y Hy. destruct (rev l0) as [|x t] eqn:E; [apply in_rev in Hy; rewrite E in Hy; destruct Hy|].
      apply last_in_rev in E. destruct Hwf as (Hs & _). rewrite E in Hs, Hy. pose proof (sorted_last _ _ Hs y Hy). destruct (Z.ltb_spec s (m_end x)); lia. }
    unfold insert_core; cbn [entries left_inf right_inf Nat.eqb andb].
    replace (e <? s) with false by (symmetry; apply Z.ltb_ge; lia). cbn [orb].
    destruct (prep f r l0 s e Hwf) as (l1 & l & E1 & E2 & W & C & F & R & _ & N). rewrite E1; cbn [obind]; rewrite E2; cbn [obind]; clear E1 E2.
    assert (Hag : r = true -> forall k w, inI false true s e k -> cov f r l k w -> w = v).
    { intros H k w Hk Hc. assert (A : agrees g (Op (Some s) None v)) by (apply SR; auto; [discriminate|]; apply (good_right _ _ HG); auto).
      apply (A k w); [|apply Hg, C, Hc]. destruct Hk as ([?|?] & _); [discriminate|]. split; cbn; auto. }
    assert (HO : exists l' ok, finish veqb l s e v (find_start r l s e 2) (find_end f l e (find_start r l s e 2)) = Some (l', ok) /\ outcome f r false true l s e v l' ok).
    { destruct (Z.eq_dec s e) as [He|He].
      - destruct (core_right veqb Hveqb f r l s v) as (l' & E1 & E2); auto.
        + intros H. destruct (R H) as (t & x & ? & ?). exists t, x. split; [auto|lia].
        + intros x Hx. rewrite He. apply N; auto.
        + rewrite He in *. auto.
        + exists l', true. rewrite <- He. auto.
      - apply (core_lt veqb Hveqb f r false true); auto; try discriminate; lia. }
    destruct HO as (l' & ok & -> & HO). cbn [obind].
    destruct (outcome_step f r false true l0 l s e (Op (Some s) None v) g l' ok) as (g' & S1 & G1); auto.
    * intros k. unfold inI, inside. cbn. split; [intros ([?|?] & _); try discriminate; auto|intros (? & ?); auto].
    * exists s. split; cbn; auto; lia.
    * do 3 eexists. split; [reflexivity|]. split; [exact S1|]. rewrite orb_false_r, orb_true_r in G1. destruct ok; exact G1.
  - unfold insert; cbn [lo hi value entries]. set (s := match l0 with [] => e | x :: _ => if m_start x <? e then m_start x else e end).
    assert (Hse : s <= e) by (unfold s; destruct l0 as [|x t]; [lia|]; destruct (Z.ltb_spec (m_start x) e); lia).
    assert (Hst : forall x, In x l0 -> s <= m_start x).
    { unfold s. intros y Hy. destruct l0 as [|x t] eqn:E; [destruct Hy|].
      destruct Hwf as (Hs & _). pose proof (sorted_first _ _ Hs y Hy). destruct (Z.ltb_spec (m_start x) e); lia. }
    unfold insert_core; cbn [entries left_inf right_inf Nat.eqb andb].
    replace (e <? s) with false by (symmetry; apply Z.ltb_ge; lia). cbn [orb].
    destruct (prep f r l0 s e Hwf) as (l1 & l & E1 & E2 & W & C & F & R & N & _). rewrite E1; cbn [obind]; rewrite E2; cbn [obind]; clear E1 E2.
    assert (Hag : f = true -> forall k w, inI true false s e k -> cov f r l k w -> w = v).
    { intros H k w Hk Hc. assert (A : agrees g (Op None (Some e) v)) by (apply SL; auto; [discriminate|]; apply (good_left _ _ HG); auto).
      apply (A k w); [|apply Hg, C, Hc]. destruct Hk as (_ & [?|?]); [discriminate|]. split; cbn; auto. }
    assert (HO : exists l' ok, finish veqb l s e v (find_start r l s e 1) (find_end f l e (find_start r l s e 1)) = Some (l', ok) /\ outcome f r true false l s e v l' ok).
    { destruct (Z.eq_dec s e) as [He|He].
      - destruct (core_left veqb Hveqb f r l s v) as (l' & E1 & E2); auto.
        + rewrite He in *. auto.
        + exists l', true. rewrite <- He. auto.
      - apply (core_lt veqb Hveqb f r true false); auto; try discriminate; lia. }
    destruct HO as (l' & ok & -> & HO). cbn [obind].
    destruct (outcome_step f r true false l0 l s e (Op None (Some e) v) g l' ok) as (g' & S1 & G1); auto.
    * intros k. unfold inI, inside. cbn. split; [intros (_ & [?|?]); try discriminate; auto|intros (? & ?); auto].
    * exists (e - 1). split; cbn; auto; lia.
    * do 3 eexists. split; [reflexivity|]. split; [exact S1|]. rewrite orb_false_r, orb_true_r in G1. destruct ok; exact G1.
  - unfold insert; cbn [lo hi value entries].
    destruct (forallb (fun x => veqb (second x) v) l0) eqn:E.
    + rewrite forallb_forall in E. exists (IMap [Entry 0 0 v] true true), true, (fun _ => Some v). split; [reflexivity|]. split.
      * constructor; [exists 0; split; exact I| |auto|intros k H; exfalso; apply H; split; exact I].
        intros k w _ Hw. apply Hg in Hw. destruct (cov_in _ _ _ _ _ Hw) as (x & Hx & <- & _). apply Hveqb, E, Hx.
      * split; [split; [|split]|]; cbn; auto; [repeat split; auto; lia|intros _ H; discriminate|]. intros k w. split; [intros [(-> & _)|[]]; reflexivity|]. intros H. injection H as ->. auto 6.
    + exists (IMap l0 f r), false, g. split; [reflexivity|]. split; [|exact HG]. constructor; [right|auto]. intros H.
      destruct (all_or veqb Hveqb l0 v) as [Hv|(b & Hb & Hv)].
      * apply not_true_iff_false in E. apply E, forallb_forall. intros x Hx. apply Hveqb, Hv, Hx.
      * destruct (entry_cov _ _ _ _ Hwf Hb) as (k & Hk). apply Hv, (H k); [split; exact I|]. apply Hg, Hk.
Qed.

Lemma good_empty : good empty_map nothing.
Proof. split; [split; [exact I|split; [exact I|intros [?|?]; discriminate]]|]. intros k w. cbn. split; [tauto|discriminate]. Qed.
Lemma inserts_run ops : forall m g, good m g -> safe g ops -> exists m' bs g', inserts veqb m ops = Some (m', bs) /\ run g ops bs g' /\ good m' g'.
Proof.
  induction ops as [|o ops IH]; intros m g HG HS.
  - exists m, [], g. repeat split; try apply HG. constructor.
  - inversion HS as [|g0 o0 ops0 H1 H2]; subst. destruct (insert_step m g o HG H1) as (m1 & b & g1 & E & S1 & G1).
    destruct (IH m1 g1 G1 (H2 _ _ S1)) as (m2 & bs & g2 & E2 & R & G2). exists m2, (b :: bs), g2. cbn [inserts]. rewrite E. cbn [obind]. rewrite E2. cbn [obind].
    split; [reflexivity|]. split; [econstructor; eauto|auto].
Qed.

(** Lookup *)
Lemma cov_unique f r l k w1 w2 : sorted l -> cov f r l k w1 -> cov f r l k w2 -> w1 = w2.
Proof.
  revert f. induction l as [|x t IH]; intros f; cbn; [tauto|]. intros (H1 & H2 & H3) [(<- & A1 & A2)|A] [(<- & B1 & B2)|B]; auto.
  - exfalso. destruct A2 as [A2|(_ & ->)]; [|exact B]. destruct (cov_in _ _ _ _ _ B) as (y & Hy & _ & [?|Hy2] & _); [discriminate|].
    rewrite Forall_forall in H2. specialize (H2 _ Hy). lia.
  - exfalso. destruct B2 as [B2|(_ & ->)]; [|exact A]. destruct (cov_in _ _ _ _ _ A) as (y & Hy & _ & [?|Hy2] & _); [discriminate|].
    rewrite Forall_forall in H2. specialize (H2 _ Hy). lia.
  - exact (IH false H3 A B).
Qed.
Definition search (f : bool) l (key : Z) : option nat :=
  match nth_error l (ub l key) with Some x => if (f && (ub l key =? 0)%nat) || negb (key <? m_start x) then Some (ub l key) else None | None => None end.
Lemma search_sound f l k i : sorted l -> search f l k = Some i -> exists x, nth_error l i = Some x /\ cov f false l k (second x).
Proof.
  intros Hs. unfold search. destruct (ub_split l k) as (A & R & -> & -> & HA & HR). destruct R as [|x R].
  - rewrite app_nil_r. rewrite (proj2 (nth_error_None A (length A))); [discriminate|lia].
  - rewrite nth_mid. destruct (_ || _) eqn:E; [|discriminate]. intros H. injection H as <-. exists x. rewrite nth_mid. split; [auto|].
    pose proof (HR Hs x (or_introl eq_refl)) as Hx.
    apply cov_app. right. cbn. left. split; [auto|]. split; [|auto].
    apply orb_true_iff in E as [E|E].
    + apply andb_true_iff in E as (-> & E). left. destruct A; [reflexivity|discriminate].
    + right. apply negb_true_iff, Z.ltb_ge in E. exact E.
Qed.
Lemma search_complete f l k w : sorted l -> cov f false l k w -> search f l k <> None.
Proof.
  intros Hs Hc. unfold search. destruct (ub_split l k) as (A & R & -> & -> & HA & HR).
  apply cov_app in Hc as [Hc|Hc].
  - exfalso. destruct (cov_in _ _ _ _ _ Hc) as (x & Hx & _ & _ & [?|H]); [discriminate|]. specialize (HA x Hx). lia.
  - destruct R as [|x R]; [destruct Hc|]. rewrite nth_mid. cbn in Hc. destruct Hc as [(_ & H & _)|Hc].
    + replace (_ || _) with true; [discriminate|]. symmetry. apply orb_true_iff. destruct H as [H|H].
      * left. destruct f; [|discriminate]. destruct A; [reflexivity|discriminate].
      * right. apply negb_true_iff, Z.ltb_ge. exact H.
    + exfalso. destruct (cov_in _ _ _ _ _ Hc) as (y & Hy & _ & [?|H] & _); [discriminate|]. specialize (HR Hs x (or_introl eq_refl)).
      rewrite sorted_app in Hs. destruct Hs as (_ & Hs & _). cbn in Hs. destruct Hs as (_ & Hs & _). rewrite Forall_forall in Hs. specialize (Hs _ Hy). lia.
Qed.
Lemma internal_find_search l f r key : internal_find (IMap l f r) key =
  if r then match nth_error l (length l - 1) with Some x => if negb (key <? m_start x) then Some (length l - 1)%nat else search f (firstn (length l - 1) l) key | None => None end
  else search f l key.
Proof.
  unfold internal_find, search. cbn [entries left_inf right_inf]. destruct l as [|x t]; [destruct r; reflexivity|]. rewrite (firstn_all2 (n := length (x :: t))); [|lia].
  destruct r; reflexivity.
Qed.
Lemma contains_find m key : contains m key = match internal_find m key with Some _ => true | None => false end.
Proof.
  unfold contains, internal_find. destruct (entries m) as [|x t]; [reflexivity|]. destruct (right_inf m).
  - destruct (nth_error _ _); [|reflexivity]. destruct (negb _); [reflexivity|]. destruct (nth_error _ _); [|reflexivity]. destruct (_ || _); reflexivity.
  - destruct (nth_error _ _); [|reflexivity]. destruct (_ || _); reflexivity.
Qed.
Definition doubly m : Prop := left_inf m = true /\ right_inf m = true /\ length (entries m) = 1%nat.

Lemma find_sound m k i : sorted (entries m) -> internal_find m k = Some i ->
  exists x, nth_error (entries m) i = Some x /\ cov (left_inf m) (right_inf m) (entries m) k (second x).
Proof.
  destruct m as [l f r]. rewrite internal_find_search. cbn [entries left_inf right_inf]. intros Hs. destruct r; [|apply search_sound; auto].
  destruct (last_cases l) as [->|(t & y & ->)]; [discriminate|]. rewrite app_length. cbn [length]. replace (length t + 1 - 1)%nat with (length t) by lia.
  rewrite nth_mid, firstn_len. rewrite sorted_app in Hs. destruct (negb (k <? m_start y)) eqn:E.
  - intros H. injection H as <-. exists y. rewrite nth_mid. split; [auto|]. apply negb_true_iff, Z.ltb_ge in E. apply cov_app. right. cbn. left. split; [auto|]. split; [right; lia|auto].
  - intros H. destruct (search_sound _ _ _ _ (proj1 Hs) H) as (x & H1 & H2). exists x. split.
    + rewrite nth_error_app1; [auto|]. apply nth_error_Some. congruence.
    + apply cov_app. left. cbn. exact H2.
Qed.
Lemma find_complete m k w : sorted (entries m) -> ~ doubly m -> cov (left_inf m) (right_inf m) (entries m) k w -> internal_find m k <> None.
Proof.
  destruct m as [l f r]. rewrite internal_find_search. unfold doubly. cbn [entries left_inf right_inf]. intros Hs Hd Hc. destruct r; [|apply (search_complete _ _ _ w); auto].
  destruct (last_cases l) as [->|(t & y & ->)]; [destruct Hc|]. rewrite app_length. cbn [length]. replace (length t + 1 - 1)%nat with (length t) by lia.
  rewrite nth_mid, firstn_len. rewrite sorted_app in Hs. destruct (negb (k <? m_start y)) eqn:E; [discriminate|].
  apply negb_false_iff, Z.ltb_lt in E. apply cov_app in Hc as [Hc|Hc]; [apply (search_complete _ _ _ w); [tauto|exact Hc]|].
  exfalso. cbn in Hc. destruct Hc as [(_ & [H|H] & _)|[]]; [|lia]. apply andb_true_iff in H as (-> & H). apply is_nil_true in H. subst t. apply Hd. auto.
Qed.
Lemma at_cov m k w : sorted (entries m) -> ~ doubly m -> (at_key m k = Some w <-> cov (left_inf m) (right_inf m) (entries m) k w).
Proof.
  intros Hs Hd. unfold at_key. split.
  - destruct (internal_find m k) as [i|] eqn:E; [|discriminate]. destruct (find_sound m k i Hs E) as (x & Hx & Hc). rewrite Hx. intros H. injection H as <-. exact Hc.
  - intros Hc. destruct (internal_find m k) as [i|] eqn:E; [|exfalso; exact (find_complete m k w Hs Hd Hc E)].
    destruct (find_sound m k i Hs E) as (x & Hx & Hc2). rewrite Hx. f_equal. exact (cov_unique _ _ _ _ _ _ Hs Hc2 Hc).
Qed.

Lemma doubly_constant m g : good m g -> doubly m -> constant g.
Proof.
  intros (Hwf & Hg) (H1 & H2 & H3). rewrite H1, H2 in Hg. destruct (entries m) as [|x [|]]; try discriminate. exists (second x). intros k. apply Hg. cbn. auto 6.
Qed.
Lemma good_lookup m g k : good m g -> ~ constant g -> at_key m k = g k /\ contains m k = match g k with Some _ => true | None => false end.
Proof.
  intros HG Hc. assert (Hd : ~ doubly m) by (intros H; exact (Hc (doubly_constant m g HG H))). destruct HG as ((Hs & _) & Hg).
  assert (E : at_key m k = g k).
  { destruct (g k) as [w|] eqn:E; [apply at_cov, Hg; auto|]. destruct (at_key m k) as [w|] eqn:E2; [|reflexivity].
    apply at_cov in E2; auto. apply Hg in E2. congruence. }
  split; [exact E|]. rewrite contains_find, <- E. unfold at_key. destruct (internal_find m k) as [i|] eqn:Ef; [|reflexivity].
  destruct (find_sound m k i Hs Ef) as (x & -> & _). reflexivity.
Qed.

(** Positions *)
Lemma cov_nth f r l k w : cov f r l k w <-> exists i x, nth_error l i = Some x /\
  ((m_start x <= k \/ (f = true /\ i = O)) /\ (k < m_end x \/ (r = true /\ S i = length l))) /\ second x = w.
Proof.
  revert f. induction l as [|y t IH]; intros f; cbn [cov].
  - split; [tauto|]. intros (i & x & H & _). destruct i; discriminate.
  - rewrite IH. split.
    + intros [(H1 & H2 & H3)|(i & x & H1 & (H2 & H3) & H4)].
      * exists O, y. split; [reflexivity|]. split; [|auto]. split; [destruct H2; auto|]. destruct H3 as [H3|(H3 & ->)]; auto.
      * exists (S i), x. split; [exact H1|]. split; [|auto]. split; [destruct H2 as [H2|(H2 & _)]; [auto|discriminate]|]. destruct H3 as [H3|(H3 & H5)]; [auto|]. right. cbn. auto.
    + intros ([|i] & x & H1 & (H2 & H3) & H4).
      * injection H1 as <-. left. split; [auto|]. split; [destruct H2 as [?|(? & _)]; auto|]. destruct H3 as [H3|(H3 & H5)]; [auto|]. right. split; [auto|]. destruct t; [auto|discriminate].
      * right. exists i, x. split; [exact H1|]. split; [|auto]. split; [destruct H2 as [H2|(_ & H2)]; [auto|discriminate]|]. destruct H3 as [H3|(H3 & H5)]; [auto|]. right. cbn in H5. auto.
Qed.
Lemma good_represents m g : good m g -> represents m g.
Proof.
  intros (_ & Hg) k w. rewrite <- Hg, cov_nth. split; intros (i & x & H1 & H2 & H3); exists i, x; (split; [auto|]).
  - split; [|auto]. unfold extent. rewrite H1. exact H2.
  - split; [|auto]. unfold extent in H2. rewrite H1 in H2. exact H2.
Qed.
Lemma nth_in_split l i x : nth_error l i = Some x -> l = firstn i l ++ x :: skipn (S i) l.
Proof. revert l. induction i as [|i IH]; intros [|y t] H; try discriminate; cbn in *; [congruence|]. f_equal. apply IH, H. Qed.
Lemma good_sorted m g : good m g -> sorted_disjoint m.
Proof.
  intros ((Hs & _) & _). split.
  - intros i x H. apply (sorted_in _ _ Hs). apply nth_error_In in H. exact H.
  - intros i j x y Hij Hx Hy. rewrite (nth_in_split _ _ _ Hx), sorted_app in Hs. destruct Hs as (_ & Hs & _). cbn in Hs. destruct Hs as (_ & Hs & _).
    rewrite Forall_forall in Hs. apply Hs. rewrite (nth_in_split _ _ _ Hx) in Hy. rewrite nth_error_app2 in Hy by (rewrite firstn_length; lia).
    assert (Hl : (i < length (entries m))%nat) by (apply nth_error_Some; congruence).
    rewrite firstn_length, Nat.min_l in Hy by lia. destruct (j - i)%nat as [|d] eqn:E; [lia|]. cbn [nth_error] in Hy. apply nth_error_In in Hy. exact Hy.
Qed.
Lemma iter_contains_ok m i k : ~ doubly m -> (i < length (entries m))%nat -> sorted (entries m) -> exists b, iter_contains m i k = Some b /\ (b = true <-> extent m i k).
Proof.
  intros Hd Hi Hs. unfold iter_contains, extent. destruct (nth_error (entries m) i) as [x|] eqn:Ex; [|apply nth_error_None in Ex; lia]. cbn [obind].
  pose proof (sorted_in _ _ Hs (nth_error_In _ _ Ex)) as Hle.
  eexists. split; [reflexivity|]. unfold doubly in Hd. destruct (right_inf m) eqn:Er; destruct (left_inf m) eqn:El; cbn [andb];
    repeat match goal with |- context [(i =? ?n)%nat] => destruct (Nat.eqb_spec i n) end;
    rewrite ?andb_true_iff, ?negb_true_iff, ?Z.ltb_ge, ?Z.ltb_lt; try (exfalso; apply Hd; repeat split; auto; lia); intuition (try discriminate; lia).
Qed.
End Map.
