(** Proofs for C56: linear solver, parameters, life of the object. *)
From Coq Require Import Reals String Ascii Permutation Lra.
From Verif Require Import Prelude RSum KinModel KinSpec KinProofs KinProofs2.
Open Scope R_scope.

(** ** The matrix of the linear solver *)
Lemma matrix_of_app : forall l l' cur, matrix_of (l ++ l') cur = matrix_of l' (matrix_of l cur).
Proof. induction l as [|c l IH]; intros l' cur; [reflexivity|]. destruct c; cbn; apply IH. Qed.

(** ** Words *)
Lemma lower_letter : forall c d, (97 <= nat_of_ascii d <= 122)%nat -> (lower_char c = d <-> same_letter c d).
Proof.
  intros c d D. unfold same_letter, lower_char.
  destruct ((65 <=? nat_of_ascii c) && (nat_of_ascii c <=? 90))%nat eqn:E.
  - apply Bool.andb_true_iff in E. rewrite !Nat.leb_le in E. split.
    + intros <-. right. rewrite nat_ascii_embedding in * by lia. lia.
    + intros [->|(_ & F)]; [lia|]. rewrite F. apply ascii_nat_embedding.
  - split; [now left|]. intros [->|(_ & F)]; [reflexivity|]. apply Bool.andb_false_iff in E. rewrite !Nat.leb_gt in E. lia.
Qed.
Fixpoint letters (t : string) : Prop :=
  match t with EmptyString => True | String d t' => (97 <= nat_of_ascii d <= 122)%nat /\ letters t' end.
Lemma lower_word : forall t s, letters t -> (lower s = t <-> same_word s t).
Proof.
  induction t as [|d t IH]; intros [|c s] L; cbn; try (split; [discriminate|tauto]); [tauto|].
  destruct L as (Ld & Lt). rewrite <- (lower_letter c d Ld), <- (IH s Lt). split; [|intros (-> & ->); reflexivity].
  intros E. injection E as -> ->. auto.
Qed.
Lemma letters_true : letters "true". Proof. cbn. lia. Qed.
Lemma letters_false : letters "false". Proof. cbn. lia. Qed.

(** ** Parameters *)
Section Param.
Variable atof : string -> R.
Variable atoi : string -> Z.
Notation setp := (set_parameter atof atoi).
Definition apply_all (hist : list (string * string)) : pstate :=
  fold_left (fun s p => snd (setp (fst p) (snd p) s)) hist p_init.

Lemma last_snoc : forall name hist n v def, last_value atof name (hist ++ [(n, v)]) def =
  if (n =? name)%string then atof v else last_value atof name hist def.
Proof.
  intros name hist. induction hist as [|(a, b) hist IH]; intros n v def; [reflexivity|]. cbn [app last_value]. apply IH.
Qed.

Lemma find_listed : forall l name, (exists t, In (name, t) l) <-> find_type l name <> None.
Proof.
  induction l as [|(q, t) l IH]; intros name; cbn.
  - split; [intros (t & [])|congruence].
  - destruct (String.eqb_spec name q) as [->|D].
    + split; [congruence|]. intros _. exists t. now left.
    + rewrite <- IH. split.
      * intros (t' & [E|I]); [congruence|eauto].
      * intros (t' & I). eauto.
Qed.

Definition bool_value (val : string) : Z := if (lower val =? "true")%string then 1%Z else if (lower val =? "false")%string then 0%Z else atoi val.
Lemma bool_truth : forall val, truth atoi val (negb (bool_value val =? 0)%Z).
Proof.
  intros val. unfold truth, bool_value. rewrite <- !(lower_word "true" val letters_true), <- !(lower_word "false" val letters_false).
  destruct (String.eqb_spec (lower val) "true") as [E|E]; [left; auto|].
  destruct (String.eqb_spec (lower val) "false") as [F|F]; [right; left; auto|]. right; right. auto.
Qed.
Lemma setp_bool : forall name val s, find_type prms name = Some PBOOLEAN ->
  setp name val s = set_integral name (bool_value val) s.
Proof.
  intros name val s E. unfold set_parameter. rewrite E. unfold bool_value.
  destruct (lower val =? "true")%string; [reflexivity|]. now destruct (lower val =? "false")%string.
Qed.

(** the effect of one call on the remembered values *)
Lemma remembered : forall name val s, let s' := snd (setp name val s) in
  p_gamma s' = (if (name =? "EtaGamma")%string then atof val else p_gamma s) /\
  p_alpha s' = (if (name =? "EtaAlpha")%string then atof val else p_alpha s) /\
  p_wmin s' = (if (name =? "ResMonWmin")%string then atof val else p_wmin s) /\
  p_wmax s' = (if (name =? "ResMonWmax")%string then atof val else p_wmax s).
Proof.
  intros name val s s'. subst s'.
  destruct (find_type prms name) as [t|] eqn:E.
  - assert (I : exists t, In (name, t) prms) by (apply find_listed; congruence). destruct I as (t' & I).
    cbn [prms In] in I.
    repeat (destruct I as [I|I]; [injection I as <- <-;
      (rewrite setp_bool by reflexivity; repeat split; reflexivity) ||
      (cbn ; repeat split; reflexivity) ||
      (cbn -[Z.ltb orb]; destruct ((atoi val <? 1) || (3 <? atoi val))%Z%bool; repeat split; reflexivity) ||
      (cbn ; destruct (Rlt_dec 1 (atof val)); [|destruct (Rlt_dec (atof val) 0)]; repeat split; reflexivity)|]).
    destruct I.
  - assert (N : forall q t, In (q, t) prms -> name <> q).
    { intros q t I ->. assert (find_type prms q <> None) by (apply find_listed; eauto). congruence. }
    unfold set_parameter. rewrite E. cbn [snd].
    destruct (String.eqb_spec name "EtaGamma") as [X|_]; [exfalso; apply (N "EtaGamma"%string PREAL); [cbn; tauto|exact X]|].
    destruct (String.eqb_spec name "EtaAlpha") as [X|_]; [exfalso; apply (N "EtaAlpha"%string PREAL); [cbn; tauto|exact X]|].
    destruct (String.eqb_spec name "ResMonWmin") as [X|_]; [exfalso; apply (N "ResMonWmin"%string PREAL); [cbn; tauto|exact X]|].
    destruct (String.eqb_spec name "ResMonWmax") as [X|_]; [exfalso; apply (N "ResMonWmax"%string PREAL); [cbn; tauto|exact X]|].
    auto.
Qed.
Lemma apply_values : forall hist, let s := apply_all hist in
  p_gamma s = last_value atof "EtaGamma" hist (9 / 10) /\ p_alpha s = last_value atof "EtaAlpha" hist 2 /\
  p_wmin s = last_value atof "ResMonWmin" hist (1 / 100000) /\ p_wmax s = last_value atof "ResMonWmax" hist (9 / 10).
Proof.
  intros hist. induction hist as [|(n, v) hist IH] using rev_ind; [cbn; auto|]. cbv zeta in *.
  unfold apply_all in *. rewrite fold_left_app. cbn [fold_left fst snd].
  destruct (remembered n v (fold_left (fun s p => snd (setp (fst p) (snd p) s)) hist p_init)) as (E1 & E2 & E3 & E4).
  rewrite E1, E2, E3, E4, !last_snoc. destruct IH as (-> & -> & -> & ->). auto.
Qed.

Theorem param_ok : forall hist name val, let s := apply_all hist in let r := setp name val s in
  (fst r = true <-> (exists t, In (name, t) available) /\ admissible atof atoi name val) /\
  (fst r = true -> exists c, sets atof atoi hist name val c /\ p_calls (snd r) = p_calls s ++ [c]) /\
  (fst r = false -> p_calls (snd r) = p_calls s).
Proof.
  intros hist name val s r. destruct (apply_values hist) as (G & Al & Wn & Wx). fold s in G, Al, Wn, Wx.
  subst r. destruct (find_type prms name) as [t|] eqn:E.
  2:{ unfold set_parameter. rewrite E. cbn [fst snd]. split; [|split; [discriminate|reflexivity]].
      split; [discriminate|]. intros (K & _). exfalso. change available with prms in K. apply find_listed in K. congruence. }
  assert (I : exists t, In (name, t) prms) by (apply find_listed; congruence).
  assert (Li : (exists t, In (name, t) available) <-> True) by (change available with prms; tauto).
  rewrite Li. clear Li E t. destruct I as (t & I). cbn [prms In] in I.
  assert (Tr : forall b, truth atoi val b -> exists b0, truth atoi val b0 /\ negb b0 = negb b) by (intros b T; eauto).
  pose proof (bool_truth val) as Bt.
  repeat (destruct I as [I|I]; [injection I as <- <-;
    first
    [ rewrite setp_bool by reflexivity; cbn -[bool_value Z.eqb sets truth]; split;
        [split; [intros _; split; [exact Logic.I|split; discriminate]|reflexivity]|];
        split; [|discriminate]; intros _; eexists; split; [|reflexivity];
        unfold sets; cbv zeta;
        replace (bool_value val =? 0)%Z with (negb (negb (bool_value val =? 0)%Z)) by apply Bool.negb_involutive;
        repeat ((left; split; [reflexivity|]; eexists; split; [exact Bt|]; reflexivity) || right)
    | idtac ]|]); try destruct I.
  all: match goal with
  | |- context [setp "EtaForm"%string] =>
      cbn -[Z.ltb orb sets]; destruct ((atoi val <? 1) || (3 <? atoi val))%Z%bool eqn:Q; cbn [fst snd];
      [ split; [|split; [discriminate|reflexivity]]; split; [discriminate|]; intros (_ & _ & K);
        specialize (K eq_refl); apply Bool.orb_true_iff in Q; rewrite !Z.ltb_lt in Q; lia
      | split; [|split; [|discriminate]];
        [ split; [|reflexivity]; intros _; split; [exact Logic.I|]; split; [discriminate|]; intros _;
          apply Bool.orb_false_iff in Q; rewrite !Z.ltb_ge in Q; lia
        | intros _; eexists; split; [|reflexivity]; unfold sets; cbv zeta; tauto ] ]
  | |- context [setp "DampingAA"%string] =>
      cbn -[sets]; destruct (Rlt_dec 1 (atof val)) as [Q|Q]; cbn [fst snd];
      [ split; [|split; [discriminate|reflexivity]]; split; [discriminate|]; intros (_ & K & _);
        specialize (K eq_refl); lra |];
      destruct (Rlt_dec (atof val) 0) as [Q'|Q']; cbn [fst snd];
      [ split; [|split; [discriminate|reflexivity]]; split; [discriminate|]; intros (_ & K & _);
        specialize (K eq_refl); lra |];
      split; [|split; [|discriminate]];
        [ split; [|reflexivity]; intros _; split; [exact Logic.I|]; split; [intros _; lra|discriminate]
        | intros _; eexists; split; [|reflexivity]; unfold sets; cbv zeta; tauto ]
  | |- _ =>
      cbn -[sets]; split;
        [split; [intros _; split; [exact Logic.I|split; discriminate]|reflexivity]|];
      split; [|discriminate]; intros _; eexists; split; [|reflexivity];
      unfold sets; cbv zeta; rewrite ?last_snoc; cbn [String.eqb Ascii.eqb Bool.eqb]; rewrite <- ?G, <- ?Al, <- ?Wn, <- ?Wx; tauto
  end.
Qed.
End Param.

(** ** Life of the object *)
Open Scope nat_scope.
Definition opt (p : option nat) : list nat := match p with Some q => [q] | None => [] end.
Definition owned (o : sns) : list nat := opt (o_kin o) ++ opt (o_ls o) ++ opt (o_mat o) ++ opt (o_x o) ++ opt (o_scale o).
Definition holds (L : list nat) (m : heap) : Prop :=
  NoDup L /\ (forall p, In p (h_alive m) <-> In p L) /\ (forall p, In p L -> p < h_next m).

Lemma alive_in : forall p m, alive p m = true <-> In p (h_alive m).
Proof.
  intros p m. unfold alive. rewrite existsb_exists. split.
  - intros (q & I & E). apply Nat.eqb_eq in E. now subst.
  - intros I. exists p. split; [exact I|apply Nat.eqb_refl].
Qed.

Lemma release_ok : forall L1 L2 p m, holds (L1 ++ opt p ++ L2) m ->
  exists m', release p m = Some m' /\ holds (L1 ++ L2) m' /\ h_next m' = h_next m /\ h_size m' = h_size m /\ h_ref m' = h_ref m.
Proof.
  intros L1 L2 [q|] m (N & A & B); cbn [opt app] in *.
  - assert (I : In q (h_alive m)) by (apply A; apply in_or_app; right; now left).
    unfold release. replace (alive q m) with true by (symmetry; now apply alive_in).
    eexists. split; [reflexivity|]. repeat split; cbn.
    + now apply NoDup_remove_1 in N.
    + intros J. apply filter_In in J. destruct J as (J & D). apply A in J. apply in_app_or in J. apply in_or_app.
      destruct J as [J|[J|J]]; auto. subst. rewrite Nat.eqb_refl in D. discriminate.
    + intros J. apply filter_In. split.
      * apply A. apply in_app_or in J. apply in_or_app. destruct J; [left|right; right]; assumption.
      * apply NoDup_remove_2 in N. destruct (Nat.eqb_spec p q) as [->|]; [contradiction|reflexivity].
    + intros p J. apply B. apply in_app_or in J. apply in_or_app. destruct J; [left|right; right]; assumption.
  - exists m. split; [reflexivity|]. split; [repeat split; auto; apply A|auto].
Qed.
Lemma alloc_ok : forall L1 L2 n m, holds (L1 ++ L2) m ->
  holds (L1 ++ [h_next m] ++ L2) (snd (alloc n m)).
Proof.
  intros L1 L2 n m (N & A & B). cbn. repeat split.
  - apply (Permutation_NoDup (l := h_next m :: L1 ++ L2)); [apply Permutation_middle|]. constructor; [|exact N].
    intros I. specialize (B _ I). lia.
  - cbn. intros [<-|I]; [apply in_or_app; right; now left|]. apply A in I. apply in_app_or in I. apply in_or_app.
    destruct I; [left|right; right]; assumption.
  - cbn. intros I. apply in_app_or in I. destruct I as [I|[<-|I]]; [right; apply A; apply in_or_app; auto|now left|right; apply A; apply in_or_app; auto].
  - cbn. intros p I. apply in_app_or in I. destruct I as [I|[<-|I]]; [|lia|]; (assert (p < h_next m) by (apply B; apply in_or_app; auto); lia).
Qed.

(** [ns] are the sizes of the vectors given so far *)
Record Inv (ns : list nat) (inited stale : bool) (st : sns * heap) : Prop := {
  inv_own : holds (owned (fst st)) (snd st);
  inv_kin : o_kin (fst st) <> None;
  inv_ref : forall k l a, o_kin (fst st) = Some k -> h_ref (snd st) k = Some (l, a) ->
     inited = true /\ o_x (fst st) <> None /\ o_scale (fst st) <> None /\ (o_ls (fst st) <> None /\ o_mat (fst st) <> None) /\
     (stale = false -> o_ls (fst st) = Some l /\ o_mat (fst st) = Some a);
  inv_x : forall x, o_x (fst st) = Some x -> In (h_size (snd st) x) ns;
  inv_scale : forall x, o_scale (fst st) = Some x -> In (h_size (snd st) x) ns }.

Lemma in_owned : forall o p, In p (owned o) <->
  o_kin o = Some p \/ o_ls o = Some p \/ o_mat o = Some p \/ o_x o = Some p \/ o_scale o = Some p.
Proof.
  intros o p. unfold owned. rewrite !in_app_iff.
  assert (K : forall q, In p (opt q) <-> q = Some p).
  { intros [q|]; cbn; split; try tauto; try discriminate; [intros [->|[]]; reflexivity|intros E; injection E as ->; auto]. }
  now rewrite !K.
Qed.
Lemma below : forall o m p, holds (owned o) m -> In p (owned o) -> p < h_next m.
Proof. intros o m p (_ & _ & B) I. now apply B. Qed.
Lemma eqb_lt : forall p n, p < n -> (p =? n) = false.
Proof. intros. apply Nat.eqb_neq. lia. Qed.

Lemma inv_new : Inv [] false false (sns_new heap0).
Proof.
  constructor; try (intros; discriminate).
  - split; [constructor; [intros []|constructor]|]. split; [cbn; tauto|]. intros p [<-|[]]. cbn. lia.
  - cbn. intros k l a E. injection E as <-. discriminate.
Qed.

Lemma inv_matrix : forall ns i s n st, Inv ns i s st -> exists st', set_matrix n st = Some st' /\ Inv ns i i st'.
Proof.
  intros ns i s n (o, m) [Ho Hk Hr Hx Hs]. cbn [fst snd] in *. unfold set_matrix.
  destruct (release_ok (opt (o_kin o) ++ opt (o_ls o)) (opt (o_x o) ++ opt (o_scale o)) (o_mat o) m) as (m1 & E & Hm & En & Es & Er).
  { rewrite <- app_assoc. exact Ho. }
  rewrite E. cbn [obind]. pose proof (alloc_ok _ _ n m1 Hm) as Ha. destruct (alloc n m1) as (p, m2) eqn:EA.
  unfold alloc in EA. injection EA as <- <-. eexists. split; [reflexivity|].
  constructor; cbn [fst snd o_kin o_ls o_mat o_x o_scale h_ref h_size]; auto.
  - unfold owned. cbn [o_kin o_ls o_mat o_x o_scale opt]. rewrite <- app_assoc in Ha. exact Ha.
  - intros k l a Ek. rewrite eqb_lt, Er.
    + intros F. destruct (Hr k l a Ek F) as (Hi & X & Y & (Z1 & Z2) & _).
      split; [exact Hi|]. split; [exact X|]. split; [exact Y|]. split; [split; (assumption || discriminate)|]. intros Q; congruence.
    + rewrite En. apply (below o m k Ho). apply in_owned. auto.
  - intros x Ex. rewrite eqb_lt, Es; [now apply Hx|]. rewrite En. apply (below o m x Ho). apply in_owned. auto.
  - intros x Ex. rewrite eqb_lt, Es; [now apply Hs|]. rewrite En. apply (below o m x Ho). apply in_owned. tauto.
Qed.
Lemma inv_solver : forall ns i s n st, Inv ns i s st -> exists st', set_solver n st = Some st' /\ Inv ns i i st'.
Proof.
  intros ns i s n (o, m) [Ho Hk Hr Hx Hs]. cbn [fst snd] in *. unfold set_solver.
  destruct (release_ok (opt (o_kin o)) (opt (o_mat o) ++ opt (o_x o) ++ opt (o_scale o)) (o_ls o) m Ho) as (m1 & E & Hm & En & Es & Er).
  rewrite E. cbn [obind]. pose proof (alloc_ok _ _ n m1 Hm) as Ha. destruct (alloc n m1) as (p, m2) eqn:EA.
  unfold alloc in EA. injection EA as <- <-. eexists. split; [reflexivity|].
  constructor; cbn [fst snd o_kin o_ls o_mat o_x o_scale h_ref h_size]; auto.
  - intros k l a Ek. rewrite eqb_lt, Er.
    + intros F. destruct (Hr k l a Ek F) as (Hi & X & Y & (Z1 & Z2) & _).
      split; [exact Hi|]. split; [exact X|]. split; [exact Y|]. split; [split; (assumption || discriminate)|]. intros Q; congruence.
    + rewrite En. apply (below o m k Ho). apply in_owned. auto.
  - intros x Ex. rewrite eqb_lt, Es; [now apply Hx|]. rewrite En. apply (below o m x Ho). apply in_owned. auto.
  - intros x Ex. rewrite eqb_lt, Es; [now apply Hs|]. rewrite En. apply (below o m x Ho). apply in_owned. tauto.
Qed.
Lemma inv_guess : forall ns i s n st, Inv ns i s st -> exists st', set_guess n st = Some st' /\ Inv (ns ++ [n]) i s st'.
Proof.
  intros ns i s n (o, m) [Ho Hk Hr Hx Hs]. cbn [fst snd] in *. unfold set_guess.
  destruct (release_ok (opt (o_kin o) ++ opt (o_ls o) ++ opt (o_mat o)) (opt (o_scale o)) (o_x o) m) as (m1 & E & Hm & En & Es & Er).
  { rewrite <- !app_assoc. exact Ho. }
  rewrite E. cbn [obind]. pose proof (alloc_ok _ _ n m1 Hm) as Ha. destruct (alloc n m1) as (p, m2) eqn:EA.
  unfold alloc in EA. injection EA as <- <-. eexists. split; [reflexivity|].
  constructor; cbn [fst snd o_kin o_ls o_mat o_x o_scale h_ref h_size]; auto.
  - unfold owned. cbn [o_kin o_ls o_mat o_x o_scale opt]. rewrite <- !app_assoc in Ha. exact Ha.
  - intros k l a Ek. rewrite eqb_lt, Er.
    + intros F. destruct (Hr k l a Ek F) as (Hi & X & Y & (Z1 & Z2) & Z).
      split; [exact Hi|]. split; [discriminate|]. split; [exact Y|]. split; [split; assumption|]. exact Z.
    + rewrite En. apply (below o m k Ho). apply in_owned. auto.
  - intros x Ex. injection Ex as <-. rewrite Nat.eqb_refl. apply in_or_app. right. now left.
  - intros x Ex. rewrite eqb_lt, Es; [apply in_or_app; left; now apply Hs|]. rewrite En. apply (below o m x Ho). apply in_owned. tauto.
Qed.
Lemma holds_alive : forall o m p, holds (owned o) m -> In p (owned o) -> alive p m = true.
Proof. intros o m p (_ & A & _) I. apply alive_in. now apply A. Qed.

Lemma inv_init : forall ns i s st, Inv ns i s st -> exists st', init st = Some st' /\ Inv ns true false st'.
Proof.
  intros ns i s (o, m) [Ho Hk Hr Hx Hs]. cbn [fst snd] in *. unfold init.
  destruct (o_kin o) as [k|] eqn:Ek; [|congruence].
  assert (Ik : In k (owned o)) by (apply in_owned; auto).
  destruct (o_x o) as [x|] eqn:Ex.
  2:{ eexists. split; [reflexivity|]. constructor; cbn [fst snd]; auto; try congruence.
      intros k' l a E F. rewrite Ek in E. destruct (Hr k' l a E F) as (_ & X & _). congruence. }
  assert (Ix : In x (owned o)) by (apply in_owned; auto).
  rewrite (holds_alive o m k Ho Ik), (holds_alive o m x Ho Ix). cbn [andb guard obind].
  destruct (match o_scale o with Some sc => (sc, m) | None => alloc (h_size m x) m end) as (sc, m1) eqn:Esc.
  set (o1 := {| o_kin := Some k; o_ls := o_ls o; o_mat := o_mat o; o_x := Some x; o_scale := Some sc |}).
  assert (K : holds (owned o1) m1 /\ h_ref m1 k = h_ref m k /\ h_size m1 x = h_size m x /\ In (h_size m1 sc) ns).
  { destruct (o_scale o) as [sc0|] eqn:Es.
    - injection Esc as <- <-. split; [|repeat split; auto]. unfold owned in *. rewrite Ek, Ex, Es in Ho. exact Ho.
    - unfold alloc in Esc. injection Esc as <- <-. cbn [h_ref h_size].
      rewrite !eqb_lt by (apply (below o m _ Ho); assumption). rewrite Nat.eqb_refl.
      split; [|repeat split; auto].
      pose proof (alloc_ok (owned o) [] (h_size m x) m) as Ha. rewrite app_nil_r in Ha. specialize (Ha Ho).
      unfold owned in *. rewrite Ek, Ex, Es in *. cbn [o_kin o_ls o_mat o_x o_scale opt o1] in *.
      rewrite <- ?app_assoc in Ha. exact Ha. }
  destruct K as (K1 & K2 & K3 & K4).
  assert (Il : forall l, o_ls o = Some l -> In l (owned o1)) by (intros l E; apply in_owned; cbn; auto).
  assert (Ia : forall a, o_mat o = Some a -> In a (owned o1)) by (intros a E; apply in_owned; cbn; auto).
  destruct (o_ls o) as [l|] eqn:El; [destruct (o_mat o) as [a|] eqn:Ea|].
  - rewrite (holds_alive o1 m1 l K1 (Il l eq_refl)), (holds_alive o1 m1 a K1 (Ia a eq_refl)). cbn [andb guard obind].
    eexists. split; [reflexivity|]. constructor; cbn [fst snd o_kin o_ls o_mat o_x o_scale h_ref h_size o1].
    + exact K1.
    + discriminate.
    + intros k' l' a' E. injection E as <-. rewrite Nat.eqb_refl. intros E. injection E as <- <-. repeat split; congruence.
    + intros y E. injection E as <-. rewrite K3. now apply Hx.
    + intros y E. injection E as <-. exact K4.
  - eexists. split; [reflexivity|]. constructor; cbn [fst snd o_kin o_ls o_mat o_x o_scale o1].
    + exact K1.
    + discriminate.
    + intros k' l' a' E F. injection E as <-. rewrite K2 in F. destruct (Hr k l' a' eq_refl F) as (_ & _ & _ & (_ & Q) & _). congruence.
    + intros y E. injection E as <-. rewrite K3. now apply Hx.
    + intros y E. injection E as <-. exact K4.
  - eexists. split; [reflexivity|]. constructor; cbn [fst snd o_kin o_ls o_mat o_x o_scale o1].
    + exact K1.
    + discriminate.
    + intros k' l' a' E F. injection E as <-. rewrite K2 in F. destruct (Hr k l' a' eq_refl F) as (_ & _ & _ & (Q & _) & _). congruence.
    + intros y E. injection E as <-. rewrite K3. now apply Hx.
    + intros y E. injection E as <-. exact K4.
Qed.
Lemma inv_solve : forall ns i st, Inv ns i false st -> solve st = Some st.
Proof.
  intros ns i (o, m) [Ho Hk Hr Hx Hs]. cbn [fst snd] in *. unfold solve.
  destruct (o_kin o) as [k|] eqn:Ek; [|reflexivity].
  rewrite (holds_alive o m k Ho) by (apply in_owned; auto). cbn [guard obind].
  destruct (h_ref m k) as [(l, a)|] eqn:F; [|reflexivity].
  destruct (Hr k l a eq_refl F) as (_ & _ & _ & _ & Z). destruct (Z eq_refl) as (El & Ea).
  destruct (o_x o) as [x|] eqn:Ex; [|reflexivity]. destruct (o_scale o) as [sc|] eqn:Es; [|reflexivity].
  rewrite !(holds_alive o m) by (try exact Ho; apply in_owned; tauto). reflexivity.
Qed.

Fixpoint guesses (l : list op) : list nat :=
  match l with [] => [] | OGuess n :: r => n :: guesses r | _ :: r => guesses r end.
Lemma run_ok : forall l ns i s st, Inv ns i s st -> reinitialised i s l ->
  exists st', run l st = Some st' /\ exists i' s', Inv (ns ++ guesses l) i' s' st'.
Proof.
  induction l as [|c l IH]; intros ns i s st V A.
  - exists st. split; [reflexivity|]. exists i, s. cbn. now rewrite app_nil_r.
  - destruct c as [n|n|n| |]; cbn [run step guesses reinitialised] in *.
    + destruct (inv_matrix ns i s n st V) as (st' & E & V'). rewrite E. cbn [obind]. now apply (IH ns i i).
    + destruct (inv_guess ns i s n st V) as (st' & E & V'). rewrite E. cbn [obind].
      destruct (IH _ _ _ _ V' A) as (st2 & E2 & i' & s' & V2). exists st2. split; [exact E2|]. exists i', s'.
      now rewrite <- app_assoc in V2.
    + destruct (inv_solver ns i s n st V) as (st' & E & V'). rewrite E. cbn [obind]. now apply (IH ns i i).
    + destruct (inv_init ns i s st V) as (st' & E & V'). rewrite E. cbn [obind]. now apply (IH ns true false).
    + destruct A as (-> & A). rewrite (inv_solve ns i st V). cbn [obind]. now apply (IH ns i false).
Qed.
Lemma destroy_ok : forall ns i s st, Inv ns i s st -> exists m, destroy st = Some m /\ h_alive m = [].
Proof.
  intros ns i s (o, m) [Ho _ _ _ _]. cbn [fst snd] in *. unfold destroy.
  destruct (release_ok [] (opt (o_ls o) ++ opt (o_mat o) ++ opt (o_x o) ++ opt (o_scale o)) (o_kin o) m Ho) as (m1 & -> & H1 & _).
  cbn [obind].
  destruct (release_ok [] (opt (o_mat o) ++ opt (o_x o) ++ opt (o_scale o)) (o_ls o) m1 H1) as (m2 & -> & H2 & _). cbn [obind].
  destruct (release_ok [] (opt (o_x o) ++ opt (o_scale o)) (o_mat o) m2 H2) as (m3 & -> & H3 & _). cbn [obind].
  destruct (release_ok [] (opt (o_scale o)) (o_x o) m3 H3) as (m4 & -> & H4 & _). cbn [obind].
  destruct (release_ok [] [] (o_scale o) m4) as (m5 & -> & (_ & A & _) & _). { rewrite app_nil_r. exact H4. }
  exists m5. split; [reflexivity|]. destruct (h_alive m5) as [|p r]; [reflexivity|].
  exfalso. apply (A p). now left.
Qed.
