From Coq Require Import String Ascii DecimalString DecimalNat Permutation.
From Verif Require Import Prelude DofModel EnumModel MpModel LcModel LcSpec.
Open Scope nat_scope.

Lemma value_to_string : forall n, option_map Nat.of_uint (NilZero.uint_of_string (to_string n)) = Some n.
Proof.
  intros n. unfold to_string. destruct (Nat.to_uint n) eqn:E; [|rewrite NilZero.usu by discriminate; cbn [option_map]; rewrite <- E, Unsigned.of_to; reflexivity..].
  rewrite NilZero.usu_nil. cbn [option_map]. rewrite <- (Unsigned.of_to n), E. reflexivity.
Qed.
Lemma to_string_inj : forall a b, to_string a = to_string b -> a = b.
Proof. intros a b E. pose proof (value_to_string a) as H. rewrite E, value_to_string in H. now injection H. Qed.
(** The part before the first underscore *)
Fixpoint before (s : string) : string := match s with EmptyString => EmptyString | String c s => if Ascii.eqb c "_"%char then EmptyString else String c (before s) end.
Lemma before_digits : forall u s, before (NilEmpty.string_of_uint u ++ String "_"%char s) = NilEmpty.string_of_uint u.
Proof. induction u; intros s; cbn; try rewrite IHu; reflexivity. Qed.
Lemma before_to_string : forall n s, before (to_string n ++ String "_"%char s) = to_string n.
Proof. intros n s. unfold to_string, NilZero.string_of_uint. destruct (Nat.to_uint n); [reflexivity|apply before_digits..]. Qed.
Lemma append_inj : forall s a b, (s ++ a = s ++ b)%string -> a = b.
Proof. induction s as [|c s IH]; intros a b E; cbn in E; [exact E|]. injection E as E. now apply IH. Qed.
Lemma append_assoc : forall a b c, ((a ++ b) ++ c = a ++ (b ++ c))%string.
Proof. induction a as [|x a IH]; intros b c; cbn; [reflexivity|]. now rewrite IH. Qed.
Lemma postfix_under : forall d, d < 4 -> exists s, postfix d = String "_"%char s.
Proof. intros d H. destruct d as [|[|[|[|d]]]]; [eexists; reflexivity..|lia]. Qed.
Lemma postfix_inj : forall d e, d < 4 -> e < 4 -> postfix d = postfix e -> d = e.
Proof. intros d e Hd He E. destruct d as [|[|[|[|d]]]]; destruct e as [|[|[|[|e]]]]; try lia; discriminate. Qed.
Lemma name_inj : forall k d k' d', d < 4 -> d' < 4 -> ("_GenEnum" ++ to_string k ++ postfix d = "_GenEnum" ++ to_string k' ++ postfix d')%string -> k = k' /\ d = d'.
Proof.
  intros k d k' d' Hd Hd' E. apply append_inj in E. destruct (postfix_under d Hd) as (s & Es). destruct (postfix_under d' Hd') as (s' & Es').
  assert (Ek : k = k') by (apply to_string_inj; rewrite <- (before_to_string k s), <- (before_to_string k' s'), <- Es, <- Es', E; reflexivity). split; [exact Ek|]. subst k'. apply append_inj in E. now apply postfix_inj.
Qed.
Lemma prefix_inj : forall k k', ("_GenEnum" ++ to_string k = "_GenEnum" ++ to_string k')%string -> k = k'.
Proof. intros k k' E. apply append_inj in E. now apply to_string_inj. Qed.
Lemma have_iff : forall names n, have names n = true <-> In n names.
Proof. intros. unfold have. rewrite existsb_exists. split; [intros (x & H & E); apply String.eqb_eq in E; now subst|intros H; exists n; split; [exact H|apply String.eqb_refl]]. Qed.
Lemma have_false : forall names n, have names n = false <-> ~ In n names.
Proof. intros. rewrite <- have_iff. destruct (have names n); intuition congruence. Qed.

Lemma generate_sound : forall names fuel num p num', generate names num fuel = Some (p, num') -> exists k, p = ("_GenEnum" ++ to_string k)%string /\ num <= k /\ num' = k + 1 /\ ~ In p names.
Proof.
  induction fuel as [|f IH]; intros num p num' E; cbn [generate] in E; [discriminate|]. destruct (have names ("_GenEnum" ++ to_string num)) eqn:H.
  - apply IH in E as (k & A & B & C & D). exists k. repeat split; try assumption. lia.
  - injection E as <- <-. exists num. repeat split; [lia|]. now apply have_false.
Qed.
Lemma generate_none : forall names fuel num, generate names num fuel = None -> forall j, j < fuel -> In ("_GenEnum" ++ to_string (num + j))%string names.
Proof.
  induction fuel as [|f IH]; intros num E j Hj; cbn [generate] in E; [lia|]. destruct (have names ("_GenEnum" ++ to_string num)) eqn:H; [|discriminate].
  destruct j as [|j]; [rewrite Nat.add_0_r; now apply have_iff|]. replace (num + S j) with (num + 1 + j) by lia. apply IH; [exact E|lia].
Qed.
Lemma generate_total : forall names num fuel, List.length names < fuel -> generate names num fuel <> None.
Proof.
  intros names num fuel Hf E. pose proof (generate_none names fuel num E) as H.
  assert (L : List.length (map (fun j => "_GenEnum" ++ to_string (num + j))%string (seq 0 fuel)) <= List.length names).
  { apply NoDup_incl_length.
    - apply FinFun.Injective_map_NoDup; [|apply seq_NoDup]. intros a b Eab. apply prefix_inj in Eab. lia.
    - intros x Hx. apply in_map_iff in Hx as (j & <- & Hj). apply in_seq in Hj. apply H. lia. }
  rewrite map_length, seq_length in L. lia.
Qed.

Definition create_step (l : list dmap) (p : string) (r : option (list string)) (d : nat) : option (list string) :=
  do names <- r; if var_mask l d then do _ <- guard (negb (have names (p ++ postfix d))); Some ((p ++ postfix d)%string :: names) else Some names.
Lemma create_none : forall l p ds, fold_left (create_step l p) ds None = None.
Proof. induction ds as [|d ds IH]; cbn; auto. Qed.
Lemma create_ok : forall l p ds names, NoDup ds -> (forall d, In d ds -> d < 4) -> (forall d, In d ds -> var_mask l d = true -> ~ In (p ++ postfix d)%string names) ->
  exists names', fold_left (create_step l p) ds (Some names) = Some names' /\ forall n, In n names' <-> In n names \/ exists d, In d ds /\ var_mask l d = true /\ n = (p ++ postfix d)%string.
Proof.
  induction ds as [|d ds IH]; intros names Hn Hd Hf; cbn [fold_left].
  - exists names. split; [reflexivity|]. intros n. split; [now left|intros [H|(d & [] & _)]; exact H].
  - inversion Hn as [|? ? Hnd Hn']; subst. unfold create_step at 2. cbn [obind]. destruct (var_mask l d) eqn:Em.
    + assert (Hh : have names (p ++ postfix d) = false) by (apply have_false, Hf; [now left|exact Em]). rewrite Hh. cbn [negb guard obind].
      destruct (IH ((p ++ postfix d)%string :: names) Hn') as (names' & E & H); [intros; apply Hd; now right| |].
      { intros e He Hme [Heq|Hin]; [|apply (Hf e); [now right|exact Hme|exact Hin]]. apply append_inj in Heq. apply postfix_inj in Heq; [subst e; contradiction|apply Hd; now left|apply Hd; now right]. }
      exists names'. split; [exact E|]. intros n. rewrite H. cbn [In]. split.
      * intros [[<-|Hin]|(e & He & Hme & ->)]; [right; exists d; auto|now left|right; exists e; auto].
      * intros [Hin|(e & [<-|He] & Hme & ->)]; [left; now right|left; now left|right; exists e; auto].
    + destruct (IH names Hn') as (names' & E & H); [intros; apply Hd; now right|intros; apply Hf; [now right|assumption]|]. exists names'. split; [exact E|]. intros n. rewrite H. split.
      * intros [Hin|(e & He & Hme & ->)]; [now left|right; exists e; cbn; auto].
      * intros [Hin|(e & [<-|He] & Hme & ->)]; [now left|congruence|right; exists e; auto].
Qed.
Lemma create_tags_ok : forall l p names, (forall d, d < 4 -> var_mask l d = true -> ~ In (p ++ postfix d)%string names) ->
  exists names', create_tags l p names = Some names' /\ forall n, In n names' <-> In n names \/ exists d, d < 4 /\ var_mask l d = true /\ n = (p ++ postfix d)%string.
Proof.
  intros l p names H. destruct (create_ok l p [0; 1; 2; 3] names) as (names' & E & K); [apply (seq_NoDup 4 0)|cbn; lia|intros d Hd; apply H; cbn in Hd; lia|].
  exists names'. split; [exact E|]. intros n. rewrite K. split; (intros [Hn|(d & Hd & Hm & En)]; [now left|right; exists d; repeat split; try assumption; cbn in *; lia]).
Qed.
Lemma create_tags_fail : forall l p names d, d < 4 -> var_mask l d = true -> In (p ++ postfix d)%string names -> create_tags l p names = None.
Proof.
  intros l p names d Hd Hm Hin. unfold create_tags. change (fold_left (create_step l p) [0; 1; 2; 3] (Some names) = None).
  assert (G : forall ds nm, In d ds -> In (p ++ postfix d)%string nm -> fold_left (create_step l p) ds (Some nm) = None).
  { induction ds as [|e ds IH]; [intros nm []|]. intros nm [->|Hds] Hnm; cbn [fold_left]; unfold create_step at 2; cbn [obind].
    - rewrite Hm. rewrite (proj2 (have_iff _ _) Hnm). cbn. apply create_none.
    - destruct (var_mask l e); [|now apply IH]. destruct (negb _); cbn [guard obind]; [|apply create_none]. apply IH; [exact Hds|now right]. }
  apply G; [cbn; lia|exact Hin].
Qed.
