(** The listing of the set in increasing order; positions in it. *)
From Coq Require Import Permutation.
From Verif Require Import Prelude ExtModel ExtSpec ExtProofs ExtProofs2 ExtProofs3.
Local Arguments Nat.ltb : simpl never.
Local Arguments Nat.eqb : simpl never.
Local Arguments Nat.leb : simpl never.
Local Arguments sm : simpl never.

Lemma sm_perm {X} (f : X -> nat) l l' : Permutation l l' -> sm f l = sm f l'.
Proof. intros H. induction H; rewrite ?sm_cons; try lia; auto. Qed.
Lemma sm_flat {X Y} (f : Y -> nat) (g : X -> list Y) l : sm f (flat_map g l) = sm (fun x => sm f (g x)) l.
Proof. induction l as [|x l IH]; [auto|]. cbn [flat_map]. rewrite sm_app, sm_cons, IH. auto. Qed.
Lemma sm_one {X} (l : list X) : sm (fun _ => 1) l = length l.
Proof. induction l as [|x l IH]; [auto|]. rewrite sm_cons, IH. auto. Qed.
Lemma increasing_incr l : (forall a b, In a l -> In b l -> length a = length b) -> increasing l <-> incr (fun x => x) l.
Proof.
  induction l as [|x l IH]; intros H; [cbn; tauto|]. cbn. rewrite IH by (intros; apply H; cbn; auto). split; intros (H1 & H2); split; auto; intros b Hb; apply lex_lexb; auto; apply H; cbn; auto.
Qed.
Lemma incr_NoDup l : incr (fun x => x) l -> NoDup l.
Proof. induction l as [|x l IH]; intros H; constructor; destruct H as (H1 & H2); auto. intros C. specialize (H1 x C). rewrite lexb_irr in H1. discriminate. Qed.

(** ** base_set sorts and removes duplicates *)
Lemma put_in x l y : In y (put x l) <-> y = x \/ In y l.
Proof.
  induction l as [|z l IH]; cbn; [intuition|]. destruct (lexb x z) eqn:E1; [cbn; intuition|]. destruct (lexb z x) eqn:E2; [cbn; rewrite IH; intuition|].
  destruct (lexb_total x z) as [C|[->|C]]; try congruence. cbn. intuition.
Qed.
Lemma put_incr x l : incr (fun x => x) l -> incr (fun x => x) (put x l).
Proof.
  induction l as [|z l IH]; intros H; [cbn; split; [intros ? []|auto]|]. destruct H as (H1 & H2). cbn. destruct (lexb x z) eqn:E1.
  - cbn. split; [|auto]. intros b [<-|Hb]; [auto|]. apply (lexb_trans _ z); auto.
  - destruct (lexb z x) eqn:E2; [|cbn; auto]. cbn. split; [|auto]. intros b Hb. apply put_in in Hb as [->|Hb]; auto.
Qed.
Lemma base_set_ok l : incr (fun x => x) (base_set l) /\ forall y, In y (base_set l) <-> In y l.
Proof.
  unfold base_set. assert (H : forall l s, incr (fun x => x) s -> incr (fun x => x) (fold_left (fun s x => put x s) l s) /\ forall y, In y (fold_left (fun s x => put x s) l s) <-> In y l \/ In y s).
  { clear. induction l as [|x l IH]; intros s Hs; [cbn; split; [auto|intros; tauto]|]. cbn [fold_left]. destruct (IH (put x s) (put_incr x s Hs)) as (I1 & I2). split; [auto|]. intros y. rewrite I2, put_in. cbn. intuition. }
  destruct (H l [] I) as (H1 & H2). split; [auto|]. intros y. rewrite H2. cbn. tauto.
Qed.

Section Listing.
Variable N : nat.
Variable rg : nat -> nat.
Variables n m : nat.
Hypothesis Hm : m < N.
Hypothesis Hn : n <= N.
Variable A : list key.
Hypothesis HA : base N A.

Lemma A_incr : incr (fun x => x) A.
Proof. destruct HA as (H1 & H2). apply increasing_incr; [|auto]. intros a b Ha Hb. rewrite !H2; auto. Qed.
Lemma A_len a : In a A -> length a = N.
Proof. apply HA. Qed.
Lemma ins_len t a : length a = N -> length (insert_at n t a) = S N.
Proof. intros H. unfold insert_at. rewrite app_length. cbn [length]. rewrite firstn_length, skipn_length. lia. Qed.
Lemma ins_at t a : length a = N -> at_ n (insert_at n t a) = t.
Proof. intros H. unfold at_, insert_at. rewrite app_nth2; rewrite firstn_length, Nat.min_l by lia; [|lia]. rewrite Nat.sub_diag. auto. Qed.
Lemma ins_strip t a : length a = N -> strip n (insert_at n t a) = a.
Proof.
  intros H. unfold strip, insert_at. rewrite firstn_app, firstn_length, Nat.min_l by lia. rewrite Nat.sub_diag, firstn_firstn, Nat.min_id, app_nil_r.
  rewrite skipn_app, firstn_length, Nat.min_l by lia. rewrite skipn_all2 by (rewrite firstn_length; lia). replace (S n - n) with 1 by lia. cbn [skipn app]. apply firstn_skipn.
Qed.
Lemma strip_ins b : length b = S N -> insert_at n (at_ n b) (strip n b) = b.
Proof.
  intros H. unfold strip, insert_at. rewrite firstn_app, firstn_length, Nat.min_l by lia. rewrite Nat.sub_diag, firstn_firstn, Nat.min_id, app_nil_r.
  rewrite skipn_app, firstn_length, Nat.min_l by lia. rewrite skipn_all2 by (rewrite firstn_length; lia). rewrite Nat.sub_diag. cbn [app skipn].
  rewrite <- (firstn_skipn n b) at 4. f_equal. assert (Hs : forall (l : key) n, n < length l -> at_ n l :: skipn (S n) l = skipn n l).
  { clear. induction l as [|x l IH]; intros [|n] H; cbn in *; try lia; auto. apply IH. lia. }
  apply Hs. lia.
Qed.
Lemma member_strip b : member A rg n m b <-> length b = S N /\ In (strip n b) A /\ at_ n b < rg (at_ m (strip n b)).
Proof.
  split.
  - intros (a & t & Ha & Ht & ->). pose proof (A_len a Ha) as L. rewrite ins_len, ins_at, ins_strip by auto. auto.
  - intros (H1 & H2 & H3). exists (strip n b), (at_ n b). rewrite strip_ins by auto. auto.
Qed.
(** The set as a list *)
Definition flat : list key := flat_map (fun a => map (fun t => insert_at n t a) (seq 0 (rg (at_ m a)))) A.
Lemma flat_in b : In b flat <-> member A rg n m b.
Proof.
  unfold flat. rewrite in_flat_map. split.
  - intros (a & Ha & H). apply in_map_iff in H as (t & <- & Ht). apply in_seq in Ht. exists a, t. split; [auto|]. split; [|auto]. unfold at_ in Ht. lia.
  - intros (a & t & Ha & Ht & ->). exists a. split; [auto|]. apply in_map_iff. exists t. split; [auto|]. apply in_seq. unfold at_. lia.
Qed.
Lemma flat_NoDup : NoDup flat.
Proof.
  unfold flat. pose proof (incr_NoDup A A_incr) as ND. pose proof A_len as AL. revert ND AL. generalize A. intros B. induction B as [|a A' IH]; intros ND AL; [constructor|]. cbn [flat_map]. inversion ND as [|? ? Hna ND']; subst.
  assert (La : length a = N) by (apply AL; cbn; auto).
  assert (H1 : NoDup (map (fun t => insert_at n t a) (seq 0 (rg (at_ m a))))).
  { apply FinFun.Injective_map_NoDup; [|apply seq_NoDup]. intros x y E. rewrite <- (ins_at x a), <- (ins_at y a), E; auto. }
  assert (H2 : NoDup (flat_map (fun a => map (fun t => insert_at n t a) (seq 0 (rg (at_ m a)))) A')) by (apply IH; auto; intros; apply AL; cbn; auto).
  assert (H3 : forall b, In b (map (fun t => insert_at n t a) (seq 0 (rg (at_ m a)))) -> ~ In b (flat_map (fun a => map (fun t => insert_at n t a) (seq 0 (rg (at_ m a)))) A')).
  { intros b Hb C. apply in_map_iff in Hb as (t & <- & _). apply in_flat_map in C as (a' & Ha' & C). apply in_map_iff in C as (t' & E & _).
    assert (Ea : a' = a) by (rewrite <- (ins_strip t' a'), E, ins_strip; auto; apply AL; cbn; auto). subst. auto. }
  clear -H1 H2 H3. revert H1 H3. generalize (map (fun t => insert_at n t a) (seq 0 (rg (at_ m a)))) as l. intros l. induction l as [|x l IH]; intros H1 H3; [exact H2|]. cbn [app]. inversion H1; subst. constructor.
  + intros C. apply in_app_or in C as [C|C]; [auto|]. apply (H3 x); cbn; auto.
  + apply IH; auto. intros b Hb. apply H3. cbn. auto.
Qed.
Variable L : list key.
Hypothesis HL : listing A rg n m L.
Lemma L_len b : In b L -> length b = S N.
Proof. intros H. apply HL, member_strip in H. apply H. Qed.
Lemma L_incr : incr (fun x => x) L.
Proof. destruct HL as (H1 & H2). apply increasing_incr; [|auto]. intros a b Ha Hb. rewrite !L_len; auto. Qed.
Lemma L_perm : Permutation L flat.
Proof. apply NoDup_Permutation; [apply incr_NoDup, L_incr|apply flat_NoDup|]. intros b. rewrite flat_in. apply HL. Qed.
Lemma L_size : length L = sm (fun a => rg (at_ m a)) A.
Proof. rewrite (Permutation_length L_perm), <- sm_one. unfold flat. rewrite sm_flat. apply sm_ext. intros a _. rewrite sm_map, sm_one, seq_length. auto. Qed.
Lemma inner_count a id s : length a = N -> length id = N -> sm (fun t => b2n (lexb (insert_at n t a) (insert_at n s id))) (seq 0 (rg (at_ m a))) = term rg n m id s a.
Proof.
  intros Ha Hid. unfold term. set (g := rg (at_ m a)).
  rewrite (sm_ext _ (fun t => if plt n a id then 1 else if same n a id then b2n (t <? s) + b2n ((t =? s) && lexb a id) else 0)).
  2:{ intros t _. unfold insert_at. rewrite lexb_app by (rewrite !firstn_length; lia). fold (plt n a id). fold (same n a id). destruct (plt n a id) eqn:P; cbn [orb b2n]; [auto|].
      destruct (same n a id) eqn:Q; cbn [andb b2n]; [|auto]. cbn [lexb]. rewrite (lexb_split n a id) by lia. rewrite P, Q. cbn [orb andb].
      destruct (Nat.ltb_spec t s), (Nat.eqb_spec t s); cbn; try lia; destruct (lexb (skipn n a) (skipn n id)); auto. }
  destruct (plt n a id) eqn:P; [rewrite (plt_same _ _ _ P), sm_one, seq_length; lia|]. destruct (same n a id); [|rewrite sm_0; auto].
  cbn [plus]. induction g as [|g IH]; [rewrite Nat.min_0_r; rewrite (proj2 (Nat.ltb_ge s 0)) by lia; auto|]. rewrite seq_S, sm_app, IH, sm_cons. unfold sm. cbn [fold_right plus].
  destruct (Nat.ltb_spec g s), (Nat.eqb_spec g s), (Nat.ltb_spec s g), (Nat.ltb_spec s (S g)); cbn [b2n andb]; try lia; destruct (lexb a id); cbn; lia.
Qed.
Lemma L_lb b : member A rg n m b -> lb L b = sm (term rg n m (strip n b) (at_ n b)) A.
Proof.
  intros Hb. apply member_strip in Hb as (H1 & H2 & H3). rewrite lb_cnt by apply L_incr. unfold cnt. rewrite (sm_perm _ _ _ L_perm). unfold flat. rewrite sm_flat. apply sm_ext. intros a Ha.
  rewrite sm_map. rewrite <- (inner_count a (strip n b) (at_ n b)) by (apply A_len; auto). apply sm_ext. intros t _. rewrite strip_ins; auto.
Qed.
Lemma L_nth b : member A rg n m b -> nth_error L (lb L b) = Some b.
Proof.
  intros Hb. apply HL in Hb. pose proof (find_key_spec L b L_incr) as F. destruct (find_key L b) as [j|]; [|contradiction]. destruct F as (<- & F). exact F.
Qed.
Lemma rank_nth b i : member A rg n m b -> sm (term rg n m (strip n b) (at_ n b)) A = i -> nth_error L i = Some b.
Proof. intros Hb <-. rewrite <- L_lb by auto. apply L_nth, Hb. Qed.
Lemma nth_rank b i : nth_error L i = Some b -> sm (term rg n m (strip n b) (at_ n b)) A = i.
Proof.
  intros H. assert (Hb : member A rg n m b) by (apply HL; eapply nth_error_In; eauto). rewrite <- L_lb by auto. pose proof (L_nth b Hb) as H'.
  destruct (Nat.lt_trichotomy (lb L b) i) as [C|[C|C]]; [|exact C|].
  - pose proof (incr_nth L _ _ _ _ L_incr H' H C) as X. rewrite lexb_irr in X. discriminate.
  - pose proof (incr_nth L _ _ _ _ L_incr H H' C) as X. rewrite lexb_irr in X. discriminate.
Qed.
End Listing.

Lemma listing_exists N rg n m A : m < N -> n <= N -> base N A -> exists L, listing A rg n m L.
Proof.
  intros Hm Hn HA. destruct (base_set_ok (flat rg n m A)) as (H1 & H2). exists (base_set (flat rg n m A)). split.
  - apply increasing_incr; [|auto]. intros a b Ha Hb. apply H2 in Ha, Hb. apply (flat_in N rg n m Hm Hn) in Ha, Hb. apply (member_strip N rg n m Hm Hn A HA) in Ha, Hb. destruct Ha, Hb. lia.
  - intros b. rewrite H2. apply (flat_in N rg n m Hm Hn).
Qed.
