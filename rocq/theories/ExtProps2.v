(** C26: searches for bounds and moves of the iterators of ext_range_array_enum. *)
From Verif Require Import Prelude ExtModel ExtModel2 ExtSpec ExtSpec2 ExtProofs ExtProofs2 ExtProofs3 ExtProofs4 ExtProofs9 ExtProps.

(** The place of a bound is unique *)
Lemma lb_first L i : increasing L -> (forall b, In b L -> length b = length i) -> first_from L i (lb L i).
Proof.
  intros HL Hl. split; [apply lb_le|]. intros j b Hb. assert (Hin : In b L) by (eapply nth_error_In; eauto). rewrite <- (lex_lexb b i) by auto.
  assert (HI : incr (fun x => x) L) by (apply increasing_incr; [intros a c Ha Hc; rewrite (Hl a Ha), (Hl c Hc); auto|auto]). split.
  - intros C. apply (lb_before L). apply (nth_error_In _ j). etransitivity; [|exact Hb]. clear -C. revert j C. generalize (lb L i). induction L as [|x l IH]; intros k j D; [destruct k, j; reflexivity|]. destruct k; [lia|]. destruct j; [reflexivity|]. cbn. apply IH. lia.
  - intros C. destruct (Nat.lt_ge_cases j (lb L i)) as [D|D]; [auto|]. exfalso. assert (X : In b (skipn (lb L i) L)).
    { apply (nth_error_In _ (j - lb L i)). etransitivity; [|exact Hb]. clear -D. revert j D. generalize (lb L i). induction L as [|x l IH]; intros k j D; [destruct k, j; cbn; try reflexivity; destruct (j - k); reflexivity|]. destruct k; [rewrite Nat.sub_0_r; reflexivity|]. destruct j; [lia|]. cbn. apply IH. lia. }
    apply lb_after in X; [congruence|auto].
Qed.

(** lower_bound(i) points to the first element not less than i, or is end(); all ranges of stored arrays are positive, and,
    when the value is inserted at or before the number it depends on and this is not the last one, some stored array is not
    less than the given one *)
Theorem C26_lower_bound_partial : forall N rg n m l L E, m < N -> n <= N -> (forall a, In a l -> length a = N) -> l <> [] -> listing l rg n m L -> enumerate rg n m l = Some E ->
  (forall a, In a l -> 0 < rg (nth m a 0)) -> forall i, length i = S N ->
  (m < n \/ S m = N \/ exists a, In a l /\ ~ lex a (firstn n i ++ skipn (S n) i)) ->
  exists p, lower_bound N rg n m E i = Some p /\ first_from L i p.
Proof.
  intros N rg n m l L E Hm Hn Hl Hne HL HE Hpos i Hi Hsafe. pose proof (enumerate_ok N rg n m l E Hm Hn Hl Hne HE) as T. pose proof (base_ok N l Hl) as HA. destruct (base_set_ok l) as (H1 & H2).
  apply listing_set in HL. set (A := base_set l) in *.
  assert (Ls : length (strip n i) = N) by (unfold strip; rewrite app_length, firstn_length, skipn_length; lia).
  exists (lb L i). split.
  - unfold lower_bound. rewrite (lower_ok N rg n m Hm Hn A HA H1 (proj2 HA)) with (L := L); auto.
    + rewrite (strip_ins N n m Hm Hn) by auto. reflexivity.
    + intros a Ha. apply Hpos, H2, Ha.
    + intros C. destruct l as [|a l]; [auto|]. assert (X : In a A) by (apply H2; left; auto). rewrite C in X. destruct X.
    + destruct Hsafe as [X|[X|(a & Ha & X)]]; [auto|auto|]. right. right. exists a. split; [apply H2, Ha|]. destruct (lexb a (strip n i)) eqn:C; [|auto]. apply lex_lexb in C; [|rewrite Ls; auto]. contradiction.
  - apply lb_first; [apply HL|]. intros b Hb. rewrite Hi. apply (L_len N rg n m Hm Hn A HA L HL b Hb).
Qed.
Print Assumptions C26_lower_bound_partial.

(** upper_bound(i) points to the first element greater than i, or is end() *)
Lemma lex_next b i N : length b = S N -> length i = S N -> lex b (set N (S (at_ N i)) i) <-> lex b i \/ b = i.
Proof.
  revert b i. induction N as [|N IH]; intros b i Hb Hi.
  - destruct b as [|x [|? ?]]; try discriminate. destruct i as [|y [|? ?]]; try discriminate. cbn. split.
    + intros X. inversion X; subst; [|match goal with H : lex [] [] |- _ => inversion H end]. destruct (Nat.eq_dec x y) as [->|]; [auto|]. left. constructor; [lia|auto].
    + intros [X|X]; [inversion X; subst; [constructor; [lia|auto]|match goal with H : lex [] [] |- _ => inversion H end]|]. injection X as ->. constructor; [lia|auto].
  - destruct b as [|x b]; [discriminate|]. destruct i as [|y i]; [discriminate|]. cbn in Hb, Hi. injection Hb as Hb. injection Hi as Hi. cbn [set]. change (at_ (S N) (y :: i)) with (at_ N i). specialize (IH b i Hb Hi). split.
    + intros X. inversion X; subst; [left; constructor; [auto|congruence]|]. apply IH in H0 as [Y|Y]; [left; apply lex_tail, Y|right; congruence].
    + intros [X|X].
      * inversion X; subst; [constructor; [auto|rewrite set_len; auto]|]. apply lex_tail, IH. auto.
      * injection X as -> X. apply lex_tail, IH. auto.
Qed.
Theorem C26_upper_bound_partial : forall N rg n m l L E, m < N -> n <= N -> (forall a, In a l -> length a = N) -> l <> [] -> listing l rg n m L -> enumerate rg n m l = Some E ->
  (forall a, In a l -> 0 < rg (nth m a 0)) -> forall i, length i = S N ->
  (m < n \/ S m = N \/ exists a, In a l /\ ~ lex a (firstn n (set N (S (nth N i 0)) i) ++ skipn (S n) (set N (S (nth N i 0)) i))) ->
  exists p, upper_bound N rg n m E i = Some p /\ first_after L i p.
Proof.
  intros N rg n m l L E Hm Hn Hl Hne HL HE Hpos i Hi Hsafe. unfold upper_bound.
  destruct (C26_lower_bound_partial N rg n m l L E Hm Hn Hl Hne HL HE Hpos (set N (S (at_ N i)) i)) as (p & Hp & P1 & P2); [rewrite set_len; auto|exact Hsafe|].
  exists p. split; [auto|]. split; [auto|]. intros j b Hb. rewrite P2 by eauto. apply lex_next; [|auto]. apply nth_error_In in Hb. apply listing_set in HL. apply (L_len N rg n m Hm Hn _ (base_ok N l Hl) L HL b Hb).
Qed.
Print Assumptions C26_upper_bound_partial.

(** find of an array and of a number *)
Theorem C26_find : forall N rg n m l L E, m < N -> n <= N -> (forall a, In a l -> length a = N) -> l <> [] -> listing l rg n m L -> enumerate rg n m l = Some E ->
  (forall b, length b = S N -> exists p, find_array N rg n m E b = Some p /\ (In b L -> nth_error L p = Some b) /\ (~ In b L -> p = length L)) /\
  forall i, find_number E i = if i <? length L then i else length L.
Proof.
  intros N rg n m l L E Hm Hn Hl Hne HL HE. split.
  - intros b Hb. pose proof (C26_arrays_contains N rg n m l E Hm Hn Hl Hne HE b Hb) as C. unfold find_array. destruct (contains rg n m E b).
    + assert (Hin : In b L) by (apply HL, C; auto). apply In_nth_error in Hin as (p & Hp). exists p. split; [apply (C26_number N rg n m l L E); auto|]. split; [auto|]. intros X. destruct X. eapply nth_error_In; eauto.
    + exists (m_size E). split; [auto|]. split; [|intros _; apply (C26_arrays_size N rg n m l L E); auto]. intros X. apply HL, C in X. discriminate.
  - intros i. unfold find_number. rewrite (C26_arrays_size N rg n m l L E); auto.
Qed.
Print Assumptions C26_find.

(** The comparisons ==, <, >, <= of iterators and the moves +=, -- agree with the order of the elements *)
Theorem C26_moves : forall N rg n m l L E, m < N -> n <= N -> (forall a, In a l -> length a = N) -> l <> [] -> listing l rg n m L -> enumerate rg n m l = Some E ->
  forall p q a b, reverse N rg n m E p = Some a -> reverse N rg n m E q = Some b ->
  (it_eq p q = true <-> a = b) /\ (it_lt p q = true <-> lex a b) /\ (it_gt p q = true <-> lex b a) /\ (it_le p q = true <-> lex a b \/ a = b) /\
  (forall k, reverse N rg n m E (it_plus p k) = nth_error L (p + k)) /\ (0 < p -> reverse N rg n m E (it_prev p) = nth_error L (p - 1)).
Proof.
  intros N rg n m l L E Hm Hn Hl Hne HL HE p q a b Hp Hq. pose proof (C26_at N rg n m l L E Hm Hn Hl Hne HL HE) as At. rewrite At in Hp, Hq.
  pose proof (listing_set _ _ _ _ _ HL) as HL'. pose proof (L_incr N rg n m Hm Hn _ (base_ok N l Hl) L HL') as HI. pose proof (L_len N rg n m Hm Hn _ (base_ok N l Hl) L HL') as LN.
  assert (La : length a = S N) by (apply LN; eapply nth_error_In; eauto). assert (Lb : length b = S N) by (apply LN; eapply nth_error_In; eauto).
  assert (X1 : p < q -> lexb a b = true) by (intros C; eapply incr_nth; eauto). assert (X2 : q < p -> lexb b a = true) by (intros C; eapply incr_nth; eauto).
  assert (X3 : p = q -> a = b) by (intros C; subst; congruence).
  assert (Y1 : p = q <-> a = b). { split; [auto|]. intros ->. destruct (Nat.lt_trichotomy p q) as [C|[C|C]]; [|auto|]; [apply X1 in C|apply X2 in C]; rewrite lexb_irr in C; discriminate. }
  assert (Y2 : p < q <-> lex a b). { rewrite <- (lex_lexb a b) by congruence. split; [auto|]. intros C. destruct (Nat.lt_trichotomy p q) as [D|[D|D]]; [auto| |]; [apply X3 in D; subst; rewrite lexb_irr in C|apply X2, lexb_asym in D; rewrite D in C]; discriminate. }
  assert (Y3 : q < p <-> lex b a). { rewrite <- (lex_lexb b a) by congruence. split; [auto|]. intros C. destruct (Nat.lt_trichotomy p q) as [D|[D|D]]; [| |auto]; [apply X1, lexb_asym in D; rewrite D in C|apply X3 in D; subst; rewrite lexb_irr in C]; discriminate. }
  unfold it_eq, it_lt, it_gt, it_le, it_plus, it_prev. rewrite Nat.eqb_eq, !Nat.ltb_lt, Nat.leb_le. split; [auto|]. split; [auto|]. split; [auto|]. split; [rewrite <- Y1, <- Y2; lia|]. split; intros; apply At.
Qed.
Print Assumptions C26_moves.

(** Violations.  lower_bound past the last stored array reads behind the end of the stored set (ext_array_enum.inl:828-829) *)
Theorem C26_lower_bound_end_refuted : exists N rg n m l i E, m < N /\ n <= N /\ (forall a, In a l -> length a = N) /\ l <> [] /\ length i = S N /\ (forall a, In a l -> 0 < rg (nth m a 0)) /\
  enumerate rg n m l = Some E /\ lower_bound N rg n m E i = None.
Proof.
  exists 2, (fun _ => 2), 0, 0, [[0; 0]], [0; 0; 5]. eexists. repeat (split; [first [lia|reflexivity|discriminate|intros a [<-|[]]; cbn; (reflexivity || lia)|idtac]|]). vm_compute. reflexivity.
Qed.
Print Assumptions C26_lower_bound_end_refuted.
(** With an empty range the array found is not in the set: an assertion fails *)
Theorem C26_lower_bound_empty_range_refuted : exists N rg n m l i E, m < N /\ n <= N /\ (forall a, In a l -> length a = N) /\ l <> [] /\ length i = S N /\
  enumerate rg n m l = Some E /\ m_size E = 1 /\ m < n /\ lower_bound N rg n m E i = None.
Proof.
  exists 1, (fun x => match x with 0 => 1 | _ => 0 end), 1, 0, [[0]; [1]], [0; 5]. eexists. repeat (split; [first [lia|reflexivity|discriminate|intros a [<-|[<-|[]]]; cbn; (reflexivity || lia)|idtac]|]). vm_compute. reflexivity.
Qed.
Print Assumptions C26_lower_bound_empty_range_refuted.
(** -= goes forward and >= is < *)
Theorem C26_minus_refuted : exists p k, k <= p /\ it_minus p k <> p - k.
Proof. exists 3, 1. split; [lia|discriminate]. Qed.
Theorem C26_greater_equal_refuted : exists p q, it_ge p q = true /\ ~ q <= p.
Proof. exists 0, 1. split; [reflexivity|lia]. Qed.
Print Assumptions C26_minus_refuted.
Print Assumptions C26_greater_equal_refuted.

(** The hypotheses are met: positive ranges, values inserted before, at and after the number they depend on *)
Definition ex_rg2 (x : nat) : nat := match x with 0 => 2 | 1 => 1 | _ => 3 end.
Example C26_bound_hyp : (forall a, In a ex_l -> length a = 3) /\ ex_l <> [] /\ (forall a, In a ex_l -> 0 < ex_rg2 (nth 2 a 0)) /\ exists a, In a ex_l /\ ~ lex a (firstn 1 [0; 1; 2; 0] ++ skipn 2 [0; 1; 2; 0]).
Proof.
  split; [cbn; intuition subst; reflexivity|]. split; [discriminate|]. split; [cbn; intuition subst; cbn; lia|]. exists [0; 2; 1]. split; [cbn; tauto|]. cbn. intros X. apply lex_lexb in X; [discriminate|reflexivity].
Qed.
Example C26_bound_ex : match enumerate ex_rg2 1 2 ex_l with
  | Some E => (map (lower_bound 3 ex_rg2 1 2 E) [[0;0;0;0]; [0;1;1;1]; [0;1;2;0]; [0;7;7;7]; [1;0;0;3]; [1;2;0;3]; [2;0;0;0]], m_size E, upper_bound 3 ex_rg2 1 2 E [0;0;1;0])
  | None => ([], 0, None) end = ([Some 0; Some 4; Some 4; Some 4; Some 5; Some 9; Some 9], 9, Some 1).
Proof. vm_compute. reflexivity. Qed.
