(** Insertion into a row with all positions; the diagonal; the update of a row. *)
From Verif Require Import Prelude RSum AsmModel AsmSpec AsmProofs.
From Coq Require Import Reals Sorted Permutation Lra.
Open Scope R_scope.

(** *** Positions of a sorted row *)
Lemma sorted_gap : forall l, StronglySorted lt l -> forall p k a b, (p <= k)%nat ->
  nth_error l p = Some a -> nth_error l k = Some b -> (a + (k - p) <= b)%nat.
Proof.
  induction 1 as [|x l S IH F]; intros p k a b L Ha Hb; [destruct p; discriminate|].
  destruct p, k; cbn in *; try lia.
  - injection Ha as <-. injection Hb as <-. lia.
  - injection Ha as <-. destruct l as [|y l]; [destruct k; discriminate|].
    pose proof (IH 0%nat k y b (Nat.le_0_l k) eq_refl Hb). inversion F; subst. lia.
  - apply (IH p k); auto; lia.
Qed.
Lemma lower_bound_from_ok : forall n q p e c k v, (p + n <= length q)%nat -> e = (p + n)%nat ->
  sorted q -> (p <= k < e)%nat -> nth_error q k = Some (c, v) -> lower_bound_from q p e c n = k.
Proof.
  induction n; intros q p e c k v L E S K H; [lia|]. cbn [lower_bound_from].
  destruct (nth_error q p) as [[a w]|] eqn:Ep; [|apply nth_error_None in Ep; lia].
  assert (Hp : nth_error (cols q) p = Some a) by (unfold cols; rewrite nth_error_map, Ep; reflexivity).
  assert (Hk : nth_error (cols q) k = Some c) by (unfold cols; rewrite nth_error_map, H; reflexivity).
  destruct (Nat.eq_dec p k) as [->|N].
  - rewrite Hp in Hk. injection Hk as ->. now rewrite Nat.ltb_irrefl.
  - pose proof (sorted_gap _ S p k a c ltac:(lia) Hp Hk).
    rewrite (proj2 (Nat.ltb_lt a c)) by lia. apply (IHn q (Datatypes.S p) e c k v); auto; lia.
Qed.
Lemma lower_bound_ok : forall q p e c k v, (e <= length q)%nat -> sorted q -> (p <= k < e)%nat ->
  nth_error q k = Some (c, v) -> lower_bound q p e c = k.
Proof. intros. unfold lower_bound. eapply lower_bound_from_ok; eauto; lia. Qed.

Lemma wr_cols : forall q k a v w q', nth_error q k = Some (a, w) -> wr q k (a, v) = Some q' -> cols q' = cols q.
Proof.
  induction q as [|[b x] q IH]; intros [|k] a v w q' H E; cbn in *; try discriminate.
  - injection H as -> ->. injection E as <-. reflexivity.
  - destruct (wr q k (a, v)) eqn:W; [|discriminate]. cbn in E. injection E as <-. cbn. f_equal. eapply IH; eauto.
Qed.
Lemma wr_entry : forall q k a v w q' c, nth_error q k = Some (a, w) -> wr q k (a, v) = Some q' ->
  entry q' c = entry q c + (if (a =? c)%nat then v - w else 0).
Proof.
  induction q as [|[b x] q IH]; intros [|k] a v w q' c H E; cbn in H, E; try discriminate.
  - injection H as -> ->. injection E as <-. rewrite !entry_cons. destruct (a =? c)%nat; lra.
  - destruct (wr q k (a, v)) eqn:W; [|discriminate]. cbn in E. injection E as <-. rewrite !entry_cons.
    rewrite (IH k a v w _ c H W). lra.
Qed.

Lemma template_loop : forall l q p, sorted q -> StronglySorted lt (map key l) ->
  (forall c, active l c -> exists k v, (p <= k)%nat /\ nth_error q k = Some (c, v)) ->
  exists s, each template_step l (q, p) = Ok s /\ cols (fst s) = cols q /\
    (forall c, entry (fst s) c = entry q c + adds l c).
Proof.
  induction l as [|[[il vl] act] l IH]; intros q p Sq Sl H.
  { exists (q, p). repeat split. intros c. change (adds [] c) with 0. cbn [fst]. lra. }
  cbn in Sl. inversion Sl as [|? ? Sl' Fl]; subst. rewrite Forall_forall in Fl. unfold key in Fl at 1; cbn in Fl.
  cbn [each template_step]. destruct act; cycle 1.
  { cbn [rbind]. destruct (IH q p Sq Sl') as (s & E & C & A).
    { intros c Hc. apply H. apply active_cons. now right. }
    exists s. repeat split; auto. intros c. rewrite A, adds_cons. cbn [andb]. lra. }
  destruct (H il) as (k & w & Lk & Ek). { apply active_cons. now left. }
  assert (Kl : (k < length q)%nat) by (apply nth_error_Some; congruence).
  unfold rd at 1. destruct (nth_error q p) as [[a x]|] eqn:Ep; [|apply nth_error_None in Ep; lia].
  cbn [get rbind fst].
  assert (G : (a + (k - p) <= il)%nat).
  { apply (sorted_gap (cols q) Sq p k); auto; unfold cols; rewrite nth_error_map; [now rewrite Ep|now rewrite Ek]. }
  set (ce := if (il <? a) || (length q - p <=? il - a) then length q else (p + (il - a + 1))%nat).
  assert (Hce : (k < ce <= length q)%nat).
  { unfold ce. rewrite (proj2 (Nat.ltb_ge il a)) by lia. cbn [orb].
    destruct (length q - p <=? il - a)%nat eqn:D; [lia|]. apply Nat.leb_gt in D. lia. }
  rewrite (lower_bound_ok q p ce il k w) by (auto; lia).
  rewrite (proj2 (Nat.eqb_neq k ce)) by lia. unfold rd. rewrite Ek. cbn [get rbind fst snd]. rewrite Nat.eqb_refl.
  destruct (wr_some q k (il, w + vl) Kl) as (q' & W & _). rewrite W. cbn [get rbind].
  pose proof (wr_cols _ _ _ _ _ _ Ek W) as C'.
  destruct (IH q' k) as (s & E & C & A).
  - unfold sorted. now rewrite C'.
  - exact Sl'.
  - intros c Hc. destruct (H c) as (k' & v' & L' & E'). { apply active_cons. now right. }
    assert (Fc : (il < c)%nat) by (apply Fl; now apply active_key).
    assert (Hk' : nth_error (cols q) k' = Some c) by (unfold cols; rewrite nth_error_map, E'; reflexivity).
    assert (Hk : nth_error (cols q) k = Some il) by (unfold cols; rewrite nth_error_map, Ek; reflexivity).
    assert (k <= k')%nat.
    { destruct (Nat.le_gt_cases k k') as [|Gt]; [assumption|].
      pose proof (sorted_gap _ Sq k' k c il ltac:(lia) Hk' Hk). lia. }
    rewrite <- C' in Hk'. unfold cols in Hk'. rewrite nth_error_map in Hk'.
    destruct (nth_error q' k') as [[c' v'']|] eqn:E''; [|discriminate]. cbn in Hk'. injection Hk' as ->.
    exists k', v''. split; auto.
  - exists s. split; [exact E|]. split; [congruence|]. intros c. rewrite A, adds_cons, (wr_entry _ _ _ _ _ _ c Ek W).
    cbn [andb]. destruct (il =? c)%nat; lra.
Qed.
Lemma template_insert_ok : forall l q, sorted q -> StronglySorted lt (map key l) ->
  (forall c, active l c -> In c (cols q)) ->
  exists r, template_insert l q = Ok r /\ cols r = cols q /\ (forall c, entry r c = entry q c + adds l c).
Proof.
  intros l q Sq Sl H. destruct (template_loop l q 0%nat Sq Sl) as ([r it] & E & C & A).
  - intros c Hc. apply H in Hc. apply in_map_iff in Hc as ([c' v] & E & I). cbn in E; subst.
    apply In_nth_error in I as (k & Ek). exists k, v. split; [lia|exact Ek].
  - exists r. unfold template_insert. rewrite E. cbn. auto.
Qed.

(** *** The diagonal *)
Lemma lower_bound_from_split : forall n q p e c, (p + n = length q)%nat -> e = (p + n)%nat ->
  let k := lower_bound_from q p e c n in
  (p <= k <= e)%nat /\ (forall i a v, (p <= i < k)%nat -> nth_error q i = Some (a, v) -> (a < c)%nat) /\
  (forall a v, nth_error q k = Some (a, v) -> (c <= a)%nat).
Proof.
  induction n; intros q p e c L E k; subst k; cbn [lower_bound_from].
  - subst e. repeat split; try lia. intros a v H. assert (p + 0 < length q)%nat by (apply nth_error_Some; congruence). lia.
  - destruct (nth_error q p) as [[a w]|] eqn:Ep; [|apply nth_error_None in Ep; lia].
    destruct (a <? c)%nat eqn:D.
    + apply Nat.ltb_lt in D. destruct (IHn q (S p) e c ltac:(lia) ltac:(lia)) as (B & L1 & L2).
      repeat split; try lia; auto. intros i b v Hi Hn. destruct (Nat.eq_dec i p) as [->|]; [|apply (L1 i b v); auto; lia].
      rewrite Ep in Hn. injection Hn as <- <-. exact D.
    + apply Nat.ltb_ge in D. repeat split; try lia. intros b v Hn. rewrite Ep in Hn. injection Hn as <- <-. exact D.
Qed.
Lemma nth_error_skipn0 : forall {A} (l : list A) k, skipn k l = match nth_error l k with Some x => x :: skipn (S k) l | None => [] end.
Proof. induction l; intros [|k]; cbn [skipn nth_error]; auto. rewrite IHl at 1. destruct (nth_error l k); reflexivity. Qed.
Lemma sorted_app : forall a b, StronglySorted lt a -> StronglySorted lt b -> (forall x y, In x a -> In y b -> (x < y)%nat) ->
  StronglySorted lt (a ++ b).
Proof.
  induction a; intros b Sa Sb H; [exact Sb|]. inversion Sa; subst. cbn. constructor.
  - apply IHa; auto. intros; apply H; auto. now right.
  - apply Forall_app. split; [assumption|]. apply Forall_forall. intros y I. apply H; auto. now left.
Qed.
Lemma sorted_split : forall a b, StronglySorted lt (a ++ b) -> StronglySorted lt a /\ StronglySorted lt b /\ (forall x y, In x a -> In y b -> (x < y)%nat).
Proof.
  induction a; intros b S; cbn in *; [repeat split; auto; [constructor|intros ? ? []]|].
  inversion S as [|? ? S' F]; subst. destruct (IHa _ S') as (A & B & C). apply Forall_app in F as [F1 F2].
  repeat split; auto; [constructor; auto|]. intros x y [<-|I] J; auto. rewrite Forall_forall in F2. auto.
Qed.
Lemma set_diag_ok : forall o i q, NoDup (cols q) -> (is_mtx_sorted o = true -> sorted q) ->
  (forall c, entry (set_diag o i q) c = entry q c) /\
  (forall c, In c (cols (set_diag o i q)) <-> In c (cols q) \/ (is_mtx_include_template o = false /\ c = i)) /\
  NoDup (cols (set_diag o i q)) /\ (is_mtx_sorted o = true -> sorted (set_diag o i q)).
Proof.
  intros o i q N S. unfold set_diag. destruct (is_mtx_include_template o).
  { repeat split; auto. intros [|[? _]]; [auto|discriminate]. }
  destruct (is_mtx_sorted o); cbn [negb]; cycle 1.
  - destruct (Req_EM_T (get_safe q i) 0) as [Z|Z].
    + rewrite row_set_zero by exact Z. split; [|split; [|split]].
      * intros c. rewrite row_add_entry by exact N. destruct (i =? c)%nat; lra.
      * intros c. rewrite row_add_cols. tauto.
      * now apply row_add_nodup.
      * discriminate.
    + split; [reflexivity|]. split; [|split; [exact N|discriminate]]. intros c. split; [auto|].
      intros [I|[_ ->]]; [exact I|]. destruct (in_dec Nat.eq_dec i (cols q)) as [|NI]; [assumption|].
      exfalso. apply Z. rewrite get_safe_entry by exact N. now apply entry_notin.
  - specialize (S eq_refl). set (k := lower_bound q 0 (length q) i). unfold rd.
    destruct (lower_bound_from_split (length q - 0) q 0 (length q) i ltac:(lia) ltac:(lia)) as (B & L1 & L2).
    fold (lower_bound q 0 (length q) i) in B, L1, L2. fold k in B, L1, L2.
    assert (Hlow : forall a, In a (cols (firstn k q)) -> (a < i)%nat).
    { intros a I. apply in_map_iff in I as ([a' v] & E & I). cbn in E; subst a'.
      apply In_nth_error in I as (j & Ej).
      assert (j < length (firstn k q))%nat by (apply nth_error_Some; congruence). rewrite firstn_length in H.
      apply (L1 j a v); [lia|]. rewrite <- Ej.
      rewrite <- (firstn_skipn k q) at 1. apply nth_error_app1. rewrite firstn_length. lia. }
    destruct (nth_error q k) as [[c0 v0]|] eqn:Ek.
    + specialize (L2 _ _ eq_refl). destruct (c0 =? i)%nat eqn:E0.
      * apply Nat.eqb_eq in E0; subst c0. repeat split; auto. intros [I|[_ ->]]; [exact I|].
        apply nth_error_In in Ek. apply (in_map fst) in Ek. exact Ek.
      * apply Nat.eqb_neq in E0. unfold insert_at.
        pose proof (firstn_skipn k q) as FS. assert (Sc : sorted (firstn k q ++ skipn k q)) by now rewrite FS.
        unfold sorted in Sc. rewrite cols_app in Sc. destruct (sorted_split _ _ Sc) as (S1 & S2 & S12).
        assert (Hup : forall a, In a (cols (skipn k q)) -> (i < a)%nat).
        { intros a I. rewrite (nth_error_skipn0 q k), Ek in S2, I. cbn in S2, I.
          inversion S2 as [|? ? S3 F3]; subst. destruct I as [<-|I]; [lia|].
          rewrite Forall_forall in F3. specialize (F3 _ I). lia. }
        assert (Si : sorted (firstn k q ++ (i, 0) :: skipn k q)).
        { unfold sorted. rewrite cols_app. apply sorted_app; [exact S1| |].
          - cbn. constructor; [exact S2|]. apply Forall_forall. exact Hup.
          - intros x y Ix [<-|Iy]; [now apply Hlow|]. now apply S12. }
        split; [|split; [|split; [now apply sorted_nodup|auto]]].
        -- intros c. rewrite <- FS at 3. rewrite !entry_app, entry_cons. destruct (i =? c)%nat; lra.
        -- intros c. rewrite <- FS at 3. rewrite !cols_app, !in_app_iff. cbn. fold (cols (skipn k q)). intuition.
    + apply nth_error_None in Ek. assert (firstn k q = q) by (apply firstn_all2; exact Ek). rewrite H in Hlow.
      assert (Si : sorted (q ++ [(i, 0)])).
      { unfold sorted. rewrite cols_app. apply sorted_app; [exact S|repeat constructor|].
        intros x y Ix [<-|[]]. now apply Hlow. }
      split; [|split; [|split; [now apply sorted_nodup|auto]]].
      * intros c. rewrite entry_app, entry_cons, entry_nil. destruct (i =? c)%nat; lra.
      * intros c. rewrite cols_app, in_app_iff. cbn. intuition.
Qed.
