(** Rows: sums, sorting, the three insertions. *)
From Verif Require Import Prelude RSum AsmModel AsmSpec.
From Coq Require Import Reals Sorted Permutation Lra.
Open Scope R_scope.

(** *** Sums over lists *)
Lemma lsum_app : forall a b, lsum (a ++ b) = lsum a + lsum b.
Proof. unfold lsum. induction a; intros; cbn; [lra|]. rewrite IHa. lra. Qed.
Lemma lsum_perm : forall a b, Permutation a b -> lsum a = lsum b.
Proof. induction 1; cbn; unfold lsum in *; lra. Qed.
Lemma lsum_Rsum : forall n f, lsum (map f (seq 0 n)) = Rsum n f.
Proof.
  induction n; intros; cbn [Rsum]; [reflexivity|].
  rewrite seq_S, map_app, lsum_app, IHn. cbn. lra.
Qed.
Lemma lsum_zero : forall {A} (f : A -> R) l, (forall x, In x l -> f x = 0) -> lsum (map f l) = 0.
Proof.
  intros A f l; induction l; intros H; cbn; [reflexivity|]. unfold lsum in IHl.
  rewrite IHl; [|intros; apply H; now right]. rewrite (H a) by now left. lra.
Qed.
Lemma lsum_ext : forall {A} (f g : A -> R) l, (forall x, In x l -> f x = g x) -> lsum (map f l) = lsum (map g l).
Proof. intros A f g l H. f_equal. now apply map_ext_in. Qed.
Lemma lsum_plus : forall {A} (f g : A -> R) l, lsum (map (fun x => f x + g x) l) = lsum (map f l) + lsum (map g l).
Proof. intros A f g l; induction l; cbn; unfold lsum in *; lra. Qed.

(** *** Entries *)
Lemma entry_cons : forall k x q c, entry ((k, x) :: q) c = (if (k =? c)%nat then x else 0) + entry q c.
Proof. intros. unfold entry. cbn. destruct (k =? c)%nat; cbn; unfold lsum; lra. Qed.
Lemma entry_nil : forall c, entry [] c = 0. Proof. reflexivity. Qed.
Lemma entry_app : forall a b c, entry (a ++ b) c = entry a c + entry b c.
Proof. intros. unfold entry. now rewrite filter_app, map_app, lsum_app. Qed.
Lemma entry_perm : forall a b c, Permutation a b -> entry a c = entry b c.
Proof.
  intros a b c P. induction P; cbn [entry]; try destruct x as [k x]; try destruct y as [k' y];
    rewrite ?entry_cons; try lra.
Qed.
Lemma cols_app : forall a b, cols (a ++ b) = cols a ++ cols b.
Proof. intros; apply map_app. Qed.
Lemma entry_notin : forall q c, ~ In c (cols q) -> entry q c = 0.
Proof.
  induction q as [|[k x] q IH]; intros c H; [reflexivity|]. rewrite entry_cons. cbn in H.
  destruct (k =? c)%nat eqn:E; [apply Nat.eqb_eq in E; tauto|]. rewrite IH by tauto. lra.
Qed.
Lemma get_safe_entry : forall q c, NoDup (cols q) -> get_safe q c = entry q c.
Proof.
  induction q as [|[k x] q IH]; intros c H; [reflexivity|]. cbn in H. apply NoDup_cons_iff in H as [N D].
  rewrite entry_cons. cbn. destruct (k =? c)%nat eqn:E.
  - apply Nat.eqb_eq in E; subst. rewrite entry_notin by exact N. lra.
  - rewrite IH by exact D. lra.
Qed.

(** *** operator[] *)
Lemma row_add_entry : forall q c v c', NoDup (cols q) -> entry (row_add q c v) c' = entry q c' + (if (c =? c')%nat then v else 0).
Proof.
  induction q as [|[k x] q IH]; intros c v c' H; cbn [row_add].
  - rewrite entry_cons, entry_nil. destruct (c =? c')%nat; lra.
  - cbn in H. apply NoDup_cons_iff in H as [N D]. destruct (k =? c)%nat eqn:E; rewrite !entry_cons.
    + apply Nat.eqb_eq in E; subst. destruct (c =? c')%nat; lra.
    + rewrite IH by exact D. lra.
Qed.
Lemma row_add_cols : forall q c v c', In c' (cols (row_add q c v)) <-> In c' (cols q) \/ c' = c.
Proof.
  induction q as [|[k x] q IH]; intros c v c'; cbn.
  - intuition.
  - destruct (k =? c)%nat eqn:E; cbn.
    + apply Nat.eqb_eq in E; subst. fold (cols q). intuition.
    + fold (cols q). rewrite IH. intuition.
Qed.
Lemma row_add_nodup : forall q c v, NoDup (cols q) -> NoDup (cols (row_add q c v)).
Proof.
  induction q as [|[k x] q IH]; intros c v H; cbn.
  - repeat constructor. intros [].
  - cbn in H. apply NoDup_cons_iff in H as [N D]. destruct (k =? c)%nat eqn:E; cbn; constructor; auto.
    fold (cols (row_add q c v)). rewrite row_add_cols. intros [I|I]; [auto|].
    apply Nat.eqb_neq in E. congruence.
Qed.
Lemma row_set_zero : forall q c, get_safe q c = 0 -> row_set q c 0 = row_add q c 0.
Proof.
  induction q as [|[k x] q IH]; intros c H; cbn in *.
  - repeat f_equal. lra.
  - destruct (k =? c)%nat; [repeat f_equal; lra|]. now rewrite IH.
Qed.

(** *** Sorting *)
Lemma insert_perm : forall {A} (key : A -> nat) x l, Permutation (x :: l) (insert_by key x l).
Proof.
  induction l as [|y l IH]; cbn; [reflexivity|]. destruct (key x <=? key y)%nat; [reflexivity|].
  rewrite perm_swap. now constructor.
Qed.
Lemma sort_perm : forall {A} (key : A -> nat) l, Permutation l (sort_by key l).
Proof. induction l as [|x l IH]; cbn; [reflexivity|]. rewrite <- insert_perm. now constructor. Qed.
Lemma insert_sorted : forall {A} (key : A -> nat) x l,
  ~ In (key x) (map key l) -> StronglySorted lt (map key l) -> StronglySorted lt (map key (insert_by key x l)).
Proof.
  induction l as [|y l IH]; intros N S; cbn in *.
  - repeat constructor.
  - destruct (key x <=? key y)%nat eqn:E.
    + apply Nat.leb_le in E. cbn. constructor; [exact S|]. constructor; [lia|].
      inversion S as [|? ? S' F]; subst. eapply Forall_impl; [|exact F]. cbn; intros; lia.
    + apply Nat.leb_gt in E. inversion S as [|? ? S' F]; subst. cbn. constructor.
      * apply IH; [tauto|exact S'].
      * apply Forall_forall. intros z I. apply in_map_iff in I as (w & <- & I).
        apply (Permutation_in _ (Permutation_sym (insert_perm key x l))) in I as [->|I]; [exact E|].
        rewrite Forall_forall in F. apply F. now apply in_map.
Qed.
Lemma sort_sorted : forall {A} (key : A -> nat) l, NoDup (map key l) -> StronglySorted lt (map key (sort_by key l)).
Proof.
  induction l as [|x l IH]; intros N; cbn; [constructor|]. cbn in N. apply NoDup_cons_iff in N as [N D].
  apply insert_sorted; [|auto]. intros I. apply N.
  eapply Permutation_in; [|exact I]. symmetry. apply Permutation_map, sort_perm.
Qed.
Lemma sorted_nodup : forall l, StronglySorted lt l -> NoDup l.
Proof.
  induction 1 as [|x l S IH F]; constructor; [|exact IH]. intros I. rewrite Forall_forall in F.
  specialize (F _ I). lia.
Qed.

(** *** Local entries to insert *)
Definition key (x : nat * R * bool) : nat := fst (fst x).
Definition adds (l : list (nat * R * bool)) (c : nat) : R :=
  lsum (map (fun x => if snd x && (key x =? c)%nat then snd (fst x) else 0) l).
Definition active (l : list (nat * R * bool)) (c : nat) : Prop := exists x, In x l /\ snd x = true /\ key x = c.

Lemma adds_cons : forall k v a l c, adds ((k, v, a) :: l) c = (if a && (k =? c)%nat then v else 0) + adds l c.
Proof. reflexivity. Qed.
Lemma active_cons : forall k v a l c, active ((k, v, a) :: l) c <-> (a = true /\ k = c) \/ active l c.
Proof.
  intros. unfold active. split.
  - intros (x & [<-|I] & A & K); [left; auto|right; eauto].
  - intros [[-> <-]|(x & I & A & K)]; [exists (k, v, true); cbn; auto|exists x; cbn; auto].
Qed.
Lemma active_key : forall l c, active l c -> In c (map key l).
Proof. intros l c (x & I & _ & <-). now apply in_map. Qed.

Lemma inserted_entry : forall l c, entry (inserted l) c = adds l c.
Proof.
  induction l as [|[[k v] a] l IH]; intros c; [reflexivity|]. rewrite adds_cons, <- IH.
  unfold inserted. cbn [filter snd]. destruct a; cbn [andb map fst snd]; [now rewrite entry_cons|lra].
Qed.
Lemma inserted_cols : forall l c, In c (cols (inserted l)) <-> active l c.
Proof.
  induction l as [|[[k v] a] l IH]; intros c; [split; [intros []|intros (? & [] & _)]|].
  rewrite active_cons, <- IH. unfold inserted. cbn. destruct a; cbn; intuition congruence.
Qed.
Lemma inserted_sorted : forall l, StronglySorted lt (map key l) -> sorted (inserted l).
Proof.
  unfold sorted. induction l as [|[[k v] a] l IH]; intros S; cbn in *; [constructor|].
  inversion S as [|? ? S' F]; subst. specialize (IH S'). destruct a; cbn; [|exact IH].
  constructor; [exact IH|]. apply Forall_forall. intros c I.
  apply inserted_cols in I. apply active_key in I. rewrite Forall_forall in F. now apply F.
Qed.

(** *** Merging *)
Lemma merge_ok : forall n q l, (length q + length l <= n)%nat -> sorted q -> StronglySorted lt (map key l) ->
  exists r, merge n q l = Ok r /\ (forall c, entry r c = entry q c + adds l c) /\
    (forall c, In c (cols r) <-> In c (cols q) \/ active l c) /\ sorted r.
Proof.
  induction n; intros q l Hn Sq Sl.
  - destruct q; [|cbn in Hn; lia]. destruct l; [|cbn in Hn; lia]. exists []. cbn. repeat split; intros; try tauto.
    + unfold adds; cbn. lra.
    + destruct H as [[]|(? & [] & _)].
  - destruct q as [|[iq vq] q'].
    { exists (inserted l). split; [destruct l as [|[[? ?] ?] ?]; reflexivity|]. repeat split.
      - intros c. rewrite inserted_entry, entry_nil. lra.
      - intros I. right. now apply inserted_cols.
      - intros [[]|I]. now apply inserted_cols.
      - now apply inserted_sorted. }
    destruct l as [|[[il vl] act] l'].
    { exists ((iq, vq) :: q'). split; [cbn; now rewrite app_nil_r|]. repeat split; auto.
      - intros c. unfold adds; cbn. lra.
      - intros [I|(? & [] & _)]. exact I. }
    cbn [merge].
    unfold sorted in Sq. cbn in Sq, Sl. inversion Sq as [|? ? Sq' Fq]; subst. inversion Sl as [|? ? Sl' Fl]; subst.
    unfold key in Fl at 1; cbn in Fl. rewrite Forall_forall in Fq, Fl.
    destruct (lt_eq_lt_dec iq il) as [[L|E]|G].
    + rewrite (proj2 (Nat.ltb_lt iq il) L), (proj2 (Nat.leb_le iq il)) by lia.
      rewrite (proj2 (Nat.leb_gt il iq) L), (proj2 (Nat.eqb_neq iq il)) by lia.
      destruct (IHn q' ((il, vl, act) :: l')) as (r & -> & He & Hc & Sr); [cbn in *; lia|exact Sq'|exact Sl|].
      cbn [rbind orb andb]. exists ((iq, vq) :: r). repeat split.
      * intros c. rewrite !entry_cons, He. lra.
      * cbn. fold (cols r) (cols q'). rewrite Hc. tauto.
      * cbn. fold (cols r) (cols q'). rewrite Hc. tauto.
      * constructor; [exact Sr|]. apply Forall_forall. intros c I. fold (cols r) in I. apply Hc in I as [I|I]; [now apply Fq|].
        apply active_key in I. cbn in I. destruct I as [<-|I]; [exact L|]. specialize (Fl _ I). cbn. lia.
    + subst il. rewrite Nat.ltb_irrefl, !Nat.leb_refl, Nat.eqb_refl.
      destruct (IHn q' l') as (r & -> & He & Hc & Sr); [cbn in *; lia|exact Sq'|exact Sl'|].
      cbn [rbind orb andb]. eexists. split; [reflexivity|]. repeat split.
      * intros c. rewrite !entry_cons, He, adds_cons. destruct act, (iq =? c)%nat; cbn; lra.
      * cbn. fold (cols r) (cols q'). rewrite Hc, active_cons. tauto.
      * cbn. fold (cols r) (cols q'). rewrite Hc, active_cons. intuition.
      * constructor; [exact Sr|]. apply Forall_forall. intros c I. fold (cols r) in I. apply Hc in I as [I|I]; [now apply Fq|].
        apply active_key in I. now apply Fl.
    + rewrite (proj2 (Nat.ltb_ge iq il)) by lia. rewrite (proj2 (Nat.leb_gt iq il) G).
      rewrite (proj2 (Nat.leb_le il iq)) by lia. rewrite (proj2 (Nat.eqb_neq iq il)) by lia. cbn [andb orb].
      destruct (IHn ((iq, vq) :: q') l') as (r & -> & He & Hc & Sr); [cbn in *; lia|exact Sq|exact Sl'|].
      cbn [rbind]. destruct act.
      * exists ((il, vl) :: r). split; [reflexivity|]. repeat split.
        -- intros c. rewrite !entry_cons, He, adds_cons, entry_cons. cbn [andb]. lra.
        -- cbn. fold (cols r) (cols q'). rewrite Hc, active_cons. cbn. fold (cols q'). intuition.
        -- cbn. fold (cols r) (cols q'). rewrite Hc, active_cons. cbn. fold (cols q'). intuition.
        -- constructor; [exact Sr|]. apply Forall_forall. intros c I. fold (cols r) in I. apply Hc in I as [I|I].
           ++ cbn in I. destruct I as [<-|I]; [exact G|]. fold (cols q') in I. specialize (Fq _ I). cbn. lia.
           ++ apply active_key in I. now apply Fl.
      * exists r. split; [reflexivity|]. repeat split.
        -- intros c. rewrite He, adds_cons. cbn [andb]. lra.
        -- rewrite Hc, active_cons. intuition.
        -- rewrite Hc, active_cons. intuition congruence.
        -- exact Sr.
Qed.
Lemma merge_zero_merge : forall n q l, (forall x, In x l -> snd (fst x) = 0) -> merge_zero n q l = merge n q l.
Proof.
  induction n; intros q l H; destruct q as [|[iq vq] q']; destruct l as [|[[il vl] act] l']; try reflexivity.
  cbn [merge merge_zero]. rewrite IHn.
  2:{ intros x I. apply H. destruct (il <=? iq)%nat; [now right|exact I]. }
  assert (vl = 0) as -> by (apply (H (il, vl, act)); now left).
  destruct (merge n _ _); cbn; try reflexivity. f_equal.
  destruct (iq <=? il)%nat eqn:L; cbn; [|destruct act; cbn; [|reflexivity]].
  - destruct (iq =? il)%nat; cbn; [|reflexivity]. destruct act; [|reflexivity]. f_equal. f_equal. lra.
  - apply Nat.leb_gt in L. rewrite (proj2 (Nat.eqb_neq iq il)) by lia. cbn. reflexivity.
Qed.
