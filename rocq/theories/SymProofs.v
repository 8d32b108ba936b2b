(** Lemmas for C08/C22/C44.  Facts about the 24 vertex renumberings are decided by
    evaluation over the complete finite domain and lifted with [forallb_forall];
    facts about identifiers and dof tables are proved for all values. *)
From Verif Require Import Prelude DofModel DofSpec DofProofs DofProofs2 SymModel SymSpec.
From Coq Require Import FinFun Permutation.

(** *** The finite domain *)
Definition tuples4 : list (list nat) :=
  flat_map (fun a => flat_map (fun b => flat_map (fun c => map (fun d => [a; b; c; d]) (seq 0 4)) (seq 0 4)) (seq 0 4)) (seq 0 4).
Definition nodupb (p : list nat) : bool :=
  (fix go l := match l with [] => true | x :: r => negb (existsb (Nat.eqb x) r) && go r end) p.
Definition perms4 : list (list nat) := filter nodupb tuples4.

Lemma nodupb_iff : forall p, nodupb p = true <-> NoDup p.
Proof.
  induction p as [|x r IH]; cbn; [split; [constructor|reflexivity]|].
  rewrite andb_true_iff, negb_true_iff. fold (nodupb r). rewrite IH. split.
  - intros [H1 H2]. constructor; [|exact H2]. intros Hin.
    assert (existsb (Nat.eqb x) r = true) by (apply existsb_exists; exists x; split; [exact Hin|apply Nat.eqb_refl]). congruence.
  - intros H. inversion H; subst. split; [|assumption].
    destruct (existsb (Nat.eqb x) r) eqn:E; [|reflexivity].
    apply existsb_exists in E as (y & Hy & E). apply Nat.eqb_eq in E; subst. contradiction.
Qed.
Lemma in_seq4 : forall x, x < 4 -> In x (seq 0 4).
Proof. intros; apply in_seq; lia. Qed.
Lemma in_perms4 : forall p, is_perm4 p <-> In p perms4.
Proof.
  intros p. unfold perms4. rewrite filter_In, nodupb_iff. split.
  - intros (Hl & Hn & Hf). split; [|exact Hn].
    destruct p as [|a [|b [|c [|d [|]]]]]; try discriminate Hl.
    rewrite Forall_forall in Hf. unfold tuples4.
    apply in_flat_map; exists a; split; [apply in_seq4, Hf; cbn; auto|].
    apply in_flat_map; exists b; split; [apply in_seq4, Hf; cbn; auto|].
    apply in_flat_map; exists c; split; [apply in_seq4, Hf; cbn; auto|].
    apply in_map_iff; exists d; split; [reflexivity|apply in_seq4, Hf; cbn; auto 6].
  - intros [Ht Hn]. unfold tuples4 in Ht.
    apply in_flat_map in Ht as (a & Ha & Ht). apply in_flat_map in Ht as (b & Hb & Ht).
    apply in_flat_map in Ht as (c & Hc & Ht). apply in_map_iff in Ht as (d & E & Hd). subst p.
    apply in_seq in Ha, Hb, Hc, Hd.
    split; [reflexivity|]. split; [exact Hn|]. do 4 (apply Forall_cons; [lia|]). apply Forall_nil.
Qed.

Lemma forall_seq : forall n (f : nat -> bool), forallb f (seq 0 n) = true -> forall x, x < n -> f x = true.
Proof. intros n f H x Hx. rewrite forallb_forall in H. apply H, in_seq. lia. Qed.
Lemma forall_perms : forall f, forallb f perms4 = true -> forall p, is_perm4 p -> f p = true.
Proof. intros f H p Hp. rewrite forallb_forall in H. apply H, in_perms4, Hp. Qed.

Definition all_points (f : nat -> nat -> nat -> nat -> bool) : bool :=
  forallb (fun t => forallb (fun e => forallb (fun c => forallb (fun l => f t e c l) (seq 0 (npoints t c)))
                                              (seq 0 5)) (seq 0 (tet_elems t))) (seq 0 6).
Lemma npoints_class : forall t c l, l < npoints t c -> c < 5.
Proof.
  intros t c l H. destruct (Nat.lt_ge_cases c 5) as [|Hc]; [assumption|exfalso].
  do 5 (destruct c as [|c]; [lia|]). unfold npoints, points in H.
  destruct (geom_dim t) as [|[|[|[|]]]]; cbn in H; lia.
Qed.
Lemma all_points_iff : forall f, all_points f = true -> forall t e c l,
  t < 6 -> e < tet_elems t -> l < npoints t c -> f t e c l = true.
Proof.
  intros f H t e c l Ht He Hl. unfold all_points in H.
  apply forall_seq with (x := t) in H; [|exact Ht]. apply forall_seq with (x := e) in H; [|exact He].
  apply forall_seq with (x := c) in H; [|eapply npoints_class; eauto]. now apply forall_seq with (x := l) in H.
Qed.

(** *** Placement *)
Definition omark_eqb (a b : option letter) : bool :=
  match a, b with Some x, Some y => letter_eqb x y | None, None => true | _, _ => false end.
Lemma omark_eqb_eq : forall a b, omark_eqb a b = true -> a = b.
Proof. intros [[]|] [[]|]; cbn; intros; congruence || reflexivity. Qed.
Definition placedb (t e c l : nat) (p : list nat) (r : nat) : bool :=
  (r <? npoints t c) &&
  forallb (fun k => match nth_error (corners t e) k with
                    | Some v => omark_eqb (mark t c r (rank (map (app4 p) (corners t e)) (app4 p v))) (mark t c l k)
                    | None => true end) (seq 0 (length (corners t e))).
Lemma placedb_placed : forall t e c l p r, placedb t e c l p r = true -> placed t e c l p r.
Proof.
  intros t e c l p r H. unfold placedb in H. apply andb_true_iff in H as [H1 H2].
  apply Nat.ltb_lt in H1. split; [exact H1|]. intros k v Hk.
  apply forall_seq with (x := k) in H2; [|apply nth_error_Some; congruence].
  rewrite Hk in H2. now apply omark_eqb_eq.
Qed.
Lemma placed_check : all_points (fun t e c l => forallb (fun p =>
   match index_on t e c l p with Some r => placedb t e c l p r | None => false end) perms4) = true.
Proof. vm_compute. reflexivity. Qed.
Lemma index_placed : forall t e c l p, t < 6 -> e < tet_elems t -> l < npoints t c -> is_perm4 p ->
  exists r, index_on t e c l p = Some r /\ placed t e c l p r.
Proof.
  intros t e c l p Ht He Hl Hp. pose proof (all_points_iff _ placed_check t e c l Ht He Hl) as H. cbv beta in H.
  eapply forall_perms in H; [|exact Hp]. cbv beta in H. destruct (index_on t e c l p) as [r|]; [|discriminate].
  exists r. split; [reflexivity|now apply placedb_placed].
Qed.

(** Points of one class are determined by their marks. *)
Definition ncorn (t : nat) : nat := S (geom_dim t).
Lemma length_corners : forall t e, t < 6 -> e < tet_elems t -> length (corners t e) = ncorn t.
Proof.
  intros t e Ht He. do 6 (destruct t as [|t]; [cbn in He; do 6 (destruct e as [|e]; [reflexivity|]); lia|]). lia.
Qed.
Lemma marks_inj_check : forallb (fun t => forallb (fun c => forallb (fun l => forallb (fun m =>
   (l =? m) || negb (forallb (fun k => omark_eqb (mark t c l k) (mark t c m k)) (seq 0 (ncorn t))))
   (seq 0 (npoints t c))) (seq 0 (npoints t c))) (seq 0 5)) (seq 0 6) = true.
Proof. vm_compute. reflexivity. Qed.
Lemma marks_inj : forall t c l m, t < 6 -> l < npoints t c -> m < npoints t c ->
  (forall k, k < ncorn t -> mark t c l k = mark t c m k) -> l = m.
Proof.
  intros t c l m Ht Hl Hm H. pose proof marks_inj_check as Hc.
  apply forall_seq with (x := t) in Hc; [|exact Ht]. apply forall_seq with (x := c) in Hc; [|eapply npoints_class; eauto].
  apply forall_seq with (x := l) in Hc; [|exact Hl]. apply forall_seq with (x := m) in Hc; [|exact Hm].
  apply orb_true_iff in Hc as [Hc|Hc]; [now apply Nat.eqb_eq|]. apply negb_true_iff in Hc.
  exfalso. assert (forallb (fun k => omark_eqb (mark t c l k) (mark t c m k)) (seq 0 (ncorn t)) = true); [|congruence].
  apply forallb_forall. intros k Hk. apply in_seq in Hk. rewrite (H k) by lia.
  destruct (mark t c m k) as [[]|]; reflexivity.
Qed.

(** Ranks of distinct values are onto. *)
Lemma rank_map_inj : forall (f : nat -> nat) vs, NoDup (map f vs) -> forall x y, In x vs -> In y vs ->
  rank (map f vs) (f x) = rank (map f vs) (f y) -> f x = f y.
Proof.
  intros f vs Hn x y Hx Hy E. unfold rank in E.
  assert (Hlt : forall a b, In a vs -> f a < f b ->
    length (filter (fun z => z <? f a) (map f vs)) < length (filter (fun z => z <? f b) (map f vs))).
  { clear. intros a b Ha Hab. induction vs as [|v vs IH]; [contradiction|]. cbn [map filter].
    destruct Ha as [->|Ha].
    - assert (Hle : length (filter (fun z => z <? f a) (map f vs)) <= length (filter (fun z => z <? f b) (map f vs))).
      { clear -Hab. induction vs as [|v vs IH]; [auto|]. cbn [map filter].
        destruct (Nat.ltb_spec (f v) (f a)), (Nat.ltb_spec (f v) (f b)); cbn [length]; lia. }
      destruct (Nat.ltb_spec (f a) (f a)), (Nat.ltb_spec (f a) (f b)); cbn [length]; lia.
    - specialize (IH Ha). destruct (Nat.ltb_spec (f v) (f a)), (Nat.ltb_spec (f v) (f b)); cbn [length]; lia. }
  destruct (Nat.lt_trichotomy (f x) (f y)) as [H|[H|H]]; [|exact H|].
  - specialize (Hlt x y Hx H). lia.
  - specialize (Hlt y x Hy H). lia.
Qed.

(** *** createOrderPermutation *)
Lemma order_permutation_ok : forall g, length g = 4 -> NoDup g -> order_permutation g = Some (map (rankZ g) g).
Proof.
  intros g Hl Hn. destruct g as [|a [|b [|c [|d [|]]]]]; try discriminate Hl. clear Hl.
  assert (Hab : a <> b /\ a <> c /\ a <> d /\ b <> c /\ b <> d /\ c <> d).
  { inversion Hn as [|? ? H1 H2]; subst. inversion H2 as [|? ? H3 H4]; subst. inversion H4 as [|? ? H5 H6]; subst.
    cbn in H1, H3, H5. repeat split; intros ->; tauto. }
  clear Hn. destruct Hab as (H1 & H2 & H3 & H4 & H5 & H6).
  destruct (Z.ltb_spec a b), (Z.ltb_spec a c), (Z.ltb_spec a d), (Z.ltb_spec b c), (Z.ltb_spec b d), (Z.ltb_spec c d); try lia;
  unfold order_permutation, rankZ; cbn [for_range rd nth_error obind map filter];
  repeat match goal with
  | |- context [(?x <? ?x)%Z] => rewrite (Z.ltb_irrefl x)
  | H : (?x < ?y)%Z |- context [(?x <? ?y)%Z] => rewrite (proj2 (Z.ltb_lt x y) H)
  | H : (?x < ?y)%Z |- context [(?y <? ?x)%Z] => rewrite (proj2 (Z.ltb_ge y x) (Z.lt_le_incl _ _ H))
  | H : (?x <= ?y)%Z |- context [(?y <? ?x)%Z] => rewrite (proj2 (Z.ltb_ge y x) ltac:(lia))
  | H : (?x <= ?y)%Z |- context [(?x <? ?y)%Z] => rewrite (proj2 (Z.ltb_lt x y) ltac:(lia))
  | _ => progress cbn [for_range rd nth_error obind map filter]
  end; try reflexivity.
  all: cbn.
  all: repeat match goal with
  | |- context [(?x <? ?x)%Z] => rewrite (Z.ltb_irrefl x)
  | H : (?x < ?y)%Z |- context [(?x <? ?y)%Z] => rewrite (proj2 (Z.ltb_lt x y) H)
  | H : (?x < ?y)%Z |- context [(?y <? ?x)%Z] => rewrite (proj2 (Z.ltb_ge y x) (Z.lt_le_incl _ _ H))
  | H : (?x <= ?y)%Z |- context [(?y <? ?x)%Z] => rewrite (proj2 (Z.ltb_ge y x) ltac:(lia))
  | H : (?x <= ?y)%Z |- context [(?x <? ?y)%Z] => rewrite (proj2 (Z.ltb_lt x y) ltac:(lia))
  | _ => progress cbn
  end; reflexivity.
Qed.
