(** Elements of the gradients and Hessians computed by the operations. *)
From Coq Require Import Reals Lra Lia.
From Verif Require Import Prelude AdModel AdSpec AdProofs AdProofs2.
Open Scope R_scope.

Lemma length_map2 : forall A B C (f : A -> B -> C) l m, length (map2 f l m) = Nat.min (length l) (length m).
Proof. induction l as [|a l IH]; intros [|b m]; cbn; auto. Qed.
Lemma nth_map2 : forall (f : R -> R -> R) l m k, length l = length m -> f 0 0 = 0 ->
  nth k (map2 f l m) 0 = f (nth k l 0) (nth k m 0).
Proof.
  induction l as [|a l IH]; intros [|b m] k E F; cbn in E; try lia.
  - now destruct k.
  - destruct k; cbn; [reflexivity|]. apply IH; [lia|assumption].
Qed.
Lemma nth_repeat0 : forall k n, nth k (repeat 0 n) 0 = 0.
Proof. intros k n. revert k. induction n as [|n IH]; intros [|k]; cbn; auto. Qed.
Lemma list_zero : forall l n, length l = n -> (forall k, (k < n)%nat -> nth k l 0 = 0) -> l = repeat 0 n.
Proof.
  intros l n E H. apply nth_ext with (d := 0) (d' := 0).
  - now rewrite repeat_length.
  - intros k Hk. rewrite nth_repeat0. apply H. lia.
Qed.

Section Ent.
Variable st : storage.
Notation nh := (length (hidx st)).

Lemma len_gz : length (gz st) = ng st.
Proof. apply repeat_length. Qed.
Lemma len_hz : length (hz st) = nh.
Proof. apply repeat_length. Qed.
Lemma len_vadd : forall l m, length (vadd l m) = Nat.min (length l) (length m).
Proof. intros; apply length_map2. Qed.
Lemma len_vsub : forall l m, length (vsub l m) = Nat.min (length l) (length m).
Proof. intros; apply length_map2. Qed.
Lemma len_vneg : forall l, length (vneg l) = length l.
Proof. intros; apply map_length. Qed.
Lemma len_vscale : forall c l, length (vscale c l) = length l.
Proof. intros; apply map_length. Qed.
Lemma len_vdiv : forall c l, length (vdiv c l) = length l.
Proof. intros; apply map_length. Qed.
Lemma len_tsquare : forall s, length (tsquare st s) = nh.
Proof. intros; apply map_length. Qed.
Lemma len_tsym2 : forall s t, length (tsym2 st s t) = nh.
Proof. intros; apply map_length. Qed.

Lemma nth_gz : forall k, nth k (gz st) 0 = 0.
Proof. intros; apply nth_repeat0. Qed.
Lemma nth_hz : forall k, nth k (hz st) 0 = 0.
Proof. intros; apply nth_repeat0. Qed.
Lemma nth_vadd : forall l m k, length l = length m -> nth k (vadd l m) 0 = nth k l 0 + nth k m 0.
Proof. intros. apply nth_map2; [assumption|ring]. Qed.
Lemma nth_vsub : forall l m k, length l = length m -> nth k (vsub l m) 0 = nth k l 0 - nth k m 0.
Proof. intros. apply nth_map2; [assumption|ring]. Qed.
Lemma nth_vneg : forall l k, nth k (vneg l) 0 = - nth k l 0.
Proof. intros. unfold vneg. replace 0 with (- 0) at 1 by ring. apply map_nth. Qed.
Lemma nth_vscale : forall c l k, nth k (vscale c l) 0 = nth k l 0 * c.
Proof. intros. unfold vscale. replace 0 with (0 * c) at 1 by ring. apply (map_nth (fun x => x * c)). Qed.
Lemma nth_vdiv : forall c l k, nth k (vdiv c l) 0 = nth k l 0 / c.
Proof.
  intros. unfold vdiv. replace 0 with (0 / c) at 1 by (unfold Rdiv; ring). apply (map_nth (fun x => x / c)).
Qed.
Lemma nth_error_map_nth : forall A (f : A -> R) l c p, nth_error l c = Some p -> nth c (map f l) 0 = f p.
Proof. intros A f l c p H. apply nth_error_nth. now apply map_nth_error. Qed.
Lemma nth_tsquare : forall s c k l, nth_error (hidx st) c = Some (k, l) ->
  nth c (tsquare st s) 0 = nth k s 0 * nth l s 0.
Proof. intros s c k l H. unfold tsquare. now rewrite (nth_error_map_nth _ _ _ _ _ H). Qed.
Lemma nth_tsym2 : forall s t c k l, nth_error (hidx st) c = Some (k, l) ->
  nth c (tsym2 st s t) 0 = nth k s 0 * nth l t 0 + nth k t 0 * nth l s 0.
Proof. intros s t c k l H. unfold tsym2. now rewrite (nth_error_map_nth _ _ _ _ _ H). Qed.
Lemma nth_pairs : forall F l a b c p, length a = length l -> length b = length l -> nth_error l c = Some p ->
  nth c (map2 (F : nat * nat -> R * R -> R) l (combine a b)) 0 = F p (nth c a 0, nth c b 0).
Proof.
  induction l as [|q l IH]; intros a b c p Ha Hb H; [destruct c; discriminate|].
  destruct a as [|x a]; [discriminate|]. destruct b as [|y b]; [discriminate|].
  destruct c; cbn in *; [now inversion H|]. apply IH; auto.
Qed.
Lemma len_pairs : forall (F : nat * nat -> R * R -> R) l a b, length a = length l -> length b = length l ->
  length (map2 F l (combine a b)) = length l.
Proof. intros. rewrite length_map2, combine_length. lia. Qed.

(** *** The zero elements the flags promise *)
Variable n : nat.

Definition sized (a : ad) : Prop := length (D a) = ng st /\ length (DD a) = nh.
Definition zeros (a : ad) : Prop := (forall k, nth k (D a) 0 = 0) /\ (forall c, nth c (DD a) 0 = 0).

Lemma fs_nt1 : forall a, flags_sound st n a -> nt1 a = false -> zeros a.
Proof. intros a (H & _ & _) E. destruct (H E) as (E1 & E2). split; intros; rewrite ?E1, ?E2; apply nth_repeat0. Qed.
Lemma fs_nt2 : forall a, flags_sound st n a -> nt2 a = false -> forall c, nth c (DD a) 0 = 0.
Proof. intros a (_ & H & _) E c. rewrite (H E). apply nth_repeat0. Qed.
Lemma fs_dif : forall a, flags_sound st n a -> (dif a < n)%nat -> zeros a.
Proof. intros a (_ & _ & H) E. destruct (H E) as (E1 & E2). split; intros; rewrite ?E1, ?E2; apply nth_repeat0. Qed.

Lemma fs_intro : forall a, sized a ->
  (nt1 a = false -> (forall k, (k < ng st)%nat -> nth k (D a) 0 = 0) /\ (forall c k l, nth_error (hidx st) c = Some (k, l) -> nth c (DD a) 0 = 0)) ->
  (nt2 a = false -> forall c k l, nth_error (hidx st) c = Some (k, l) -> nth c (DD a) 0 = 0) ->
  ((dif a < n)%nat -> (forall k, (k < ng st)%nat -> nth k (D a) 0 = 0) /\ (forall c k l, nth_error (hidx st) c = Some (k, l) -> nth c (DD a) 0 = 0)) ->
  flags_sound st n a.
Proof.
  intros a (L1 & L2) H1 H2 H3.
  assert (Z : forall c, (c < nh)%nat -> exists k l, nth_error (hidx st) c = Some (k, l)).
  { intros c Hc. destruct (nth_error (hidx st) c) as [[k l]|] eqn:E; [eauto|]. apply nth_error_None in E. lia. }
  assert (Y : (forall c k l, nth_error (hidx st) c = Some (k, l) -> nth c (DD a) 0 = 0) -> DD a = repeat 0 nh).
  { intros H. apply list_zero; [assumption|]. intros c Hc. destruct (Z c Hc) as (k & l & E). eauto. }
  split; [|split].
  - intros E. destruct (H1 E). split; [now apply list_zero|auto].
  - intros E. apply Y. exact (H2 E).
  - intros E. destruct (H3 E). split; [now apply list_zero|auto].
Qed.
End Ent.

#[export] Hint Rewrite len_gz len_hz len_vadd len_vsub len_vneg len_vscale len_vdiv len_tsquare len_tsym2 : adlen.

Ltac len := autorewrite with adlen; repeat match goal with H : sized _ ?a |- _ => destruct H end; try lia.

(** rewrite the elements of the computed arrays into elements of the arguments *)
Ltac ent :=
  repeat first
    [ rewrite nth_gz | rewrite nth_hz | rewrite nth_vneg | rewrite nth_vscale | rewrite nth_vdiv
    | rewrite nth_vadd by len | rewrite nth_vsub by len
    | match goal with H : nth_error (hidx ?st) ?c = Some (?k, ?l) |- context [nth ?c (tsquare ?st _) 0] =>
        rewrite (nth_tsquare _ _ _ _ _ H) end
    | match goal with H : nth_error (hidx ?st) ?c = Some (?k, ?l) |- context [nth ?c (tsym2 ?st _ _) 0] =>
        rewrite (nth_tsym2 _ _ _ _ _ _ H) end ].

Ltac zeros_away :=
  repeat match goal with
  | Z : forall k, nth k (D ?a) 0 = 0 |- context [nth _ (D ?a) 0] => rewrite !Z
  | Z : forall k, nth k (DD ?a) 0 = 0 |- context [nth _ (DD ?a) 0] => rewrite !Z
  end.
(** split on the flags of an argument, with what they say about its elements *)
Ltac flag_cases a :=
  match goal with F : flags_sound _ _ a |- _ =>
    let E1 := fresh "Ea" in let E2 := fresh "Eb" in
    destruct (nt1 a) eqn:E1; [|destruct (fs_nt1 _ _ _ F E1) as (? & ?)];
    (destruct (nt2 a) eqn:E2; [|pose proof (fs_nt2 _ _ _ F E2)])
  end.
Ltac low a :=
  match goal with F : flags_sound _ _ a |- _ => destruct (fs_dif _ _ _ F ltac:(lia)) as (? & ?) end.
