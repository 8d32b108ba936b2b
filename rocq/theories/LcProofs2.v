From Verif Require Import Prelude DofModel DofSpec DofProofs EnumModel EnumSpec EnumProofs EnumProofs2 ExtSpec.
Open Scope nat_scope.

Lemma shift_mono : forall l t a b, a <= b -> b <= length l -> comp_shift l a t <= comp_shift l b t.
Proof. intros l t a b H. induction H as [|b H IH]; intros Hb; [lia|]. rewrite comp_shift_S by lia. specialize (IH ltac:(lia)). lia. Qed.
Definition ani_key (g : nat) (x : desc) : list nat := [x_type x; x_var x; x_dim x; x_pos x; g].
Lemma lid_lt : forall l x y, valid_desc l x -> valid_desc l y -> geom_dim (x_type x) = geom_dim (x_type y) -> lex [x_type x; x_var x; x_dim x; x_pos x] [x_type y; x_var y; x_dim y; x_pos y] -> local_id l x < local_id l y.
Proof.
  intros l x y Hx Hy Hd HL. pose proof (tpos_lt l x Hx) as Bx. destruct Hx as (Tx & b & Eb & Dx & Px). destruct Hy as (Ty & b' & Eb' & Dy & Py).
  destruct (nth_of_error l _ _ Eb) as (Nb & Vx). destruct (nth_of_error l _ _ Eb') as (Nb' & Vy). subst b b'. unfold local_id.
  inversion HL as [? ? ? ? H _|? ? ? H E1]; subst.
  - assert (Hs : x_type y = S (x_type x) /\ ((x_type y =? 2) || (x_type y =? 4) = true)).
    { unfold geom_dim in Hd. destruct (x_type x) as [|[|[|[|[|[|tx]]]]]]; destruct (x_type y) as [|[|[|[|[|[|ty]]]]]]; cbn in Hd; try lia; split; reflexivity. }
    destruct Hs as (Es & Eo). unfold tshift_of at 2. rewrite Eo, Es. replace (S (x_type x) - 1) with (x_type x) by lia.
    assert (Z : tshift_of l (x_type x) = 0) by (unfold tshift_of; rewrite Es in Eo; destruct (x_type x) as [|[|[|[|[|[|tx]]]]]]; cbn in *; try reflexivity; discriminate). lia.
  - assert (Et : x_type x = x_type y) by congruence. rewrite <- Et in *. apply Nat.add_lt_mono_l. unfold tpos. rewrite <- Et.
    inversion H as [? ? ? ? H' _|? ? ? H' E2]; subst.
    + pose proof (shift_mono l (x_type x) (S (x_var x)) (x_var y) H' ltac:(lia)) as Hm. rewrite comp_shift_S in Hm by lia. 
      rewrite cnt_split in Hm. nia.
    + assert (Ev : x_var x = x_var y) by congruence. rewrite <- Ev in *.
      inversion H' as [? ? ? ? H'' _|? ? ? H'' E3]; subst; [nia|]. assert (Ec : x_dim x = x_dim y) by congruence. rewrite ?Ec in *.
      inversion H''; subst; try lia; match goal with K : lex [] [] |- _ => inversion K end.
Qed.
Lemma lex_app4 : forall a b c d e a' b' c' d' e', lex [a; b; c; d; e] [a'; b'; c'; d'; e'] -> lex [a; b; c; d] [a'; b'; c'; d'] \/ (a = a' /\ b = b' /\ c = c' /\ d = d' /\ e < e').
Proof.
  intros a b c d e a' b' c' d' e' H. inversion H as [? ? ? ? H1 _|? ? ? H1 E1]; subst; [left; now constructor|]. inversion H1 as [? ? ? ? H2 _|? ? ? H2 E2]; subst; [left; constructor; now constructor|].
  inversion H2 as [? ? ? ? H3 _|? ? ? H3 E3]; subst; [left; do 2 constructor; now constructor|]. inversion H3 as [? ? ? ? H4 _|? ? ? H4 E4]; subst; [left; do 3 constructor; now constructor|].
  inversion H4 as [? ? ? ? H5 _|? ? ? H5 E5]; subst; [right; auto|inversion H5].
Qed.
Lemma lex_total : forall a b, length a = length b -> lex a b \/ lex b a \/ a = b.
Proof.
  induction a as [|x a IH]; intros [|y b] H; try discriminate; [auto|]. injection H as H. destruct (Nat.lt_total x y) as [L|[L|L]]; [left; now constructor| |right; left; now constructor]. subst y.
  destruct (IH b H) as [K|[K|K]]; [left; now constructor|right; left; now constructor|subst; auto].
Qed.
Lemma ani_lt : forall l r g x g' x' n n', wf (Complex l) -> valid_desc l x -> valid_desc l x' -> owned r (geom_dim (x_type x)) g -> owned r (geom_dim (x_type x')) g' ->
  simple_index ANITYPE l r (geom_dim (x_type x)) g x = Some n -> simple_index ANITYPE l r (geom_dim (x_type x')) g' x' = Some n' -> lex (ani_key g x) (ani_key g' x') -> n < n'.
Proof.
  intros l r g x g' x' n n' Hw Hx Hx' Ho Ho' E E' HL. unfold ani_key in HL. destruct (Nat.lt_trichotomy (geom_dim (x_type x)) (geom_dim (x_type x'))) as [D|[D|D]].
  - apply any_index_range in E, E'; try assumption. pose proof (init_mono l r (S (geom_dim (x_type x))) (geom_dim (x_type x')) D). lia.
  - rewrite any_index in E, E' by assumption. apply Some_inj in E, E'. subst n n'. destruct Ho as (_ & Ho), Ho' as (_ & Ho'). rewrite <- D in *. destruct (lex_app4 _ _ _ _ _ _ _ _ _ _ HL) as [HL'|(A & B & C & P & G)].
    + pose proof (lid_lt l x x' Hx Hx' D HL'). nia.
    + assert (x = x') by (destruct x, x'; cbn in *; congruence). subst x'. lia.
  - exfalso. destruct (lex_app4 _ _ _ _ _ _ _ _ _ _ HL) as [HL'|(A & _)]; [|rewrite A in D; lia]. destruct Hx as (Tx & _), Hx' as (Ty & _). unfold geom_dim in D.
    assert (x_type x <= x_type x') by (inversion HL'; subst; lia). destruct (x_type x) as [|[|[|[|[|[|tx]]]]]]; destruct (x_type x') as [|[|[|[|[|[|ty]]]]]]; cbn in D; lia.
Qed.
