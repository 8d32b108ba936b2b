(** Sizes, elements and flags of the results of every operation. *)
From Coq Require Import Reals Lra Lia.
From Verif Require Import Prelude AdModel AdSpec AdProofs AdProofs2 AdProofs3.
Open Scope R_scope.

Section Elements.
Variable st : storage.
Variable n : nat.
Notation nh := (length (hidx st)).
Notation sized := (sized st).
Notation flags := (flags_sound st n).

(** a result r of order-n operations: its elements are e1 k and e2 c k l *)
Definition result (r : ad) (e1 : nat -> R) (e2 : nat -> nat -> nat -> R) : Prop :=
  sized r /\ flags r /\
  ((1 <= n)%nat -> forall k, nth k (D r) 0 = e1 k) /\
  ((2 <= n)%nat -> forall c k l, nth_error (hidx st) c = Some (k, l) -> nth c (DD r) 0 = e2 c k l).

Ltac ifs := repeat match goal with |- context [if ?b then _ else _] => destruct b eqn:? end.
Ltac bools := repeat match goal with
  | H : (_ && _)%bool = true |- _ => apply andb_prop in H as (? & ?)
  | H : (_ && _)%bool = false |- _ => apply andb_false_elim in H as [H|H]
  | H : false = true |- _ => discriminate H
  | H : true = false |- _ => discriminate H
  | H : (_ <=? _)%nat = true |- _ => apply Nat.leb_le in H
  | H : (_ <=? _)%nat = false |- _ => apply Nat.leb_gt in H
  | H : (_ =? _)%nat = true |- _ => apply Nat.eqb_eq in H
  | H : (_ =? _)%nat = false |- _ => apply Nat.eqb_neq in H
  end.
Ltac szd := split; cbn [D DD ad_neg ad_add ad_sub ad_mul ad_div make_ADVal take make_shell]; unfold opt; ifs; len.
Ltac fin := cbn [andb orb negb]; ifs; bools; try discriminate; try lia; ent; zeros_away; unfold Rdiv; try ring.

Lemma neg_ent : forall a, sized a -> flags a ->
  result (ad_neg st a) (fun k => - nth k (D a) 0) (fun c k l => - nth c (DD a) 0).
Proof.
  intros a S F. assert (SR : sized (ad_neg st a)) by szd.
  split; [exact SR|]. split; [|split].
  - apply fs_intro; [exact SR|..]; cbn [ad_neg nt1 nt2 dif D DD].
    + intros E. destruct (fs_nt1 _ _ _ F E) as (? & ?). split; intros; fin.
    + intros E. pose proof (fs_nt2 _ _ _ F E). intros; fin.
    + intros E. low a. split; intros; fin.
  - intros Hn k. cbn [ad_neg D]. flag_cases a; fin; low a; fin.
  - intros Hn c k l H. cbn [ad_neg DD]. flag_cases a; fin; low a; fin.
Qed.

Lemma make_ent : forall a, sized a -> flags a ->
  result (make_ADVal st a) (fun k => nth k (D a) 0) (fun c k l => nth c (DD a) 0).
Proof.
  intros a S F. assert (SR : sized (make_ADVal st a)) by szd.
  split; [exact SR|]. split; [|split].
  - apply fs_intro; [exact SR|..]; cbn [make_ADVal nt1 nt2 dif D DD].
    + intros E. destruct (fs_nt1 _ _ _ F E) as (? & ?). split; intros; fin.
    + intros E. pose proof (fs_nt2 _ _ _ F E). intros; fin.
    + intros E. low a. split; intros; fin.
  - intros Hn k. cbn [make_ADVal D]. flag_cases a; fin; low a; fin.
  - intros Hn c k l H. cbn [make_ADVal DD]. flag_cases a; fin; low a; fin.
Qed.

Lemma take_ent : forall a n1 n2, sized a -> flags a -> (n1 = false -> nt1 a = false) -> (n2 = false -> nt2 a = false) ->
  result (take st a n1 n2) (fun k => nth k (D a) 0) (fun c k l => nth c (DD a) 0).
Proof.
  intros a n1 n2 S F H1 H2. assert (SR : sized (take st a n1 n2)) by szd.
  split; [exact SR|]. split; [|split].
  - apply fs_intro; [exact SR|..]; cbn [take nt1 nt2 dif D DD].
    + intros E. destruct (fs_nt1 _ _ _ F (H1 E)) as (? & ?). split; intros; fin.
    + intros E. pose proof (fs_nt2 _ _ _ F (H2 E)). intros; fin.
    + intros E. low a. split; intros; fin.
  - intros Hn k. cbn [take D]. flag_cases a; fin; low a; fin.
  - intros Hn c k l H. cbn [take DD]. flag_cases a; fin; low a; fin.
Qed.

Lemma shell_ent : forall a, sized a -> flags a ->
  result (make_shell st a) (fun k => nth k (D a) 0) (fun c k l => nth c (DD a) 0).
Proof.
  intros a S F. assert (SR : sized (make_shell st a)) by szd.
  split; [exact SR|]. split; [|split].
  - apply fs_intro; [exact SR|..]; cbn [make_shell nt1 nt2 dif D DD]; [discriminate|discriminate|].
    intros E. low a. split; intros; fin.
  - intros Hn k. cbn [make_shell D]. flag_cases a; fin; low a; fin.
  - intros Hn c k l H. cbn [make_shell DD]. flag_cases a; fin; low a; fin.
Qed.

Lemma add_ent : forall a b, sized a -> sized b -> flags a -> flags b ->
  result (ad_add st a b) (fun k => nth k (D a) 0 + nth k (D b) 0) (fun c k l => nth c (DD a) 0 + nth c (DD b) 0).
Proof.
  intros a b S S' F F'. assert (SR : sized (ad_add st a b)) by szd.
  split; [exact SR|]. split; [|split].
  - apply fs_intro; [exact SR|..]; cbn [ad_add nt1 nt2 dif D DD].
    + intros E. apply orb_false_elim in E as (E1 & E2).
      destruct (fs_nt1 _ _ _ F E1) as (? & ?). destruct (fs_nt1 _ _ _ F' E2) as (? & ?). split; intros; rewrite ?E1, ?E2; fin.
    + intros E. apply orb_false_elim in E as (E1 & E2). rewrite E1, E2. intros; fin.
    + intros E. low a. low b. split; intros; fin.
  - intros Hn k. cbn [ad_add D]. flag_cases a; flag_cases b; fin; low a; low b; fin.
  - intros Hn c k l H. cbn [ad_add DD]. flag_cases a; flag_cases b; fin; low a; low b; fin.
Qed.

Lemma sub_ent : forall a b, sized a -> sized b -> flags a -> flags b ->
  result (ad_sub st a b) (fun k => nth k (D a) 0 - nth k (D b) 0) (fun c k l => nth c (DD a) 0 - nth c (DD b) 0).
Proof.
  intros a b S S' F F'. assert (SR : sized (ad_sub st a b)) by szd.
  split; [exact SR|]. split; [|split].
  - apply fs_intro; [exact SR|..]; cbn [ad_sub nt1 nt2 dif D DD].
    + intros E. apply orb_false_elim in E as (E1 & E2).
      destruct (fs_nt1 _ _ _ F E1) as (? & ?). destruct (fs_nt1 _ _ _ F' E2) as (? & ?). split; intros; rewrite ?E1, ?E2; fin.
    + intros E. apply orb_false_elim in E as (E1 & E2). rewrite E1, E2. intros; fin.
    + intros E. low a. low b. split; intros; fin.
  - intros Hn k. cbn [ad_sub D]. flag_cases a; flag_cases b; fin; low a; low b; fin.
  - intros Hn c k l H. cbn [ad_sub DD]. flag_cases a; flag_cases b; fin; low a; low b; fin.
Qed.

Lemma mul_ent : forall a b, sized a -> sized b -> flags a -> flags b ->
  result (ad_mul st a b) (fun k => nth k (D a) 0 * val b + val a * nth k (D b) 0)
    (fun c k l => nth c (DD a) 0 * val b + nth k (D a) 0 * nth l (D b) 0 + (nth l (D a) 0 * nth k (D b) 0 + val a * nth c (DD b) 0)).
Proof.
  intros a b S S' F F'. assert (SR : sized (ad_mul st a b)) by szd.
  split; [exact SR|]. split; [|split].
  - apply fs_intro; [exact SR|..]; cbn [ad_mul nt1 nt2 dif D DD]; unfold opt.
    + intros E. apply orb_false_elim in E as (E1 & E2).
      destruct (fs_nt1 _ _ _ F E1) as (? & ?). destruct (fs_nt1 _ _ _ F' E2) as (? & ?). split; intros; rewrite ?E1, ?E2; fin.
    + intros E. apply orb_false_elim in E as (E1 & E3). apply orb_false_elim in E1 as (E1 & E2). rewrite E1, E2.
      intros c k l H. apply andb_false_elim in E3 as [E3|E3]; rewrite E3; [|destruct (fs_nt1 _ _ _ F' E3) as (? & ?)]; fin.
    + intros E. low a. low b. split; intros; fin.
  - intros Hn k. cbn [ad_mul D]. unfold opt. flag_cases a; flag_cases b; fin; low a; low b; fin.
  - intros Hn c k l H. cbn [ad_mul DD]. unfold opt. flag_cases a; flag_cases b; fin; low a; low b; fin.
Qed.

Lemma div_ent : forall a b, sized a -> sized b -> flags a -> flags b ->
  ((n < 2)%nat \/ nt1 b = false \/ nt2 b = true) ->
  result (ad_div st a b) (fun k => nth k (D a) 0 * / val b - val a * (/ val b * / val b) * nth k (D b) 0)
    (fun c k l => nth c (DD a) 0 * / val b
       - / val b * / val b * (nth k (D a) 0 * nth l (D b) 0 + nth l (D a) 0 * nth k (D b) 0)
       + val a * (/ val b * / val b) * (2 * / val b * (nth k (D b) 0 * nth l (D b) 0) - nth c (DD b) 0)).
Proof.
  intros a b S S' F F' Hb. assert (SR : sized (ad_div st a b)) by szd.
  split; [exact SR|]. split; [|split].
  - apply fs_intro; [exact SR|..]; cbn [ad_div nt1 nt2 dif D DD]; unfold opt.
    + intros E. apply orb_false_elim in E as (E1 & E2).
      destruct (fs_nt1 _ _ _ F E1) as (? & ?). destruct (fs_nt1 _ _ _ F' E2) as (? & ?). split; intros; rewrite ?E1, ?E2; fin.
    + intros E. apply orb_false_elim in E as (E1 & E3). apply orb_false_elim in E1 as (E1 & E2). rewrite E1, E2.
      intros c k l H. apply andb_false_elim in E3 as [E3|E3]; rewrite E3; [|destruct (fs_nt1 _ _ _ F' E3) as (? & ?)]; fin.
    + intros E. low a. low b. split; intros; fin.
  - intros Hn k. cbn [ad_div D]. unfold opt. flag_cases a; flag_cases b; fin; rewrite ?Rinv_mult; try ring; low a; low b; fin.
  - intros Hn c k l H. cbn [ad_div DD]. unfold opt. destruct Hb as [Hb|Hb]; [lia|].
    flag_cases a; flag_cases b; (destruct Hb as [Hb|Hb]; try discriminate); fin; rewrite ?Rinv_mult; try ring; low a; low b; fin.
Qed.

(** a function of one value with the derivatives v1, v2 *)
Lemma unary_ent : forall op a, sized a -> flags a ->
  forall v1 v2, ((1 <= dif a)%nat -> snd (fst (op (dif a) (val a))) = v1) -> ((2 <= dif a)%nat -> snd (op (dif a) (val a)) = v2) ->
  result (ad_unary st op a) (fun k => v1 * nth k (D a) 0)
    (fun c k l => v2 * nth k (D a) 0 * nth l (D a) 0 + v1 * nth c (DD a) 0).
Proof.
  intros op a S F v1 v2 H1 H2. unfold ad_unary. destruct (op (dif a) (val a)) as ((v, w1), w2). cbn [fst snd] in H1, H2.
  set (r := if negb (nt1 a) then _ else _). assert (SR : sized r) by (unfold r; destruct (nt1 a); cbn [negb]; szd).
  split; [exact SR|]. split; [|split].
  - apply fs_intro; [exact SR|..]; unfold r; unfold opt.
    + intros E. destruct (nt1 a) eqn:E1; [discriminate|]. cbn [negb D DD]. split; intros; fin.
    + intros E. destruct (nt1 a) eqn:E1; [discriminate|]. cbn [negb D DD]. intros; fin.
    + intros E. assert (E' : (dif a < n)%nat) by (destruct (nt1 a); exact E). low a. destruct (nt1 a); cbn [negb D DD]; split; intros; fin.
  - intros Hn k. unfold r. flag_cases a; cbn [negb D]; fin; try (rewrite H1 by lia; ring); low a; fin.
  - intros Hn c k l H. unfold r, opt. flag_cases a; cbn [negb DD]; fin; try (rewrite ?H1, ?H2 by lia; ring); low a; fin.
Qed.

Lemma sq_ent : forall a, sized a -> flags a ->
  result (ad_sq st a) (fun k => 2 * val a * nth k (D a) 0)
    (fun c k l => 2 * nth k (D a) 0 * nth l (D a) 0 + 2 * val a * nth c (DD a) 0).
Proof.
  intros a S F. unfold ad_sq.
  set (r := if negb (nt1 a) then _ else _). assert (SR : sized r) by (unfold r; destruct (nt1 a); cbn [negb]; szd).
  split; [exact SR|]. split; [|split].
  - apply fs_intro; [exact SR|..]; unfold r; unfold opt.
    + intros E. destruct (nt1 a) eqn:E1; [discriminate|]. cbn [negb D DD]. split; intros; fin.
    + intros E. destruct (nt1 a) eqn:E1; [discriminate|]. cbn [negb D DD]. intros; fin.
    + intros E. assert (E' : (dif a < n)%nat) by (destruct (nt1 a); exact E). low a. destruct (nt1 a); cbn [negb D DD]; split; intros; fin.
  - intros Hn k. unfold r. flag_cases a; cbn [negb D]; fin; low a; fin.
  - intros Hn c k l H. unfold r, opt. flag_cases a; cbn [negb DD]; fin; low a; fin.
Qed.

Lemma powr_ent : forall a q, sized a -> flags a -> (q <> 0 -> val a <> 0) ->
  let v1 := q * (std_pow (val a) q / val a) in
  result (ad_powr st a q) (fun k => v1 * nth k (D a) 0)
    (fun c k l => q * (q - 1) * (std_pow (val a) q / (val a * val a)) * nth k (D a) 0 * nth l (D a) 0 + v1 * nth c (DD a) 0).
Proof.
  intros a q S F Ha v1. unfold v1; clear v1. unfold ad_powr. destruct (Req_EM_T q 0) as [E0|E0].
  - subst q. set (r := Ad _ _ _ _ _ _). assert (SR : sized r) by (unfold r; szd).
    split; [exact SR|]. split; [|split].
    + apply fs_intro; [exact SR|..]; unfold r; cbn [nt1 nt2 dif D DD]; intros; try split; intros; fin.
    + intros Hn k. unfold r; cbn [D]. fin.
    + intros Hn c k l H. unfold r; cbn [DD]. fin.
  - specialize (Ha E0). set (v := std_pow (val a) q).
    set (r := if negb (nt1 a) then _ else _). assert (SR : sized r) by (unfold r; destruct (nt1 a); cbn [negb]; szd).
    split; [exact SR|]. split; [|split].
    + apply fs_intro; [exact SR|..]; unfold r; unfold opt.
      * intros E. destruct (nt1 a) eqn:E1; [discriminate|]. cbn [negb D DD]. split; intros; fin.
      * intros E. destruct (nt1 a) eqn:E1; [discriminate|]. cbn [negb D DD]. intros; fin.
      * intros E. assert (E' : (dif a < n)%nat) by (destruct (nt1 a); exact E). low a. destruct (nt1 a); cbn [negb D DD]; split; intros; fin.
    + intros Hn k. unfold r. flag_cases a; cbn [negb D]; fin; low a; fin.
    + intros Hn c k l H. unfold r, opt. destruct (Req_EM_T (val a) 0) as [E|_]; [lra|].
      flag_cases a; cbn [negb DD]; fin; low a; fin.
Qed.
End Elements.
