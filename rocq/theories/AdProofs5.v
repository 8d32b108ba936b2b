(** Elements of the results of pow with an integer, pow of two values, atan2 and
    hypot. *)
From Coq Require Import Reals Lra Lia Psatz.
From Verif Require Import Prelude AdModel AdSpec AdProofs AdProofs2 AdProofs3 AdProofs4.
Open Scope R_scope.

Lemma pow_loop_eq : forall n pv k, pow_loop n pv (pv ^ (k + 2), pv ^ (k + 1), pv ^ k) = (pv ^ (n + k + 2), pv ^ (n + k + 1), pv ^ (n + k)).
Proof.
  induction n as [|n IH]; intros pv k; [reflexivity|].
  cbn [pow_loop]. replace (pv ^ (k + 2) * pv) with (pv ^ (S k + 2)) by (replace (S k + 2)%nat with (S (k + 2)) by lia; cbn [pow]; ring).
  replace (pv ^ (k + 2)) with (pv ^ (S k + 1)) by (f_equal; lia).
  replace (pv ^ (k + 1)) with (pv ^ S k) by (f_equal; lia).
  rewrite IH. replace (n + S k)%nat with (S n + k)%nat by lia. reflexivity.
Qed.

Lemma powerRZ_nonneg : forall a q, (0 <= q)%Z -> powerRZ a q = a ^ Z.to_nat q.
Proof. intros a q H. destruct q as [|p|p]; [reflexivity|reflexivity|lia]. Qed.
Lemma powerRZ_inv_nonpos : forall a q, (q <= 0)%Z -> a <> 0 -> powerRZ a q = (1 / a) ^ Z.to_nat (- q).
Proof.
  intros a q H Ha. destruct q as [|p|p]; [reflexivity|lia|].
  cbn [powerRZ Z.opp Z.to_nat]. unfold Rdiv. rewrite Rmult_1_l. now rewrite pow_inv.
Qed.

(** the three powers the loop leaves *)
Lemma powz_values : forall av q, (q <> 0)%Z -> ((q < 0)%Z -> av <> 0) ->
  let pv := if (0 <? q)%Z then av else 1 / av in
  let s0 := if (q =? 1)%Z then (pv, 1, 0) else (pv * pv, pv, 1) in
  let qp := if (0 <? q)%Z then (q - 2)%Z else (- q)%Z in
  let '(v, vm1, vm2) := pow_loop (Z.to_nat qp) pv s0 in
  let (v, vm2) := if (q <? 0)%Z then (vm2, v) else (v, vm2) in
  v = powerRZ av q /\ vm1 = powerRZ av (q - 1) /\ ((q <> 1)%Z -> vm2 = powerRZ av (q - 2)).
Proof.
  intros av q Hq Ha. cbv zeta.
  destruct (q =? 1)%Z eqn:E1.
  - apply Z.eqb_eq in E1. subst q. cbn. change (Pos.to_nat 1) with 1%nat. cbn [pow]. split; [ring|split; [ring|intros H; now contradiction H]].
  - apply Z.eqb_neq in E1. destruct (0 <? q)%Z eqn:E2.
    + apply Z.ltb_lt in E2. destruct (q <? 0)%Z eqn:E3; [apply Z.ltb_lt in E3; lia|].
      pose proof (pow_loop_eq (Z.to_nat (q - 2)) av 0) as P. cbn [pow Nat.add] in P.
      rewrite !Rmult_1_r in P. rewrite P.
      rewrite !powerRZ_nonneg by lia. repeat split; intros; f_equal; lia.
    + apply Z.ltb_ge in E2. destruct (q <? 0)%Z eqn:E3; [|apply Z.ltb_ge in E3; lia]. apply Z.ltb_lt in E3.
      specialize (Ha E3).
      pose proof (pow_loop_eq (Z.to_nat (- q)) (1 / av) 0) as P. cbn [pow Nat.add] in P.
      rewrite !Rmult_1_r in P. rewrite P.
      rewrite !powerRZ_inv_nonpos by (assumption || lia). repeat split; intros; f_equal; lia.
Qed.

Section Elements.
Variable st : storage.
Variable n : nat.
Notation nh := (length (hidx st)).
Notation sized := (sized st).
Notation flags := (flags_sound st n).

Ltac ifs := repeat match goal with |- context [if ?b then _ else _] => destruct b eqn:? end.
Ltac bools := repeat match goal with
  | H : (_ && _)%bool = true |- _ => apply andb_prop in H as (? & ?)
  | H : (_ && _)%bool = false |- _ => apply andb_false_elim in H as [H|H]
  | H : false = true |- _ => discriminate H
  | H : true = false |- _ => discriminate H
  | H : (_ <=? _)%nat = true |- _ => apply Nat.leb_le in H
  | H : (_ <=? _)%nat = false |- _ => apply Nat.leb_gt in H
  | H : (_ =? _)%nat = true |- _ => apply Nat.eqb_eq in H
  | H : (_ =? _)%nat = false |- _ => apply Nat.eqb_neq in H
  end.
Ltac szd := split; cbn [D DD]; unfold opt; ifs; len.
Ltac fin := cbn [andb orb negb]; ifs; bools; try discriminate; try lia; ent; zeros_away; unfold Rdiv; try ring.

Lemma powz_ent : forall a q, sized a -> flags a -> ((q < 0)%Z -> val a <> 0) ->
  result st n (ad_powz st a q) (fun k => IZR q * powerRZ (val a) (q - 1) * nth k (D a) 0)
    (fun c k l => IZR (q * (q - 1)) * powerRZ (val a) (q - 2) * nth k (D a) 0 * nth l (D a) 0
       + IZR q * powerRZ (val a) (q - 1) * nth c (DD a) 0) /\ val (ad_powz st a q) = powerRZ (val a) q.
Proof.
  intros a q S F Ha. unfold ad_powz. destruct (q =? 0)%Z eqn:E0.
  - apply Z.eqb_eq in E0. subst q. split; [|reflexivity]. set (r := Ad _ _ _ _ _ _). assert (SR : sized r) by (unfold r; szd).
    split; [exact SR|]. split; [|split].
    + apply fs_intro; [exact SR|..]; unfold r; cbn [nt1 nt2 dif D DD]; intros; try split; intros; fin.
    + intros Hn k. unfold r; cbn [D]. fin.
    + intros Hn c k l H. unfold r; cbn [DD]. rewrite Z.mul_0_l. fin.
  - apply Z.eqb_neq in E0. pose proof (powz_values (val a) q E0 Ha) as P. cbv zeta in P |- *.
    destruct (pow_loop _ _ _) as ((v, vm1), vm2').
    destruct (if (q <? 0)%Z then (vm2', v) else (v, vm2')) as (w, vm2).
    destruct P as (P0 & P1 & P2). split; [|destruct (nt1 a); exact P0].
    set (r := if negb (nt1 a) then _ else _). assert (SR : sized r) by (unfold r; destruct (nt1 a); cbn [negb]; szd).
    split; [exact SR|]. split; [|split].
    + apply fs_intro; [exact SR|..]; unfold r; unfold opt.
      * intros E. destruct (nt1 a) eqn:E1; [discriminate|]. cbn [negb D DD]. split; intros; fin.
      * intros E. destruct (nt1 a) eqn:E1; [discriminate|]. cbn [negb D DD]. intros; fin.
      * intros E. assert (E' : (dif a < n)%nat) by (destruct (nt1 a); exact E). low a. destruct (nt1 a); cbn [negb D DD]; split; intros; fin.
    + intros Hn k. rewrite <- P1. unfold r. destruct (q =? 1)%Z eqn:E1.
      * apply Z.eqb_eq in E1. subst q. cbn in P1. flag_cases a; cbn [negb D]; fin; try (rewrite P1; ring); low a; fin.
      * flag_cases a; cbn [negb D]; fin; low a; fin.
    + intros Hn c k l H. rewrite <- P1. unfold r, opt. destruct (q =? 1)%Z eqn:E1.
      * apply Z.eqb_eq in E1. subst q. change (1 * (1 - 1))%Z with 0%Z. flag_cases a; cbn [negb DD]; fin; low a; fin.
      * apply Z.eqb_neq in E1. rewrite <- (P2 E1). flag_cases a; cbn [negb DD]; fin; low a; fin.
Qed.

(** EvalPow with both arguments varying *)
Lemma pow_ent : forall a b, sized a -> sized b -> flags a -> flags b -> nt1 a = true -> nt1 b = true ->
  let v := std_pow (val a) (val b) in let ln_a := ln (val a) in
  result st n (ad_pow st a b) (fun k => (ln_a * nth k (D b) 0 + val b / val a * nth k (D a) 0) * v)
    (fun c k l => v * ln_a * ln_a * nth k (D b) 0 * nth l (D b) 0
       + v * (val b * ln_a + 1) / val a * (nth k (D b) 0 * nth l (D a) 0 + nth k (D a) 0 * nth l (D b) 0)
       + v * val b * (val b - 1) / (val a * val a) * nth k (D a) 0 * nth l (D a) 0
       + v * ln_a * nth c (DD b) 0 + v * val b / val a * nth c (DD a) 0).
Proof.
  intros a b S S' F F' Ea Eb v ln_a. unfold ad_pow. rewrite Ea, Eb. cbv zeta. fold v. fold ln_a.
  set (r := if (_ =? 0)%nat then _ else _).
  assert (LA : length (if nt2 a then DD a else hz st) = nh) by (destruct (nt2 a); len).
  assert (LB : length (if nt2 b then DD b else hz st) = nh) by (destruct (nt2 b); len).
  assert (SR : sized r).
  { unfold r. destruct (_ =? 0)%nat; split; cbn [D DD]; len. destruct (2 <=? _)%nat; len.
    rewrite len_pairs; auto. }
  assert (D1 : forall k, dif r <> 0%nat -> nth k (D r) 0 = (ln_a * nth k (D b) 0 + val b / val a * nth k (D a) 0) * v).
  { intros k Hk. unfold r in *. destruct (_ =? 0)%nat; [now cbn in Hk|]. cbn [D]. ent. ring. }
  assert (D2 : forall c k l, nth_error (hidx st) c = Some (k, l) -> (2 <= dif r)%nat -> nth c (DD r) 0 =
      v * ln_a * ln_a * nth k (D b) 0 * nth l (D b) 0
       + v * (val b * ln_a + 1) / val a * (nth k (D b) 0 * nth l (D a) 0 + nth k (D a) 0 * nth l (D b) 0)
       + v * val b * (val b - 1) / (val a * val a) * nth k (D a) 0 * nth l (D a) 0
       + v * ln_a * nth c (DD b) 0 + v * val b / val a * nth c (DD a) 0).
  { intros c k l H Hk. unfold r in *. destruct (_ =? 0)%nat; [cbn in Hk; lia|]. cbn [DD dif] in *.
    rewrite (proj2 (Nat.leb_le _ _) Hk). rewrite (nth_pairs _ _ _ _ _ _ LA LB H). cbn [fst snd].
    destruct (nt2 a) eqn:E2; [|pose proof (fs_nt2 _ _ _ F E2)]; destruct (nt2 b) eqn:E3; try pose proof (fs_nt2 _ _ _ F' E3); ent; zeros_away; ring. }
  assert (Ed : dif r = Nat.max (dif a) (dif b)).
  { unfold r. destruct (_ =? 0)%nat eqn:E; [apply Nat.eqb_eq in E; cbn [dif]; lia|reflexivity]. }
  assert (Z1 : (dif r < 1)%nat -> (forall k, nth k (D r) 0 = 0) /\ (forall c, nth c (DD r) 0 = 0)).
  { intros H. unfold r. rewrite Ed in H. destruct (_ =? 0)%nat eqn:E; [|apply Nat.eqb_neq in E; lia]. cbn [D DD].
    split; intros; ent; reflexivity. }
  assert (Z2 : (dif r < 2)%nat -> (forall c, nth c (DD r) 0 = 0)).
  { intros H c. unfold r in *. destruct (_ =? 0)%nat eqn:E; cbn [D DD dif] in *; [ent; reflexivity|].
    destruct (2 <=? Nat.max (dif a) (dif b))%nat eqn:E2; [apply Nat.leb_le in E2; lia|]. ent. reflexivity. }
  split; [exact SR|]. split; [|split].
  - apply fs_intro; [exact SR|..].
    + intros E. unfold r in E. destruct (_ =? 0)%nat; discriminate.
    + intros E. unfold r in E. destruct (_ =? 0)%nat; discriminate.
    + intros E. rewrite Ed in E. low a. low b. split.
      * intros k _. destruct (Nat.eq_dec (dif r) 0) as [E'|E']; [apply Z1; lia|]. rewrite D1 by assumption. zeros_away. ring.
      * intros c k l Hc. destruct (Nat.lt_ge_cases (dif r) 2) as [E'|E']; [now apply Z2|]. rewrite (D2 _ _ _ Hc E'). zeros_away. unfold Rdiv. ring.
  - intros Hn k. destruct (Nat.eq_dec (dif r) 0) as [E'|E']; [|now apply D1].
    low a. low b. rewrite (proj1 (Z1 ltac:(lia))). zeros_away. ring.
  - intros Hn c k l H. destruct (Nat.lt_ge_cases (dif r) 2) as [E'|E']; [|now apply D2].
    low a. low b. rewrite (Z2 E'). zeros_away. unfold Rdiv. ring.
Qed.

Lemma atan2_ent : forall y x, sized y -> sized x -> flags y -> flags x ->
  let vy := val y in let vx := val x in let r2 := vy * vy + vx * vx in
  result st n (ad_atan2 st y x) (fun k => vx / r2 * nth k (D y) 0 - vy / r2 * nth k (D x) 0)
    (fun c k l => vx / r2 * nth c (DD y) 0 - vy / r2 * nth c (DD x) 0
       + (vy * vy - vx * vx) / (r2 * r2) * (nth k (D x) 0 * nth l (D y) 0 + nth k (D y) 0 * nth l (D x) 0)
       - 2 * vx * vy / (r2 * r2) * (nth k (D y) 0 * nth l (D y) 0 - nth k (D x) 0 * nth l (D x) 0)).
Proof.
  intros a b S S' F F' vy vx r2. unfold ad_atan2. cbv zeta. fold vy vx. fold r2.
  set (r := Ad _ _ _ _ _ _).
  assert (LA : length (if nt2 a then DD a else hz st) = nh) by (destruct (nt2 a); len).
  assert (LB : length (if nt2 b then DD b else hz st) = nh) by (destruct (nt2 b); len).
  assert (SR : sized r).
  { unfold r. split; cbn [D DD]; [ifs; len|]. destruct (2 <=? _)%nat; len. rewrite len_pairs; auto. }
  split; [exact SR|]. split; [|split].
  - apply fs_intro; [exact SR|..]; unfold r; cbn [nt1 nt2 dif D DD].
    + intros E. apply orb_false_elim in E as (E1 & E2).
      destruct (fs_nt1 _ _ _ F E1) as (? & ?). destruct (fs_nt1 _ _ _ F' E2) as (? & ?). rewrite ?E1, ?E2. cbn [andb].
      split; [intros; fin|]. intros c k l Hc. destruct (2 <=? _)%nat; [|ent; reflexivity].
      rewrite (nth_pairs _ _ _ _ _ _ LA LB Hc). cbn [fst snd]. fin.
    + intros E. apply orb_false_elim in E as (E1 & E2).
      destruct (fs_nt1 _ _ _ F E1) as (? & ?). destruct (fs_nt1 _ _ _ F' E2) as (? & ?). rewrite ?E1, ?E2. cbn [andb].
      intros c k l Hc. destruct (2 <=? _)%nat; [|ent; reflexivity].
      rewrite (nth_pairs _ _ _ _ _ _ LA LB Hc). cbn [fst snd]. fin.
    + intros E. low a. low b. split; [intros; fin|].
      intros c k l Hc. destruct (2 <=? _)%nat; [|ent; reflexivity].
      rewrite (nth_pairs _ _ _ _ _ _ LA LB Hc). cbn [fst snd]. fin.
  - intros Hn k. unfold r; cbn [D]. flag_cases a; flag_cases b; fin; low a; low b; fin.
  - intros Hn c k l Hc. unfold r; cbn [DD]. destruct (2 <=? Nat.max (dif a) (dif b))%nat eqn:E.
    + rewrite (nth_pairs _ _ _ _ _ _ LA LB Hc). cbn [fst snd]. apply Nat.leb_le in E.
      destruct (1 <=? Nat.max (dif a) (dif b))%nat eqn:E1; [|apply Nat.leb_gt in E1; lia]. clear LA LB.
      flag_cases a; flag_cases b; fin.
    + apply Nat.leb_gt in E. low a. low b. fin.
Qed.

Lemma result_ext : forall r e1 e2 e1' e2', result st n r e1 e2 -> ((1 <= n)%nat -> forall k, e1 k = e1' k) ->
  ((2 <= n)%nat -> forall c k l, e2 c k l = e2' c k l) -> result st n r e1' e2'.
Proof.
  intros r e1 e2 e1' e2' (A & B & C & E) H1 H2. split; [exact A|]. split; [exact B|]. split.
  - intros Hn k. now rewrite C, H1.
  - intros Hn c k l H. now rewrite (E Hn _ _ _ H), H2.
Qed.
Lemma param_ent : forall c, result st n (param st c) (fun k => 0) (fun c k l => 0).
Proof.
  intros c. assert (SR : sized (param st c)) by (split; cbn [param D DD]; len).
  split; [exact SR|]. split; [|split].
  - apply fs_intro; [exact SR|..]; cbn [param nt1 nt2 dif D DD]; intros; try split; intros; fin.
  - intros Hn k. cbn [param D]. fin.
  - intros Hn d k l H. cbn [param DD]. fin.
Qed.
Lemma sign_ent : forall a, result st n (ad_sign st a) (fun k => 0) (fun c k l => 0).
Proof.
  intros c. assert (SR : sized (ad_sign st c)) by (split; cbn [ad_sign D DD]; len).
  split; [exact SR|]. split; [|split].
  - apply fs_intro; [exact SR|..]; cbn [ad_sign nt1 nt2 dif D DD]; intros; try split; intros; fin.
  - intros Hn k. cbn [ad_sign D]. fin.
  - intros Hn d k l H. cbn [ad_sign DD]. fin.
Qed.

(** pow of two values in all four cases of the flags *)
Lemma pow_ent_all : forall a b, sized a -> sized b -> flags a -> flags b -> 0 < val a ->
  let v := Rpower (val a) (val b) in let ln_a := ln (val a) in
  val (ad_pow st a b) = v /\
  result st n (ad_pow st a b) (fun k => (ln_a * nth k (D b) 0 + val b / val a * nth k (D a) 0) * v)
    (fun c k l => v * ln_a * ln_a * nth k (D b) 0 * nth l (D b) 0
       + v * (val b * ln_a + 1) / val a * (nth k (D b) 0 * nth l (D a) 0 + nth k (D a) 0 * nth l (D b) 0)
       + v * val b * (val b - 1) / (val a * val a) * nth k (D a) 0 * nth l (D a) 0
       + v * ln_a * nth c (DD b) 0 + v * val b / val a * nth c (DD a) 0).
Proof.
  intros a b S S' F F' Ha v ln_a.
  assert (Ev : std_pow (val a) (val b) = v) by (unfold std_pow, v; destruct (Rlt_dec 0 (val a)); [reflexivity|lra]).
  destruct (nt1 a) eqn:Ea; destruct (nt1 b) eqn:Eb.
  - rewrite <- Ev. split; [|now apply pow_ent]. unfold ad_pow. rewrite Ea, Eb. cbv zeta. now destruct (_ =? 0)%nat.
  - unfold ad_pow. rewrite Ea, Eb. destruct (fs_nt1 _ _ _ F' Eb) as (Z1 & Z2). split.
    + unfold ad_powr. destruct (Req_EM_T (val b) 0) as [E|E].
      * cbn [val]. unfold v. rewrite E. symmetry. now apply Rpower_O.
      * rewrite <- Ev. now destruct (nt1 a).
    + eapply result_ext; [apply powr_ent; auto; intros; lra|..]; cbv beta; intros; rewrite Ev, !Z1, ?Z2; unfold Rdiv; ring.
  - unfold ad_pow. rewrite Ea, Eb. destruct (fs_nt1 _ _ _ F Ea) as (Z1 & Z2).
    destruct (param_ent (ln (val a))) as (Sp & Fp & Q1 & Q2).
    destruct (mul_ent st n (param st (ln (val a))) b Sp S' Fp F') as (Sm & Fm & M1 & M2).
    set (m := ad_mul st (param st (ln (val a))) b) in *.
    assert (Em : val m = ln_a * val b) by reflexivity.
    assert (Ex : exp (val m) = v) by (unfold v, Rpower; rewrite Em; f_equal; unfold ln_a; ring).
    split.
    + unfold ad_unary. cbn [op_of]. destruct (nt1 m); cbn [negb val]; exact Ex.
    + destruct (op_of_eq Exp (dif m) (val m)) as (O0 & O1 & O2).
      eapply result_ext; [apply (unary_ent st n (op_of Exp) m Sm Fm (op1 Exp (val m)) (op2 Exp (val m))); [exact O1|exact O2]|..]; cbv beta.
      * intros Hn k. rewrite (M1 Hn), (Q1 Hn), !Z1. change (op1 Exp (val m)) with (exp (val m)). rewrite Ex. change (val (param st (ln (val a)))) with ln_a. ring.
      * intros Hn c k l. rewrite !(M1 ltac:(lia)), !(Q1 ltac:(lia)), !Z1, !Z2.
        change (op1 Exp (val m)) with (exp (val m)). change (op2 Exp (val m)) with (exp (val m)). rewrite Ex. change (val (param st (ln (val a)))) with ln_a.
        assert (EM : nth c (DD m) 0 = ln_a * nth c (DD b) 0).
        { destruct (nth_error (hidx st) c) as [[k' l']|] eqn:E.
          - rewrite (M2 Hn _ _ _ E), !(Q1 ltac:(lia)), (Q2 Hn _ _ _ E). change (val (param st (ln (val a)))) with ln_a. ring.
          - apply nth_error_None in E. destruct Sm as (_ & Lm). destruct S' as (_ & Lb). rewrite !nth_overflow by lia. ring. }
        rewrite EM. unfold Rdiv. ring.
  - unfold ad_pow. rewrite Ea, Eb. destruct (fs_nt1 _ _ _ F Ea) as (Z1 & Z2). destruct (fs_nt1 _ _ _ F' Eb) as (Z3 & Z4).
    split; [exact Ev|]. eapply result_ext; [apply param_ent|..]; cbv beta; intros; rewrite ?Z1, ?Z2, ?Z3, ?Z4; unfold Rdiv; ring.
Qed.

(** *** hypot *)
Definition sum_of {A} (g : A -> R) (l : list A) : R := fold_right (fun e s => g e + s) 0 l.
Lemma sum_of_zero : forall A (g : A -> R) l, (forall e, In e l -> g e = 0) -> sum_of g l = 0.
Proof. induction l as [|e l IH]; intros H; [reflexivity|]. change (g e + sum_of g l = 0). rewrite IH by (intros; apply H; now right). rewrite H by now left. ring. Qed.
Lemma fold_val : forall A (g : A -> R) l s, fold_left (fun s e => s + g e) l s = s + sum_of g l.
Proof. induction l as [|e l IH]; intros s; cbn; [ring|]. rewrite IH. fold (sum_of g l). ring. Qed.
Lemma fold_vadd : forall A (g : A -> list R) m l z, length z = m -> (forall e, In e l -> length (g e) = m) ->
  length (fold_left (fun s e => vadd s (g e)) l z) = m /\
  (forall c, nth c (fold_left (fun s e => vadd s (g e)) l z) 0 = nth c z 0 + sum_of (fun e => nth c (g e) 0) l).
Proof.
  induction l as [|e l IH]; intros z Hz Hg; cbn; [split; [assumption|intros; ring]|].
  assert (He := Hg e (or_introl eq_refl)).
  destruct (IH (vadd z (g e))) as (L & N); [autorewrite with adlen; lia|intros; apply Hg; now right|].
  split; [exact L|]. intros c. rewrite N, nth_vadd by lia. fold (sum_of (fun e => nth c (g e) 0) l). ring.
Qed.
Lemma sum_of_ext : forall A (g g' : A -> R) l, (forall e, In e l -> g e = g' e) -> sum_of g l = sum_of g' l.
Proof. induction l as [|e l IH]; intros H; [reflexivity|]. change (g e + sum_of g l = g' e + sum_of g' l). rewrite IH by (intros; apply H; now right). now rewrite H by now left. Qed.

Lemma hypot_ent : forall a b r, let vec := a :: b :: r in
  (forall e, In e vec -> sized e /\ flags e /\ nt1 e = nt1 a /\ nt2 e = nt2 a) -> (n <= dif a)%nat ->
  let v := sqrt (sum_of (fun e => val e * val e) vec) in
  let m k := sum_of (fun e => val e * nth k (D e) 0) vec / v in
  val (ad_hypot st vec) = v /\
  result st n (ad_hypot st vec) m
    (fun c k l => (sum_of (fun e => val e * nth c (DD e) 0) vec + sum_of (fun e => nth k (D e) 0 * nth l (D e) 0) vec - m k * m l) / v).
Proof.
  intros a b tl vec H Hd v m.
  assert (Ev : sqrt (fold_left (fun s e => s + val e * val e) vec 0) = v) by (unfold v; rewrite fold_val; f_equal; ring).
  change (ad_hypot st vec) with (let v := sqrt (fold_left (fun s e => s + val e * val e) vec 0) in
      let d := dif a in
      let m := if nt1 a && (1 <=? d)%nat then
                 vdiv v (fold_left (fun s e => vadd s (vscale (val e) (D e))) vec (gz st))
               else gz st in
      let r := if nt1 a && (2 <=? d)%nat then
                 let r := if nt2 a then fold_left (fun s e => vadd s (vscale (val e) (DD e))) vec (hz st) else hz st in
                 let r := vadd r (fold_left (fun s e => vadd s (tsquare st (D e))) vec (hz st)) in
                 vdiv v (vsub r (tsquare st m))
               else hz st in
      Ad d v m r (nt1 a) (nt1 a)).
  cbv zeta. rewrite Ev. split; [reflexivity|].
  destruct (fold_vadd _ (fun e => vscale (val e) (D e)) (ng st) vec (gz st)) as (L1 & N1);
    [autorewrite with adlen; reflexivity|intros e He; destruct (H e He) as (S & _); autorewrite with adlen; apply S|].
  destruct (fold_vadd _ (fun e => vscale (val e) (DD e)) nh vec (hz st)) as (L2 & N2);
    [autorewrite with adlen; reflexivity|intros e He; destruct (H e He) as (S & _); autorewrite with adlen; apply S|].
  destruct (fold_vadd _ (fun e => tsquare st (D e)) nh vec (hz st)) as (L3 & N3);
    [autorewrite with adlen; reflexivity|intros e He; autorewrite with adlen; reflexivity|].
  cbv beta in *.
  set (mm := if _ && (1 <=? _)%nat then _ else _).
  assert (Em : (1 <= n)%nat -> forall k, nth k mm 0 = m k).
  { intros Hn k. unfold mm, m. destruct (nt1 a) eqn:E; cbn [andb].
    - rewrite (proj2 (Nat.leb_le 1 (dif a))) by lia. ent. rewrite N1. ent. unfold Rdiv. rewrite Rplus_0_l. f_equal. apply sum_of_ext. intros. rewrite nth_vscale; ring.
    - ent. rewrite sum_of_zero; [unfold Rdiv; ring|]. intros e He. destruct (H e He) as (_ & Fe & E1 & _).
      try rewrite E in E1. destruct (fs_nt1 _ _ _ Fe E1) as (Z & _). rewrite Z. ring. }
  assert (Lm : length mm = ng st) by (unfold mm; ifs; len).
  set (rr := if _ && (2 <=? _)%nat then _ else _).
  assert (Lr : length rr = nh) by (unfold rr; ifs; len).
  assert (SR : sized (Ad (dif a) v mm rr (nt1 a) (nt1 a))) by (split; assumption).
  split; [exact SR|]. split; [|split].
  - apply fs_intro; [exact SR|..]; cbn [nt1 nt2 dif D DD].
    + intros E. unfold mm, rr. rewrite E. cbn [andb]. split; intros; ent; reflexivity.
    + intros E. unfold rr. rewrite E. cbn [andb]. intros; ent; reflexivity.
    + lia.
  - exact Em.
  - intros Hn c k l Hc. cbn [DD]. unfold rr. destruct (nt1 a) eqn:E; cbn [andb].
    + rewrite (proj2 (Nat.leb_le 2 (dif a))) by lia.
      assert (Er : nth c (if nt2 a then fold_left (fun s e => vadd s (vscale (val e) (DD e))) vec (hz st) else hz st) 0 = sum_of (fun e => val e * nth c (DD e) 0) vec).
      { destruct (nt2 a) eqn:E2.
        - rewrite N2. ent. rewrite Rplus_0_l. apply sum_of_ext. intros. rewrite nth_vscale; ring.
        - ent. rewrite sum_of_zero; [reflexivity|]. intros e He. destruct (H e He) as (_ & Fe & _ & E3).
          rewrite (fs_nt2 _ _ _ Fe E3). ring. }
      rewrite nth_vdiv, nth_vsub by (destruct (nt2 a); len). rewrite nth_vadd by (destruct (nt2 a); len).
      rewrite Er, N3, nth_hz, (nth_tsquare _ _ _ _ _ Hc), !Em by lia. unfold Rdiv. f_equal. rewrite Rplus_0_l. f_equal. f_equal.
      apply sum_of_ext. intros. now rewrite (nth_tsquare _ _ _ _ _ Hc).
    + ent. assert (Z : forall e, In e vec -> zeros e).
      { intros e He. destruct (H e He) as (_ & Fe & E1 & _). try rewrite E in E1. exact (fs_nt1 _ _ _ Fe E1). }
      assert (Zm : forall k, m k = 0).
      { intros k'. unfold m. rewrite sum_of_zero; [unfold Rdiv; ring|]. intros e He. rewrite (proj1 (Z e He)). ring. }
      rewrite !Zm, !sum_of_zero; [unfold Rdiv; ring|..]; intros e He; rewrite ?(proj1 (Z e He)), ?(proj2 (Z e He)); ring.
Qed.
End Elements.
