(** The invariant of expressions: every result carries the value, the gradient and
    the Hessian of the function the expression denotes. *)
From Coq Require Import Reals Lra Lia Psatz.
From Verif Require Import Prelude AdModel AdSpec AdProofs AdProofs2 AdProofs3 AdProofs4 AdProofs5 AdProofs6.
Open Scope R_scope.

Section Good.
Variable st : storage.
Hypothesis pairs : pairs_ok st.
Variable dir : nat -> nat -> R.
Variable x : nat -> R.
Variable n : nat.

Definition good (f : (nat -> R) -> R) (a : ad) : Prop := carries st dir x n f a /\ flags_sound st n a.

(** a pair of gradient elements and the Hessian element that belongs to it *)
Definition at_pair (m k l c : nat) : Prop :=
  (m <= n)%nat /\ (k < ng st)%nat /\ (l < ng st)%nat /\
  ((2 <= m)%nat -> nth_error (hidx st) c = Some (k, l) \/ nth_error (hidx st) c = Some (l, k)).

Lemma good_sized : forall f a, good f a -> sized st a.
Proof. intros f a ((_ & A & B & _) & _). now split. Qed.
Lemma good_flags : forall f a, good f a -> flags_sound st n a.
Proof. intros f a (_ & B). exact B. Qed.
Lemma good_val : forall f a, good f a -> val a = f x.
Proof. intros f a ((A & _) & _). exact A. Qed.
Lemma good_DJ : forall f a m k l c, good f a -> at_pair m k l c ->
  DJ m f (dir k) (dir l) x (nth k (D a) 0) (nth l (D a) 0) (nth c (DD a) 0).
Proof.
  intros f a m k l c ((_ & _ & _ & H1 & H2) & _) (Hm & Hk & Hl & Hc). split; intros H.
  - split; apply H1; lia || assumption.
  - destruct (Hc H) as [E|E]; apply (H2 ltac:(lia) _ _ _ E).
Qed.
Lemma good_intro : forall f r e1 e2, result st n r e1 e2 -> val r = f x ->
  (forall c k l, e2 c k l = e2 c l k) ->
  (forall m k l c, at_pair m k l c -> DJ m f (dir k) (dir l) x (e1 k) (e1 l) (e2 c k l)) -> good f r.
Proof.
  intros f r e1 e2 (S & F & E1 & E2) Hv Hs H. split; [|exact F].
  split; [exact Hv|]. split; [apply S|]. split; [apply S|]. split.
  - intros Hn k Hk. rewrite (E1 Hn). apply (H 1%nat k k 0%nat); [|lia]. repeat split; lia || assumption.
  - intros Hn c k l Hc. rewrite (E2 Hn _ _ _ Hc). destruct (pairs _ _ _ Hc) as (Hk & Hl). split.
    + apply (H 2%nat k l c); [|lia]. repeat split; try lia; try assumption. now left.
    + rewrite Hs. apply (H 2%nat l k c); [|lia]. repeat split; try lia; try assumption. now right.
Qed.

(** facts about an argument *)
Ltac use G := pose proof (good_sized _ _ G); pose proof (good_flags _ _ G); pose proof (good_val _ _ G).

Lemma good_same : forall f g a, good f a -> (forall y, f y = g y) -> good g a.
Proof.
  intros f g a G E. assert (R : result st n a (fun k => nth k (D a) 0) (fun c k l => nth c (DD a) 0)).
  { split; [exact (good_sized _ _ G)|]. split; [exact (good_flags _ _ G)|]. split; reflexivity. }
  apply (good_intro _ _ _ _ R); [rewrite (good_val _ _ G); apply E|reflexivity|].
  intros m k l c P. eapply DJ_same; [apply good_DJ; eassumption|exact E].
Qed.
Lemma good_const : forall c, good (fun _ => c) (param st c).
Proof. intros c. apply (good_intro _ _ _ _ (param_ent st n c)); [reflexivity|reflexivity|]. intros. apply DJ_const. Qed.
Lemma good_neg : forall f a, good f a -> good (fun y => - f y) (ad_neg st a).
Proof.
  intros f a G. use G. apply (good_intro _ _ _ _ (neg_ent st n a H H0)); [cbn; now rewrite H1|reflexivity|].
  intros m k l c P. apply DJ_opp. now apply good_DJ.
Qed.
Lemma good_shell : forall f a, good f a -> good f (make_shell st a).
Proof.
  intros f a G. use G. apply (good_intro _ _ _ _ (shell_ent st n a H H0)); [exact H1|reflexivity|].
  intros m k l c P. now apply good_DJ.
Qed.
Lemma good_add : forall f g a b, good f a -> good g b -> good (fun y => f y + g y) (ad_add st a b).
Proof.
  intros f g a b G G'. use G. use G'. apply (good_intro _ _ _ _ (add_ent st n a b H H2 H0 H3)); [cbn; now rewrite H1, H4|reflexivity|].
  intros m k l c P. apply DJ_plus; now apply good_DJ.
Qed.
Lemma good_sub : forall f g a b, good f a -> good g b -> good (fun y => f y - g y) (ad_sub st a b).
Proof.
  intros f g a b G G'. use G. use G'. apply (good_intro _ _ _ _ (sub_ent st n a b H H2 H0 H3)); [cbn; now rewrite H1, H4|reflexivity|].
  intros m k l c P. apply (DJ_same m (fun y => f y + - g y)); [|intros; ring].
  eapply DJ_eq; [apply DJ_plus; [|apply DJ_opp]; apply good_DJ; eassumption|..]; ring.
Qed.
Lemma good_mul : forall f g a b, good f a -> good g b -> good (fun y => f y * g y) (ad_mul st a b).
Proof.
  intros f g a b G G'. use G. use G'. apply (good_intro _ _ _ _ (mul_ent st n a b H H2 H0 H3)); [cbn; now rewrite H1, H4|intros; ring|].
  intros m k l c P. rewrite H1, H4. eapply DJ_eq; [apply DJ_mult; apply good_DJ; eassumption|..]; ring.
Qed.
Lemma good_div : forall f g a b, good f a -> good g b -> g x <> 0 -> ((n < 2)%nat \/ nt1 b = false \/ nt2 b = true) ->
  good (fun y => f y / g y) (ad_div st a b).
Proof.
  intros f g a b G G' Hg Hb. use G. use G'.
  apply (good_intro _ _ _ _ (div_ent st n a b H H2 H0 H3 Hb)); [cbn; rewrite H1, H4; reflexivity|intros; ring|].
  intros m k l c P. rewrite H1, H4.
  eapply DJ_eq; [apply (DJ_mult m f (fun y => / g y)); [apply good_DJ; eassumption|]|..].
  - apply (DJ_comp m g (fun y => / y)); [apply good_DJ; eassumption|apply fn2_inv; exact Hg].
  - cbv beta. ring.
  - cbv beta. ring.
  - cbv beta. ring.
Qed.

(** functions of one value *)
Lemma good_unary : forall f a r p p1 c0 v1 v2, good f a -> fn2 p p1 (f x) c0 ->
  result st n r (fun k => v1 * nth k (D a) 0) (fun c k l => v2 * nth k (D a) 0 * nth l (D a) 0 + v1 * nth c (DD a) 0) ->
  v1 = p1 (f x) -> v2 = c0 -> val r = p (f x) -> good (fun y => p (f y)) r.
Proof.
  intros f a r p p1 c0 v1 v2 G P R -> -> Hv. apply (good_intro _ _ _ _ R); [exact Hv|intros; ring|].
  intros m k l c Q. apply DJ_comp; [now apply good_DJ|assumption].
Qed.
Lemma good_fn : forall f a g, good f a -> fn_dom g (f x) -> good (fun y => fn_val g (f y)) (ad_unary st (op_of g) a).
Proof.
  intros f a g G Hd. use G. destruct (op_of_eq g (dif a) (val a)) as (O0 & O1 & O2).
  eapply good_unary; [exact G|apply fn_table; exact Hd|apply unary_ent; eassumption|now rewrite H1|now rewrite H1|].
  rewrite <- H1, <- O0. unfold ad_unary. destruct (op_of g (dif a) (val a)) as ((v, w1), w2). now destruct (nt1 a).
Qed.
Lemma good_sq : forall f a, good f a -> good (fun y => f y * f y) (ad_sq st a).
Proof.
  intros f a G. use G. apply (good_unary f a _ (fun y => y * y) (fun y => 2 * y) 2 (2 * val a) 2 G (fn2_sq _)); [|now rewrite H1|reflexivity|].
  - eapply result_ext; [apply sq_ent; assumption|..]; cbv beta; intros; ring.
  - unfold ad_sq. rewrite <- H1. now destruct (nt1 a).
Qed.
Lemma good_powz : forall f a q, good f a -> ((q < 0)%Z -> f x <> 0) -> good (fun y => powerRZ (f y) q) (ad_powz st a q).
Proof.
  intros f a q G Hq. use G. rewrite <- H1 in Hq. destruct (powz_ent st n a q H H0 Hq) as (R & V).
  eapply (good_unary f a _ (fun y => powerRZ y q)); [exact G|apply fn2_powZ; now rewrite <- H1|exact R|now rewrite H1|now rewrite H1|now rewrite V, H1].
Qed.
Lemma good_powr : forall f a q, good f a -> (q <> 0 -> 0 < f x) ->
  good (fun y => if Req_EM_T q 0 then 1 else std_pow (f y) q) (ad_powr st a q).
Proof.
  intros f a q G Hq. use G. assert (Hq' : q <> 0 -> val a <> 0) by (intros E; specialize (Hq E); lra).
  pose proof (powr_ent st n a q H H0 Hq') as R. cbv zeta in R.
  destruct (Req_EM_T q 0) as [E|E].
  - apply (good_intro _ _ _ _ R); [unfold ad_powr; destruct (Req_EM_T q 0); [reflexivity|easy]|intros; subst; ring|].
    intros m k l c P. eapply DJ_eq; [apply DJ_const|..]; subst; ring.
  - specialize (Hq E). eapply (good_unary f a _ (fun y => std_pow y q)); [exact G|apply fn2_powR; exact Hq|exact R|..]; cbv beta.
    + rewrite H1, std_pow_pos, Rpower_m1 by assumption. reflexivity.
    + rewrite H1, std_pow_pos, !Rpower_m1 by assumption. field. lra.
    + unfold ad_powr. destruct (Req_EM_T q 0); [easy|]. rewrite <- H1. now destruct (nt1 a).
Qed.

(** pow of two values *)
Lemma good_pow : forall f g a b, good f a -> good g b -> 0 < f x -> good (fun y => std_pow (f y) (g y)) (ad_pow st a b).
Proof.
  intros f g a b G G' Hf. use G. use G'. rewrite <- H1 in Hf.
  destruct (pow_ent_all st n a b H H2 H0 H3 Hf) as (V & R). cbv zeta in R.
  apply (good_intro _ _ _ _ R); [rewrite V, H1, H4; rewrite std_pow_pos by lra; reflexivity|intros; ring|].
  intros m k l c P. rewrite H1, H4. rewrite H1 in Hf.
  pose proof (good_DJ _ _ _ _ _ _ G P) as F1. pose proof (good_DJ _ _ _ _ _ _ G' P) as F2.
  eapply (DJ_local m (fun y => exp (g y * ln (f y))) _ f); [|exact F1|exact Hf|].
  - eapply DJ_eq; [apply (DJ_comp m (fun y => g y * ln (f y)) exp exp); [apply DJ_mult; [exact F2|apply (DJ_comp m f ln); [exact F1|apply (fn_table Log); exact Hf]]|apply (fn_table Exp); exact I]|..];
      cbv beta; unfold op1, op2; cbn [op_of fst snd Nat.leb]; unfold Rpower; field; lra.
  - intros y Hy. rewrite std_pow_pos by assumption. reflexivity.
Qed.

Lemma good_atan2 : forall f g a b, good f a -> good g b -> (f x <> 0 \/ 0 < g x) ->
  good (fun y => std_atan2 (f y) (g y)) (ad_atan2 st a b).
Proof.
  intros f g a b G G' Hp. use G. use G'. pose proof (atan2_ent st n a b H H2 H0 H3) as R. cbv zeta in R.
  apply (good_intro _ _ _ _ R); [cbn [val ad_atan2]; now rewrite H1, H4|intros; ring|].
  intros m k l c P. rewrite H1, H4.
  pose proof (good_DJ _ _ _ _ _ _ G P) as F1. pose proof (good_DJ _ _ _ _ _ _ G' P) as F2.
  assert (W : forall p q, 0 < p * p \/ 0 < q * q -> p * p + q * q <> 0) by (intros; nra).
  assert (At : forall t, 1 + t * t <> 0) by (intros; nra).
  destruct (Rtotal_order (f x) 0) as [Hf|[Hf|Hf]].
  - eapply (DJ_local m (fun y => - (PI / 2) + - atan (g y * / f y)) _ (fun y => - f y)); [|apply DJ_opp; exact F1|lra|].
    + eapply DJ_eq; [apply DJ_plus; [apply DJ_const|apply DJ_opp; apply (DJ_comp m (fun y => g y * / f y) atan);
        [apply (DJ_mult m g (fun y => / f y)); [exact F2|apply (DJ_comp m f (fun y => / y)); [exact F1|apply fn2_inv; lra]]|apply (fn_table Atan); exact I]]|..];
        cbv beta; unfold op1, op2; cbn [op_of fst snd Nat.leb]; field; repeat split; try lra; nra.
    + intros y Hy. rewrite atan2_down by lra. reflexivity.
  - assert (Hg : 0 < g x) by (destruct Hp; [easy|assumption]).
    eapply (DJ_local m (fun y => atan (f y * / g y)) _ g); [|exact F2|exact Hg|].
    + eapply DJ_eq; [apply (DJ_comp m (fun y => f y * / g y) atan);
        [apply (DJ_mult m f (fun y => / g y)); [exact F1|apply (DJ_comp m g (fun y => / y)); [exact F2|apply fn2_inv; lra]]|apply (fn_table Atan); exact I]|..];
        cbv beta; unfold op1, op2; cbn [op_of fst snd Nat.leb]; field; repeat split; try lra; nra.
    + intros y Hy. rewrite atan2_right by lra. reflexivity.
  - eapply (DJ_local m (fun y => PI / 2 + - atan (g y * / f y)) _ f); [|exact F1|lra|].
    + eapply DJ_eq; [apply DJ_plus; [apply DJ_const|apply DJ_opp; apply (DJ_comp m (fun y => g y * / f y) atan);
        [apply (DJ_mult m g (fun y => / f y)); [exact F2|apply (DJ_comp m f (fun y => / y)); [exact F1|apply fn2_inv; lra]]|apply (fn_table Atan); exact I]]|..];
        cbv beta; unfold op1, op2; cbn [op_of fst snd Nat.leb]; field; repeat split; try lra; nra.
    + intros y Hy. rewrite atan2_up by lra. reflexivity.
Qed.

Lemma good_sign : forall f a, good f a -> f x <> 0 ->
  good (fun y => if Rlt_dec 0 (f y) then 1 else if Rlt_dec (f y) 0 then -1 else 0) (ad_sign st a).
Proof.
  intros f a G Hf. use G. apply (good_intro _ _ _ _ (sign_ent st n a)); [|reflexivity|].
  - cbn [ad_sign val]. rewrite H1. destruct (Rlt_dec 0 (f x)), (Rlt_dec (f x) 0); lra.
  - intros m k l c P. pose proof (good_DJ _ _ _ _ _ _ G P) as F1. destruct (Rlt_dec 0 (f x)) as [Hp|Hp].
    + eapply (DJ_local m (fun _ => 1) _ f); [apply DJ_const|exact F1|assumption|].
      intros y Hy. destruct (Rlt_dec 0 (f y)); lra.
    + eapply (DJ_local m (fun _ => -1) _ (fun y => - f y)); [apply DJ_const|apply DJ_opp; exact F1|lra|].
      intros y Hy. destruct (Rlt_dec 0 (f y)), (Rlt_dec (f y) 0); lra.
Qed.
Lemma good_abs : forall f a, good f a -> f x <> 0 -> good (fun y => Rabs (f y)) (ad_abs st a).
Proof.
  intros f a G Hf. use G. unfold ad_abs. rewrite H1. destruct (Rle_dec 0 (f x)) as [Hp|Hp].
  - apply (good_intro _ _ _ _ (make_ent st n a H H0)); [cbn [val make_ADVal]; rewrite H1, Rabs_right; lra|reflexivity|].
    intros m k l c P. pose proof (good_DJ _ _ _ _ _ _ G P) as F1.
    eapply (DJ_local m f _ f); [exact F1|exact F1|lra|]. intros y Hy. rewrite Rabs_right; lra.
  - apply (good_intro _ _ _ _ (neg_ent st n a H H0)); [cbn [val ad_neg]; rewrite H1, Rabs_left; lra|reflexivity|].
    intros m k l c P. pose proof (good_DJ _ _ _ _ _ _ G P) as F1.
    eapply (DJ_local m (fun y => - f y) _ (fun y => - f y)); [apply DJ_opp; exact F1|apply DJ_opp; exact F1|lra|]. intros y Hy. rewrite Rabs_left; lra.
Qed.
Lemma orb_l : forall p q, (p || q)%bool = false -> p = false.
Proof. now intros [] []. Qed.
Lemma orb_r : forall p q, (p || q)%bool = false -> q = false.
Proof. now intros [] []. Qed.
Lemma good_min : forall f g a b, good f a -> good g b -> f x <> g x -> good (fun y => Rmin (f y) (g y)) (ad_min st a b).
Proof.
  intros f g a b G G' Hne. use G. use G'. unfold ad_min. rewrite H1, H4. destruct (Rle_dec (f x) (g x)) as [Hp|Hp].
  - apply (good_intro _ _ _ _ (take_ent st n a _ _ H H0 (orb_l _ _) (orb_l _ _))); [cbn [val take]; rewrite H1, Rmin_left; lra|reflexivity|].
    intros m k l c P. pose proof (good_DJ _ _ _ _ _ _ G P) as F1. pose proof (good_DJ _ _ _ _ _ _ G' P) as F2.
    eapply (DJ_local m f _ (fun y => g y + - f y)); [exact F1|apply DJ_plus; [exact F2|apply DJ_opp; exact F1]|lra|]. intros y Hy. rewrite Rmin_left; lra.
  - apply (good_intro _ _ _ _ (take_ent st n b _ _ H2 H3 (orb_r _ _) (orb_r _ _))); [cbn [val take]; rewrite H4, Rmin_right; lra|reflexivity|].
    intros m k l c P. pose proof (good_DJ _ _ _ _ _ _ G P) as F1. pose proof (good_DJ _ _ _ _ _ _ G' P) as F2.
    eapply (DJ_local m g _ (fun y => f y + - g y)); [exact F2|apply DJ_plus; [exact F1|apply DJ_opp; exact F2]|lra|]. intros y Hy. rewrite Rmin_right; lra.
Qed.
Lemma good_max : forall f g a b, good f a -> good g b -> f x <> g x -> good (fun y => Rmax (f y) (g y)) (ad_max st a b).
Proof.
  intros f g a b G G' Hne. use G. use G'. unfold ad_max. rewrite H1, H4. destruct (Rle_dec (g x) (f x)) as [Hp|Hp].
  - apply (good_intro _ _ _ _ (take_ent st n a _ _ H H0 (orb_l _ _) (orb_l _ _))); [cbn [val take]; rewrite H1, Rmax_left; lra|reflexivity|].
    intros m k l c P. pose proof (good_DJ _ _ _ _ _ _ G P) as F1. pose proof (good_DJ _ _ _ _ _ _ G' P) as F2.
    eapply (DJ_local m f _ (fun y => f y + - g y)); [exact F1|apply DJ_plus; [exact F1|apply DJ_opp; exact F2]|lra|]. intros y Hy. rewrite Rmax_left; lra.
  - apply (good_intro _ _ _ _ (take_ent st n b _ _ H2 H3 (orb_r _ _) (orb_r _ _))); [cbn [val take]; rewrite H4, Rmax_right; lra|reflexivity|].
    intros m k l c P. pose proof (good_DJ _ _ _ _ _ _ G P) as F1. pose proof (good_DJ _ _ _ _ _ _ G' P) as F2.
    eapply (DJ_local m g _ (fun y => g y + - f y)); [exact F2|apply DJ_plus; [exact F2|apply DJ_opp; exact F1]|lra|]. intros y Hy. rewrite Rmax_right; lra.
Qed.

(** hypot of the values r e of the functions F e *)
Lemma sum_of_map : forall A B (h : A -> B) (g : B -> R) l, sum_of g (map h l) = sum_of (fun e => g (h e)) l.
Proof. intros A B h g l. induction l as [|e l IH]; [reflexivity|]. cbn. now f_equal. Qed.
Lemma good_hypot : forall E (F : E -> (nat -> R) -> R) (r : E -> ad) e0 e1 tl, let l := e0 :: e1 :: tl in
  (forall e, In e l -> good (F e) (r e) /\ nt1 (r e) = nt1 (r e0) /\ nt2 (r e) = nt2 (r e0)) -> (n <= dif (r e0))%nat ->
  0 < fold_right (fun e s => F e x * F e x + s) 0 l ->
  good (fun y => sqrt (fold_right (fun e s => F e y * F e y + s) 0 l)) (ad_hypot st (map r l)).
Proof.
  intros E F r e0 e1 tl l H Hn Hp.
  destruct (hypot_ent st n (r e0) (r e1) (map r tl)) as (V & RR); [|exact Hn|].
  { intros a Ha. change (In a (map r l)) in Ha. apply in_map_iff in Ha as (e & <- & He). destruct (H e He) as (G & E1 & E2).
    split; [exact (good_sized _ _ G)|]. split; [exact (good_flags _ _ G)|]. now split. }
  change (r e0 :: r e1 :: map r tl) with (map r l) in V, RR. cbv zeta in RR.
  set (Q := fold_right (fun e s => F e x * F e x + s) 0 l) in *.
  assert (EQ : sum_of (fun e => val e * val e) (map r l) = Q).
  { rewrite sum_of_map. apply sum_of_ext. intros e He. destruct (H e He) as (G & _). now rewrite (good_val _ _ G). }
  assert (Es : forall g : E -> R, sum_of (fun e => val (r e) * g e) l = sum_of (fun e => F e x * g e) l).
  { intros g. apply sum_of_ext. intros e He. destruct (H e He) as (G & _). now rewrite (good_val _ _ G). }
  assert (Hs : sqrt Q <> 0) by (apply Rgt_not_eq; now apply sqrt_lt_R0).
  apply (good_intro _ _ _ _ RR).
  - rewrite V, EQ. reflexivity.
  - intros c k l'. f_equal. f_equal; [|ring]. f_equal. apply sum_of_ext. intros; ring.
  - intros m k l' c P. rewrite !EQ, !sum_of_map, !Es.
    eapply DJ_eq; [apply (DJ_comp m (fun y => fold_right (fun e s => F e y * F e y + s) 0 l) sqrt);
      [apply (DJ_sumsq m E F (fun e => nth k (D (r e)) 0) (fun e => nth l' (D (r e)) 0) (fun e => nth c (DD (r e)) 0)); intros e He; destruct (H e He) as (G & _); now apply good_DJ
      |apply (fn_table Sqrt); exact Hp]|..]; fold Q; unfold op1, op2; cbn [op_of fst snd Nat.leb].
    + field. assumption.
    + field. assumption.
    + replace (4 * sqrt Q * Q) with (4 * sqrt Q * (sqrt Q * sqrt Q)) by (rewrite sqrt_sqrt by lra; ring). field. assumption.
Qed.

(** a variable *)
Lemma good_var : forall i m, (n <= m)%nat -> dir = unit_dir -> good (fun y => y i) (var st i (x i) m).
Proof.
  intros i m Hm Hd.
  assert (Nth : forall k, (k < ng st)%nat -> nth k (D (var st i (x i) m)) 0 = if (k =? i)%nat then 1 else 0).
  { intros k Hk. cbn [D var]. erewrite nth_error_map_nth; [reflexivity|].
    rewrite (nth_error_nth' _ 0%nat) by (now rewrite seq_length). now rewrite seq_nth. }
  assert (L : forall k y, D1 (fun y => y i) (unit_dir k) y (if (k =? i)%nat then 1 else 0)).
  { intros k y. unfold D1, line, unit_dir. rewrite Nat.eqb_sym. destruct (i =? k)%nat eqn:E.
    - eapply lim_eq; [apply lim_plus; [apply lim_const|apply lim_mult; [apply lim_id|apply lim_const]]|]. cbv beta. ring.
    - eapply lim_eq; [apply lim_plus; [apply lim_const|apply lim_mult; [apply lim_id|apply lim_const]]|]. cbv beta. ring. }
  split; [split; [reflexivity|split; [|split; [|split]]]|].
  - cbn [D var]. now rewrite map_length, seq_length.
  - cbn [DD var]. apply len_hz.
  - intros _ k Hk. rewrite Nth, Hd by assumption. apply L.
  - intros _ c k l Hc. cbn [DD var]. rewrite nth_hz, Hd.
    split; (eexists 1, _; split; [lra|]; split; [intros; apply L|apply lim_const]).
  - unfold flags_sound. cbn [var nt1 nt2 dif D DD]. split; [discriminate|]. split; [reflexivity|lia].
Qed.
End Good.

(** induction over expressions, through the lists of hypot *)
Lemma expr_rect' : forall P : expr -> Prop,
  (forall n, P (Leaf n)) -> (forall c, P (Const c)) -> (forall a, P a -> P (Neg a)) ->
  (forall a b, P a -> P b -> P (Add a b)) -> (forall a b, P a -> P b -> P (Sub a b)) ->
  (forall a b, P a -> P b -> P (Mul a b)) -> (forall a b, P a -> P b -> P (Div a b)) ->
  (forall a q, P a -> P (PowR a q)) -> (forall a q, P a -> P (PowZ a q)) -> (forall a b, P a -> P b -> P (Pow a b)) ->
  (forall a, P a -> P (Sq a)) -> (forall f a, P a -> P (Fn f a)) -> (forall a b, P a -> P b -> P (Atan2 a b)) ->
  (forall l, (forall e, In e l -> P e) -> P (Hypot l)) -> (forall a, P a -> P (Abs a)) -> (forall a, P a -> P (Sign a)) ->
  (forall a b, P a -> P b -> P (Min a b)) -> (forall a b, P a -> P b -> P (Max a b)) -> (forall a, P a -> P (Shell a)) ->
  forall e, P e.
Proof.
  intros P H1 H2 H3 H4 H5 H6 H7 H8 H9 H10 H11 H12 H13 H14 H15 H16 H17 H18 H19.
  fix IH 1. intros e. destruct e.
  - apply H1. - apply H2. - apply H3, IH. - apply H4; apply IH. - apply H5; apply IH. - apply H6; apply IH. - apply H7; apply IH.
  - apply H8, IH. - apply H9, IH. - apply H10; apply IH. - apply H11, IH. - apply H12, IH. - apply H13; apply IH.
  - apply H14. induction l as [|e l IHl]; intros e' He; [destruct He|]. destruct He as [E|He]; [rewrite <- E; apply IH|now apply IHl].
  - apply H15, IH. - apply H16, IH. - apply H17; apply IH. - apply H18; apply IH. - apply H19, IH.
Qed.

Lemma all_In : forall A (P : A -> Prop) l, all P l -> forall a, In a l -> P a.
Proof. intros A P l. induction l as [|b l IH]; intros H a Ha; [destruct Ha|]. destruct H as (Hb & H). destruct Ha as [<-|Ha]; auto. Qed.

Theorem good_run : forall st dir x n leaf u, pairs_ok st ->
  (forall i, good st dir x n (u i) (leaf i)) ->
  forall e, smooth u x e -> admissible st leaf n e -> good st dir x n (denote u e) (run st leaf e).
Proof.
  intros st dir x n leaf u Hp HL. induction e using expr_rect'; cbn [smooth admissible]; intros HS HA; cbn [run].
  - exact (HL n0).
  - apply (good_const st Hp dir x n).
  - apply (good_neg st Hp dir x n); auto.
  - destruct HS, HA. apply (good_add st Hp dir x n); auto.
  - destruct HS, HA. apply (good_sub st Hp dir x n); auto.
  - destruct HS, HA. apply (good_mul st Hp dir x n); auto.
  - destruct HS as (? & ? & ?), HA as (? & ? & ?). apply (good_div st Hp dir x n); auto.
  - destruct HS. apply (good_powr st Hp dir x n); auto.
  - destruct HS. apply (good_powz st Hp dir x n); auto.
  - destruct HS as (? & ? & ?), HA. apply (good_pow st Hp dir x n); auto.
  - apply (good_sq st Hp dir x n); auto.
  - destruct HS. apply (good_fn st Hp dir x n); auto.
  - destruct HS as (? & ? & ?), HA. apply (good_atan2 st Hp dir x n); auto.
  - destruct HS as (HS & Hpos), HA as (HA & HX). destruct l as [|e0 [|e1 tl]]; [easy|easy|]. destruct HX as (Hn & HX).
    apply (good_hypot st Hp dir x n expr (denote u) (run st leaf) e0 e1 tl); [|exact Hn|exact Hpos].
    intros e He. split; [apply H; [exact He|exact (all_In _ _ _ HS e He)|exact (all_In _ _ _ HA e He)]|].
    exact (all_In _ _ _ HX e He).
  - destruct HS. apply (good_abs st Hp dir x n); auto.
  - destruct HS. apply (good_sign st Hp dir x n); auto.
  - destruct HS as (? & ? & ?), HA. apply (good_min st Hp dir x n); auto.
  - destruct HS as (? & ? & ?), HA. apply (good_max st Hp dir x n); auto.
  - apply (good_shell st Hp dir x n); auto.
Qed.
