(** Barycentric coordinates and their derivatives; derivatives of the basis functions. *)
From Verif Require Import Prelude RSum GeoModel GeoSpec SpModel BasModel BasSpec.
Local Open Scope R_scope.

Ltac four i := destruct i as [|[|[|[|i]]]]; [| | | |exfalso; lia].
Ltac three i := destruct i as [|[|[|i]]]; [| | |exfalso; lia].

(** *** lam *)
Lemma lam_shift : forall x k y c t, (k < 4)%nat -> (c < 3)%nat -> nondegenerate x -> lam x k (shift y c t) = lam x k y + t * dlam x k c.
Proof.
  intros x k y c t Hk Hc Hx. unfold nondegenerate in Hx. unfold dlam, lam. set (D := det3 (edge_matrix x)) in *.
  assert (E : det3 (edge_matrix (repl x k (shift y c t))) = det3 (edge_matrix (repl x k y)) + t * (det3 (edge_matrix (repl x k (axis c))) - det3 (edge_matrix (repl x k (fun _ => 0))))).
  { four k; three c; unfold det3, edge_matrix, repl, shift, axis, delta; cbn [Nat.eqb]; ring. }
  rewrite E. field. exact Hx.
Qed.
Lemma lam_bary : forall x L k, (k < 4)%nat -> nondegenerate x -> Rsum 4 L = 1 -> lam x k (fun i => Rsum 4 (fun j => L j * x j i)) = L k.
Proof.
  intros x L k Hk Hx HL. unfold nondegenerate in Hx. unfold lam. set (D := det3 (edge_matrix x)) in *.
  assert (E : det3 (edge_matrix (repl x k (fun i => Rsum 4 (fun j => L j * x j i)))) = L k * D).
  { subst D. cbn [Rsum] in HL. assert (E0 : L 0%nat = 1 - L 1%nat - L 2%nat - L 3%nat) by lra.
    four k; unfold det3, edge_matrix, repl; cbn [Nat.eqb Rsum]; rewrite E0; ring. }
  rewrite E. field. exact Hx.
Qed.
Lemma lam_sum : forall x y, nondegenerate x -> Rsum 4 (fun k => lam x k y) = 1.
Proof.
  intros x y Hx. unfold nondegenerate in Hx. cbn [Rsum]. unfold lam.
  assert (E : det3 (edge_matrix (repl x 0 y)) + det3 (edge_matrix (repl x 1 y)) + det3 (edge_matrix (repl x 2 y)) + det3 (edge_matrix (repl x 3 y)) = det3 (edge_matrix x)).
  { unfold det3, edge_matrix, repl; cbn [Nat.eqb]; ring. }
  set (D := det3 (edge_matrix x)) in *. field_simplify; [|exact Hx]. rewrite <- E. field. rewrite E. exact Hx.
Qed.
Lemma lam_point : forall x y i, (i < 3)%nat -> nondegenerate x -> Rsum 4 (fun k => lam x k y * x k i) = y i.
Proof.
  intros x y i Hi Hx. unfold nondegenerate in Hx. cbn [Rsum]. unfold lam.
  assert (E : det3 (edge_matrix (repl x 0 y)) * x 0%nat i + det3 (edge_matrix (repl x 1 y)) * x 1%nat i + det3 (edge_matrix (repl x 2 y)) * x 2%nat i + det3 (edge_matrix (repl x 3 y)) * x 3%nat i = y i * det3 (edge_matrix x)).
  { three i; unfold det3, edge_matrix, repl; cbn [Nat.eqb]; ring. }
  set (D := det3 (edge_matrix x)) in *. apply (Rmult_eq_reg_r D); [|exact Hx]. rewrite <- E. field. exact Hx.
Qed.
Lemma lam_barycentric : forall x y, nondegenerate x -> barycentric x y (fun k => lam x k y).
Proof. intros x y Hx. split; [now apply lam_sum|]. intros i Hi. now apply lam_point. Qed.
Lemma lam_ext : forall x k y y', (forall i, (i < 3)%nat -> y i = y' i) -> lam x k y = lam x k y'.
Proof.
  intros x k y y' H. unfold lam. f_equal. unfold det3, edge_matrix, repl.
  destruct k as [|[|[|[|k]]]]; cbn [Nat.eqb]; rewrite ?(H 0%nat), ?(H 1%nat), ?(H 2%nat) by lia; reflexivity.
Qed.
Lemma lam_vertex : forall x k j, (k < 4)%nat -> (j < 4)%nat -> nondegenerate x -> lam x k (x j) = delta k j.
Proof.
  intros x k j Hk Hj Hx. unfold lam, nondegenerate in *. unfold delta. destruct (Nat.eqb_spec k j) as [->|Hne].
  - replace (det3 (edge_matrix (repl x j (x j)))) with (det3 (edge_matrix x)); [field; exact Hx|].
    four j; unfold det3, edge_matrix, repl; cbn [Nat.eqb]; reflexivity.
  - replace (det3 (edge_matrix (repl x k (x j)))) with 0; [field; exact Hx|].
    four k; four j; try congruence; unfold det3, edge_matrix, repl; cbn [Nat.eqb]; ring.
Qed.
(** *** PSI *)
Lemma dlam_sum : forall x c, (c < 3)%nat -> nondegenerate x -> dlam x 0 c = - dlam x 1 c - dlam x 2 c - dlam x 3 c.
Proof.
  intros x c Hc Hx. unfold dlam. pose proof (lam_sum x (axis c) Hx) as A. pose proof (lam_sum x (fun _ => 0) Hx) as B. cbn [Rsum] in A, B. lra.
Qed.
Lemma dlam_inverse : forall x, nondegenerate x -> inverse_of (edge_matrix x) (fun j k => dlam x (S j) k).
Proof.
  intros x Hx i j Hi Hj. unfold nondegenerate in Hx. unfold dlam, lam. set (D := det3 (edge_matrix x)) in *. cbn [Rsum].
  split; apply (Rmult_eq_reg_r D); try exact Hx.
  - transitivity (delta i j * D); [|reflexivity].
    match goal with |- ?e = _ => replace e with ((0 + (det3 (edge_matrix (repl x (S i) (axis 0))) - det3 (edge_matrix (repl x (S i) (fun _ => 0)))) * edge_matrix x 0 j + (det3 (edge_matrix (repl x (S i) (axis 1))) - det3 (edge_matrix (repl x (S i) (fun _ => 0)))) * edge_matrix x 1 j + (det3 (edge_matrix (repl x (S i) (axis 2))) - det3 (edge_matrix (repl x (S i) (fun _ => 0)))) * edge_matrix x 2 j)) by (field; exact Hx) end.
    subst D. three i; three j; unfold det3, edge_matrix, repl, axis, delta; cbn [Nat.eqb]; ring.
  - transitivity (delta i j * D); [|reflexivity].
    match goal with |- ?e = _ => replace e with ((0 + edge_matrix x i 0 * (det3 (edge_matrix (repl x 1 (axis j))) - det3 (edge_matrix (repl x 1 (fun _ => 0)))) + edge_matrix x i 1 * (det3 (edge_matrix (repl x 2 (axis j))) - det3 (edge_matrix (repl x 2 (fun _ => 0)))) + edge_matrix x i 2 * (det3 (edge_matrix (repl x 3 (axis j))) - det3 (edge_matrix (repl x 3 (fun _ => 0)))))) by (field; exact Hx) end.
    subst D. three i; three j; unfold det3, edge_matrix, repl, axis, delta; cbn [Nat.eqb]; ring.
Qed.
Lemma inverse_unique : forall a b b', inverse_of a b -> inverse_of a b' -> forall i j, (i < 3)%nat -> (j < 3)%nat -> b i j = b' i j.
Proof.
  intros a b b' H H' i j Hi Hj.
  transitivity (Rsum 3 (fun k => b i k * Rsum 3 (fun l => a k l * b' l j))).
  - rewrite (Rsum_single 3 j).
    + destruct (H' j j Hj Hj) as [_ E]. rewrite E. unfold delta. rewrite Nat.eqb_refl. ring.
    + exact Hj.
    + intros k Hk Hne. destruct (H' k j Hk Hj) as [_ E]. rewrite E. unfold delta. destruct (Nat.eqb_spec k j); [congruence|]. ring.
  - transitivity (Rsum 3 (fun l => Rsum 3 (fun k => b i k * a k l) * b' l j)).
    + cbn [Rsum]. ring.
    + rewrite (Rsum_single 3 i).
      * destruct (H i i Hi Hi) as [E _]. rewrite E. unfold delta. rewrite Nat.eqb_refl. ring.
      * exact Hi.
      * intros k Hk Hne. destruct (H i k Hi Hk) as [E _]. rewrite E. unfold delta. destruct (Nat.eqb_spec i k); [congruence|]. ring.
Qed.
Lemma psi_dlam : forall x P, nondegenerate x -> inverse_of (edge_matrix x) P -> forall i j, (i < 3)%nat -> (j < 3)%nat -> P i j = dlam x (S i) j.
Proof. intros x P Hx HP. apply (inverse_unique (edge_matrix x)); [exact HP|]. now apply dlam_inverse. Qed.

(** *** Derivatives along a line *)
Definition dl (f : R -> R) (d : R) : Prop := derivable_pt_lim f 0 d.
Lemma dl_const : forall c, dl (fun _ => c) 0.
Proof. intros c. apply derivable_pt_lim_const. Qed.
Lemma dl_id : dl (fun t => t) 1.
Proof. apply derivable_pt_lim_id. Qed.
Lemma dl_add : forall f g a b, dl f a -> dl g b -> dl (fun t => f t + g t) (a + b).
Proof. intros. now apply derivable_pt_lim_plus. Qed.
Lemma dl_sub : forall f g a b, dl f a -> dl g b -> dl (fun t => f t - g t) (a - b).
Proof. intros. now apply derivable_pt_lim_minus. Qed.
Lemma dl_mul : forall f g a b, dl f a -> dl g b -> dl (fun t => f t * g t) (a * g 0 + f 0 * b).
Proof. intros. now apply derivable_pt_lim_mult. Qed.
Lemma dl_ext : forall f g d, (forall t, f t = g t) -> dl g d -> dl f d.
Proof. intros f g d H Hg e He. destruct (Hg e He) as (del & Hd). exists del. intros h Hh Hl. rewrite !H. now apply Hd. Qed.
Lemma dl_eq : forall f d d', dl f d -> d = d' -> dl f d'.
Proof. intros. now subst. Qed.
Lemma dl_div : forall f a c, dl f a -> dl (fun t => f t / c) (a / c).
Proof. intros f a c H. apply (dl_eq _ (a * / c + f 0 * 0)); [|unfold Rdiv; ring]. apply (dl_mul f (fun _ => / c)); [exact H|apply dl_const]. Qed.
Lemma dl_lam : forall x k y c, (k < 4)%nat -> (c < 3)%nat -> nondegenerate x -> dl (fun t => lam x k (shift y c t)) (dlam x k c).
Proof.
  intros x k y c Hk Hc Hx. apply (dl_ext _ (fun t => lam x k y + t * dlam x k c)); [intros t; now apply lam_shift|].
  apply (dl_eq _ (0 + (1 * dlam x k c + 0 * 0))); [|ring]. apply dl_add; [apply dl_const|]. apply (dl_mul (fun t => t)); [apply dl_id|apply dl_const].
Qed.
Lemma shift_0 : forall y c i, shift y c 0 i = y i.
Proof. intros y c i. unfold shift. destruct (i =? c)%nat; lra. Qed.
Lemma lam_shift0 : forall x k y c, lam x k (shift y c 0) = lam x k y.
Proof. intros x k y c. apply lam_ext. intros. apply shift_0. Qed.

(** The derivative of component c of basis function i along axis k *)
Definition dshape (s : fem) (x : tetra) (i c k : nat) (y : nat -> R) : R :=
  let l j := lam x j y in let d j := dlam x j k in
  match s with
  | P0 => 0
  | P1 => d i
  | P2 => if (i <? 4)%nat then d i * (4 * l i - 1) else let (a, b) := edge_of (i - 4) in 4 * (d a * l b + l a * d b)
  | P3 =>
      if (i <? 4)%nat then d i * ((27 / 2 * l i - 9) * l i + 1)
      else if (i <? 16)%nat then
        let (a, b) := edge_of ((i - 4) / 2) in
        if Nat.even i then 9 / 2 * (d a * (6 * l a - 1) * l b + d b * (3 * l a - 1) * l a) else 9 / 2 * (d b * (6 * l b - 1) * l a + d a * (3 * l b - 1) * l b)
      else let a := ((i - 16) mod 4)%nat in let b := ((i - 16 + 1) mod 4)%nat in let e := ((i - 16 + 2) mod 4)%nat in
        27 * (d a * l b * l e + l a * d b * l e + l a * l b * d e)
  | B2 => let (a, b) := edge_of i in 4 * (d a * l b + l a * d b)
  | B4 => 256 * (d 0%nat * (l 1%nat * l 2%nat * l 3%nat) + d 1%nat * (l 0%nat * l 2%nat * l 3%nat) + d 2%nat * (l 0%nat * l 1%nat * l 3%nat) + d 3%nat * (l 0%nat * l 1%nat * l 2%nat))
  | CR1 => - 3 * d (opp i)
  | RT0 => face_area x i / (3 * volume x) * delta c k
  | ND0 => let (a, b) := edge_of i in edge_length x a b * (d a * dlam x b c - d b * dlam x a c)
  end.
Lemma edge_of_lt : forall e a b, edge_of e = (a, b) -> (a < 4)%nat /\ (b < 4)%nat.
Proof.
  intros e a b. unfold edge_of. destruct e as [|[|[|[|[|[|e]]]]]]; cbn; try (intros H; inversion H; lia). destruct e; cbn; intros H; inversion H; lia.
Qed.
Ltac dlt :=
  lazymatch goal with
  | |- dl (fun t => _ + _) _ => eapply dl_add; dlt
  | |- dl (fun t => _ - _) _ => eapply dl_sub; dlt
  | |- dl (fun t => _ * _) _ => eapply dl_mul; dlt
  | |- dl (fun t => _ / _) _ => eapply dl_div; dlt
  | |- dl (fun t => lam _ _ _) _ => eapply dl_lam; [assumption || (apply Nat.mod_upper_bound; lia)|assumption|assumption]
  | |- dl (fun t => _) _ => apply dl_const
  end.
Ltac dlgo := eapply dl_eq; [dlt|cbv beta; rewrite ?lam_shift0; try field].
Lemma shape_partial : forall s x i c k y, nondegenerate x -> (i < nfa s)%nat -> (k < 3)%nat -> partial (shape s x i c) k y (dshape s x i c k y).
Proof.
  intros s x i c k y Hx Hi Hk. unfold partial. change (dl (fun t => shape s x i c (shift y k t)) (dshape s x i c k y)).
  assert (H0 : (0 < 4)%nat) by lia. assert (H1 : (1 < 4)%nat) by lia. assert (H2 : (2 < 4)%nat) by lia. assert (H3 : (3 < 4)%nat) by lia.
  unfold shape, dshape. destruct s; cbn [nfa] in Hi.
  - dlgo.
  - dlgo.
  - destruct (Nat.ltb_spec i 4); [dlgo|]. destruct (edge_of (i - 4)) as [a b] eqn:E. apply edge_of_lt in E as [Ha Hb]. dlgo.
  - destruct (Nat.ltb_spec i 4); [dlgo|]. destruct (Nat.ltb_spec i 16).
    + destruct (edge_of ((i - 4) / 2)) as [a b] eqn:E. apply edge_of_lt in E as [Ha Hb]. destruct (Nat.even i); dlgo.
    + dlgo.
  - destruct (edge_of i) as [a b] eqn:E. apply edge_of_lt in E as [Ha Hb]. dlgo.
  - dlgo.
  - unfold opp. dlgo.
  - set (w := face_area x i / (3 * volume x)). clearbody w. apply (dl_eq _ (0 * (shift y k 0 c - x (opp i) c) + w * (delta c k - 0))); [|ring].
    apply (dl_mul (fun _ => w) (fun t => shift y k t c - x (opp i) c)); [apply dl_const|]. apply dl_sub; [|apply dl_const]. unfold shift, delta. destruct (c =? k)%nat; [|apply dl_const].
    apply (dl_eq _ (0 + 1)); [|ring]. apply (dl_add (fun _ => y c) (fun t => t)); [apply dl_const|apply dl_id].
  - destruct (edge_of i) as [a b] eqn:E. apply edge_of_lt in E as [Ha Hb]. dlgo.
Qed.
Lemma partial_unique : forall F k y a b, partial F k y a -> partial F k y b -> a = b.
Proof. intros F k y a b Ha Hb. exact (uniqueness_limite _ _ _ _ Ha Hb). Qed.
