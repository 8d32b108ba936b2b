(** GRAD and DUDX of the scalar library spaces. *)
From Verif Require Import Prelude RSum GeoModel GeoSpec SpModel BasModel BasSpec BasProofs CoreProofs SpProofs3 BasProofs2.
Local Open Scope R_scope.

(** Derivative of a scalar basis function from the derivatives d of the barycentric coordinates l *)
Definition dval (s : fem) (l d : nat -> R) (i : nat) : R :=
  match s with
  | P1 => d i
  | P2 => if (i <? 4)%nat then d i * (4 * l i - 1) else let (a, b) := edge_of (i - 4) in 4 * (d a * l b + l a * d b)
  | P3 =>
      if (i <? 4)%nat then d i * ((27 / 2 * l i - 9) * l i + 1)
      else if (i <? 16)%nat then
        let (a, b) := edge_of ((i - 4) / 2) in
        if Nat.even i then 9 / 2 * (d a * (6 * l a - 1) * l b + d b * (3 * l a - 1) * l a) else 9 / 2 * (d b * (6 * l b - 1) * l a + d a * (3 * l b - 1) * l b)
      else let a := ((i - 16) mod 4)%nat in let b := ((i - 16 + 1) mod 4)%nat in let e := ((i - 16 + 2) mod 4)%nat in
        27 * (d a * l b * l e + l a * d b * l e + l a * l b * d e)
  | B2 => let (a, b) := edge_of i in 4 * (d a * l b + l a * d b)
  | B4 => 256 * (d 0%nat * (l 1%nat * l 2%nat * l 3%nat) + d 1%nat * (l 0%nat * l 2%nat * l 3%nat) + d 2%nat * (l 0%nat * l 1%nat * l 3%nat) + d 3%nat * (l 0%nat * l 1%nat * l 2%nat))
  | CR1 => - 3 * d (opp i)
  | _ => 0
  end.
Lemma dshape_dval : forall s x i c k y, scalar s = true -> dshape s x i c k y = dval s (fun j => lam x j y) (fun j => dlam x j k) i.
Proof. intros s x i c k y H. destruct s; try discriminate H; reflexivity. Qed.
Lemma dval_ext : forall s l l' d d' i, (i < nfa s)%nat -> (forall k, (k < 4)%nat -> l k = l' k) -> (forall k, (k < 4)%nat -> d k = d' k) -> dval s l d i = dval s l' d' i.
Proof.
  intros s l l' d d' i Hi H Hd. unfold dval. destruct s; cbn [nfa] in Hi; try reflexivity.
  - apply Hd. lia.
  - destruct (Nat.ltb_spec i 4); [now rewrite H, Hd|]. destruct (edge_of (i - 4)) as [a b] eqn:E. apply edge_of_lt in E as [Ha Hb]. now rewrite !H, !Hd.
  - destruct (Nat.ltb_spec i 4); [now rewrite H, Hd|]. destruct (Nat.ltb_spec i 16).
    + destruct (edge_of ((i - 4) / 2)) as [a b] eqn:E. apply edge_of_lt in E as [Ha Hb]. now rewrite !H, !Hd.
    + cbv zeta. rewrite !H, !Hd by (apply Nat.mod_upper_bound; lia). reflexivity.
  - destruct (edge_of i) as [a b] eqn:E. apply edge_of_lt in E as [Ha Hb]. now rewrite !H, !Hd.
  - rewrite !H, !Hd by lia. reflexivity.
  - unfold opp. rewrite Hd by (apply Nat.mod_upper_bound; lia). reflexivity.
Qed.
Lemma Rsum3 : forall h, Rsum 3 h = h 0%nat + h 1%nat + h 2%nat.
Proof. intros h. rewrite !Rsum_S. cbn [Rsum]. ring. Qed.
Lemma dval_lin : forall s l (p : nat -> R) (d : nat -> nat -> R) i, dval s l (fun a => Rsum 3 (fun j => p j * d a j)) i = Rsum 3 (fun j => p j * dval s l (fun a => d a j) i).
Proof.
  intros s l p d i. rewrite Rsum3. unfold dval. destruct s; rewrite ?Rsum3; try ring.
  - destruct (i <? 4)%nat; [rewrite ?Rsum3; ring|]. destruct (edge_of (i - 4)) as [a b]. rewrite ?Rsum3. ring.
  - destruct (i <? 4)%nat; [rewrite ?Rsum3; field|]. destruct (i <? 16)%nat.
    + destruct (edge_of ((i - 4) / 2)) as [a b]. destruct (Nat.even i); rewrite ?Rsum3; field.
    + cbv zeta. rewrite ?Rsum3. ring.
  - destruct (edge_of i) as [a b]. rewrite ?Rsum3. ring.
Qed.
(** Gradients of the barycentric coordinates of the reference tetrahedron *)
Definition gref (a k : nat) : R := match a with 0%nat => -1 | S a => delta a k end.
Lemma grad_p1_tab : forall a k, (a < 4)%nat -> (k < 3)%nat -> rd GRAD_P1 (k + 3 * a) = Some (gref a k).
Proof. intros a k Ha Hk. four a; three k; reflexivity. Qed.

Section Grad.
Variables (f q : nat) (g : geo) (x : nat -> tetra) (L : nat -> nat -> R).
Hypothesis Hp : prepared f q x L g.
Lemma prep_L : forall n k, (n < q)%nat -> (k < 4)%nat -> rd (XYL g) (k + 4 * n) = Some (L n k).
Proof. intros n k Hn Hk. now apply Hp. Qed.
Lemma prep_psi : forall r j k, (r < f)%nat -> (j < 3)%nat -> (k < 3)%nat -> rd (PSI g) (9 * r + (j + 3 * k)) = Some (dlam (x r) (S j) k).
Proof. intros r j k Hr Hj Hk. destruct Hp as [_ H]. destruct (H r Hr) as (Hn & _ & _ & P & HP & E). rewrite E by assumption. f_equal. now apply psi_dlam. Qed.
Lemma prep_nd : forall r, (r < f)%nat -> nondegenerate (x r).
Proof. intros r Hr. now apply Hp. Qed.
Lemma dlam_gref : forall r a k, (r < f)%nat -> (a < 4)%nat -> (k < 3)%nat -> dlam (x r) a k = Rsum 3 (fun j => dlam (x r) (S j) k * gref a j).
Proof.
  intros r a k Hr Ha Hk. assert (S0 := dlam_sum (x r) k Hk (prep_nd r Hr)).  rewrite Rsum3. four a; cbn [gref]; unfold delta; cbn [Nat.eqb]; lra.
Qed.
Definition gv (s : fem) : nat -> nat -> nat -> nat -> R := fun r n k i => dval s (L n) (fun a => dlam (x r) a k) i.

Lemma p1_s_ok : forall r, (r < f)%nat -> exists s, p1_s g r = Some s /\ forall i k, (i < 4)%nat -> (k < 3)%nat -> rd s (k + 3 * i) = Some (dlam (x r) i k).
Proof.
  intros r Hr. unfold p1_s. rewrite !prep_psi by (assumption || lia). cbn [obind]. eexists. split; [reflexivity|]. intros i k Hi Hk.
  assert (S0 := dlam_sum (x r) k Hk (prep_nd r Hr)).  four i; three k; cbn; f_equal; lra.
Qed.
Lemma for_table : forall d nf F N (v : nat -> nat -> nat -> nat -> R) body U, (d * q * (nf * f) <= length U)%nat -> F = f -> N = nf ->
  (forall r i n k l, (r < f)%nat -> (i < nf)%nat -> (n < q)%nat -> (k < d)%nat -> length l = length U -> body r i n k l = wr l (cell d q nf r n k i) (v r n k i)) ->
  tabulates d q nf f v U (for_ F (fun r U => for_ N (fun i U => for_ q (fun n U => for_ d (fun k U => body r i n k U) U) U) U) U).
Proof.
  intros d nf F N v body U HU -> -> HB.
  destruct (for_step_len (fun r c => exists i n k, (i < nf)%nat /\ (n < q)%nat /\ (k < d)%nat /\ c = cell d q nf r n k i) (good d q nf f v) f
    (fun r U => for_ nf (fun i U => for_ q (fun n U => for_ d (fun k U => body r i n k U) U) U) U) U) as (U' & E & St).
  - intros r l Hr Hl. apply (step3 (fun i n k c => c = cell d q nf r n k i)). intros i n k l1 Hi Hn Hk L1. rewrite HB by (assumption || congruence).
    apply (good_wr d q nf f v l1 _ _ r i n k); auto. lia.
  - eapply tab_intro; [exact E|exact St| |].
    + intros r i n k Hr Hi Hn Hk. exists r. split; [exact Hr|]. exists i, n, k. auto.
    + intros c (r & Hr & i & n & k & Hi & Hn & Hk & ->). now apply cell_lt.
Qed.
(* loops without the innermost one *)
Lemma for_1' : forall {A} (b : nat -> A -> option A) s, for_ 1 b s = b 0%nat s.
Proof. intros A b s. unfold for_. cbn [for_range]. now destruct (b 0%nat s). Qed.
Lemma grad_p0_ok : forall U, (3 * q * (1 * f) <= length U)%nat -> tabulates 3 q 1 f (gv P0) U (grad_p0 f q U).
Proof. intros U H. unfold grad_p0. rewrite room_ok by exact H. cbn [obind]. exact (fill_n_ok 3 q 1 f 0 U H). Qed.
Lemma dudx_p0_ok : forall a U, (1 * q * (1 * f) <= length U)%nat -> tabulates 1 q 1 f (fun r n _ i => gv P0 r n a i) U (dudx_p0 f q U).
Proof. intros a U H. unfold dudx_p0. rewrite room_ok by exact H. cbn [obind]. exact (fill_n_ok 1 q 1 f 0 U H). Qed.
Lemma for_table_s : forall d nf {X} (pre : nat -> option X) (v : nat -> nat -> nat -> nat -> R) (body : X -> nat -> nat -> nat -> nat -> list R -> option (list R)) U, (d * q * (nf * f) <= length U)%nat ->
  (forall r, (r < f)%nat -> exists y, pre r = Some y /\ forall i n k l, (i < nf)%nat -> (n < q)%nat -> (k < d)%nat -> length l = length U -> body y r i n k l = wr l (cell d q nf r n k i) (v r n k i)) ->
  tabulates d q nf f v U (for_ f (fun r U => do y <- pre r; for_ nf (fun i U => for_ q (fun n U => for_ d (fun k U => body y r i n k U) U) U) U) U).
Proof.
  intros d nf X pre v body U HU HB.
  destruct (for_step_len (fun r c => exists i n k, (i < nf)%nat /\ (n < q)%nat /\ (k < d)%nat /\ c = cell d q nf r n k i) (good d q nf f v) f
    (fun r U => do y <- pre r; for_ nf (fun i U => for_ q (fun n U => for_ d (fun k U => body y r i n k U) U) U) U) U) as (U' & E & St).
  - intros r l Hr Hl. destruct (HB r Hr) as (y & Ey & By). rewrite Ey. cbn [obind].
    apply (step3 (fun i n k c => c = cell d q nf r n k i)). intros i n k l1 Hi Hn Hk L1. rewrite By by (assumption || congruence).
    apply (good_wr d q nf f v l1 _ _ r i n k); auto. lia.
  - eapply tab_intro; [exact E|exact St| |].
    + intros r i n k Hr Hi Hn Hk. exists r. split; [exact Hr|]. exists i, n, k. auto.
    + intros c (r & Hr & i & n & k & Hi & Hn & Hk & ->). now apply cell_lt.
Qed.
Lemma grad_p1_ok : forall U, (3 * q * (4 * f) <= length U)%nat -> tabulates 3 q 4 f (gv P1) U (grad_p1 f q g U).
Proof.
  intros U H. unfold grad_p1. rewrite room_ok by exact H. cbn [obind]. apply (for_table_s 3 4 (p1_s g) (gv P1) (fun s r i n k U => do v <- rd s (k + 3 * i); wr U (k + 3 * (n + q * (i + 4 * r))) v)); [exact H|].
  intros r Hr. destruct (p1_s_ok r Hr) as (s & Es & Hs). exists s. split; [exact Es|]. intros i n k l Hi Hn Hk _. rewrite Hs by assumption. reflexivity.
Qed.
Lemma dudx_p1_ok : forall a U, (a < 3)%nat -> (1 * q * (4 * f) <= length U)%nat -> tabulates 1 q 4 f (fun r n _ i => gv P1 r n a i) U (dudx_p1 a f q g U).
Proof.
  intros a U Ha H. unfold dudx_p1. rewrite room_ok by exact H. cbn [obind].
  erewrite GeoProofs2.for_ext; [apply (for_table_s 1 4 (p1_s g) (fun r n _ i => gv P1 r n a i) (fun s r i n k U => do v <- rd s (a + 3 * i); wr U (n + q * (i + 4 * r)) v)); [exact H|]|].
  - intros r Hr. destruct (p1_s_ok r Hr) as (s & Es & Hs). exists s. split; [exact Es|]. intros i n k l Hi Hn Hk _. rewrite Hs by assumption. cbn [obind]. f_equal. unfold cell. lia.
  - intros r U1 Hr. cbv beta. destruct (p1_s g r) as [s|]; [|reflexivity]. cbn [obind]. apply GeoProofs2.for_ext. intros i U2 Hi. apply GeoProofs2.for_ext. intros n U3 Hn. now rewrite for_1'.
Qed.
(** E holds the gradients with respect to the reference coordinates *)
Definition ref_ok (s : fem) (E : list R) : Prop := forall n i k, (n < q)%nat -> (i < nfa s)%nat -> (k < 3)%nat -> rd E (k + 3 * (i + nfa s * n)) = Some (dval s (L n) (fun a => gref a k) i).
Lemma push_grad_ok : forall s E U, ref_ok s E -> (3 * q * (nfa s * f) <= length U)%nat -> tabulates 3 q (nfa s) f (gv s) U (push_grad f q (nfa s) g E U).
Proof.
  intros s E U HE HU. unfold push_grad. apply (for_table 3 (nfa s) f (nfa s) (gv s) (fun r i n k U => do s0 <- for_ 3 (fun j s0 => do a <- rd (PSI g) (j + 3 * (k + 3 * r)); do b <- rd E (j + 3 * (i + nfa s * n)); Some (s0 + a * b)) 0;
    wr U (k + 3 * (n + q * (i + nfa s * r))) s0)); [exact HU|reflexivity|reflexivity|].
  intros r i n k l Hr Hi Hn Hk _.
  erewrite (for_sum 3 (fun j => dlam (x r) (S j) k * dval s (L n) (fun a => gref a j) i)).
  - cbn [obind]. unfold cell. f_equal. rewrite <- dval_lin. unfold gv. rewrite Rplus_0_l. apply dval_ext; auto. intros a Ha. symmetry. now apply dlam_gref.
  - intros j s0 Hj. replace (j + 3 * (k + 3 * r))%nat with (9 * r + (j + 3 * k))%nat by lia. rewrite prep_psi by assumption. rewrite HE by assumption. reflexivity.
Qed.
End Grad.
