(** Raviart-Thomas and Nedelec spaces. *)
From Verif Require Import Prelude RSum GeoModel GeoSpec SpModel BasModel BasSpec BasProofs CoreProofs SpProofs3 BasProofs2 BasProofs3 BasProofs4.
Local Open Scope R_scope.

(** *** Geometry *)
Definition rel (x : tetra) (k : nat) : vec := (x k 0%nat - x 0%nat 0%nat, x k 1%nat - x 0%nat 1%nat, x k 2%nat - x 0%nat 2%nat).
Lemma comp_rel : forall x k j, (j < 3)%nat -> comp (rel x k) j = x k j - x 0%nat j.
Proof. intros x k j Hj. three j; reflexivity. Qed.
Lemma comp_rel2 : forall x a b j, (j < 3)%nat -> comp (rel x a) j - comp (rel x b) j = x a j - x b j.
Proof. intros. rewrite !comp_rel by assumption. ring. Qed.
Lemma edge_len_rel : forall x a b, edge_len (rel x a) (rel x b) = edge_length x a b.
Proof. intros x a b. unfold edge_len, edge_length, rel, vsub, sqlen. f_equal. rewrite Rsum3. ring. Qed.
Lemma row_face : forall x i, (i < 4)%nat -> exists i0 i1 i2, row4 IPF i = Some (i0, i1, i2, opp i) /\ (i0 < 4)%nat /\ (i1 < 4)%nat /\ (i2 < 4)%nat /\
  tri_area (rel x i0) (rel x i1) (rel x i2) = face_area x i /\ forall h, Rsum 4 h = h i0 + h i1 + h i2 + h (opp i).
Proof.
  intros x i Hi. assert (A : forall a b c, tri_area (rel x a) (rel x b) (rel x c) = sqrt (gram2 (vtx_of x a) (vtx_of x b) (vtx_of x c)) / 2).
  { intros a b c. unfold tri_area. f_equal. f_equal. unfold gram2, dot, diff, co, cross3, cross, vsub, sqlen, rel, vtx_of. cbn. ring. }
  assert (P1 : forall a b c, gram2 a b c = gram2 b c a) by (intros [[a0 a1] a2] [[b0 b1] b2] [[c0 c1] c2]; unfold gram2, dot, diff, co; cbn; ring).
  assert (Q : forall h, Rsum 4 h = h 0%nat + h 1%nat + h 2%nat + h 3%nat) by (intros h; cbn [Rsum]; ring).
  unfold face_area. four i; cbn [row4 IPF rd nth_error Nat.mul Nat.add obind Nat.modulo Nat.divmod fst snd Nat.sub opp].
  - exists 0%nat, 1%nat, 2%nat. repeat (split; [reflexivity || lia|]). split; [apply A|]. intros h. rewrite Q. reflexivity.
  - exists 1%nat, 2%nat, 3%nat. repeat (split; [reflexivity || lia|]). split; [apply A|]. intros h. rewrite Q. cbn. ring.
  - exists 0%nat, 2%nat, 3%nat. repeat (split; [reflexivity || lia|]). split; [rewrite A; now rewrite P1|]. intros h. rewrite Q. cbn. ring.
  - exists 0%nat, 1%nat, 3%nat. repeat (split; [reflexivity || lia|]). split; [rewrite A; now rewrite P1, P1|]. intros h. rewrite Q. cbn. ring.
Qed.
Ltac geo_field := unfold dlam, lam, axis, det3, edge_matrix, repl, delta, cross3, cross, vsub, rel, comp in *; cbn in *.
Lemma row_edge : forall x i, (i < 6)%nat -> nondegenerate x -> exists i0 i1 i2 i3, row4 IPR i = Some (i0, i1, i2, i3) /\ (i0 < 4)%nat /\ (i1 < 4)%nat /\ (i2 < 4)%nat /\ (i3 < 4)%nat /\ edge_of i = (i0, i1) /\
  (forall k, (k < 3)%nat -> comp (cross3 (rel x i2) (rel x i3) (rel x i0)) k / det3 (edge_matrix x) = dlam x i1 k) /\
  (forall k, (k < 3)%nat -> comp (cross3 (rel x i2) (rel x i3) (rel x i1)) k / det3 (edge_matrix x) = - dlam x i0 k).
Proof.
  intros x i Hi Hx. unfold nondegenerate in Hx.
  assert (E : forall a c k, a = c * det3 (edge_matrix x) -> k = c -> a / det3 (edge_matrix x) = k) by (intros a c k -> ->; field; exact Hx).
  assert (G : forall i0 i1 i2 i3,
     (forall k, (k < 3)%nat -> comp (cross3 (rel x i2) (rel x i3) (rel x i0)) k = det3 (edge_matrix (repl x i1 (axis k))) - det3 (edge_matrix (repl x i1 (fun _ => 0)))) ->
     (forall k, (k < 3)%nat -> comp (cross3 (rel x i2) (rel x i3) (rel x i1)) k = - (det3 (edge_matrix (repl x i0 (axis k))) - det3 (edge_matrix (repl x i0 (fun _ => 0))))) ->
     (forall k, (k < 3)%nat -> comp (cross3 (rel x i2) (rel x i3) (rel x i0)) k / det3 (edge_matrix x) = dlam x i1 k) /\
     (forall k, (k < 3)%nat -> comp (cross3 (rel x i2) (rel x i3) (rel x i1)) k / det3 (edge_matrix x) = - dlam x i0 k)).
  { intros i0 i1 i2 i3 A B. split; intros k Hk; [rewrite A by exact Hk|rewrite B by exact Hk]; unfold dlam, lam; field; exact Hx. }
  destruct i as [|[|[|[|[|[|i]]]]]]; [| | | | | |lia]; cbn [row4 IPR rd nth_error Nat.mul Nat.add obind]; eexists _, _, _, _; (split; [reflexivity|]); repeat (split; [lia|]); (split; [reflexivity|]); apply G; intros k Hk; three k; geo_field; ring.
Qed.
Lemma sum_dlam : forall x k j, nondegenerate x -> (k < 3)%nat -> (j < 3)%nat -> Rsum 4 (fun a => dlam x a k * x a j) = delta j k /\ Rsum 4 (fun a => dlam x a k) = 0.
Proof.
  intros x k j Hx Hk Hj. split.
  - assert (A := lam_point x (axis k) j Hj Hx). assert (B := lam_point x (fun _ => 0) j Hj Hx). unfold dlam. cbn [Rsum] in *. unfold axis in A at 5. lra.
  - assert (A := dlam_sum x k Hk Hx). cbn [Rsum]. lra.
Qed.

Section Vec.
Variables (f q : nat) (g : geo) (x : nat -> tetra) (L : nat -> nat -> R).
Hypothesis Hp : prepared f q x L g.
Hypothesis Hq : (1 <= q)%nat.
Lemma vtx_ok : forall r k, (r < f)%nat -> (k < 4)%nat -> vtx g r k = Some (rel (x r) k).
Proof using Hp. clear Hq.
  intros r k Hr Hk. destruct Hp as [_ H]. destruct (H r Hr) as (_ & V & _). unfold vtx.
  replace (12 * r + 3 * k + 1)%nat with (1 + 3 * k + 12 * r)%nat by lia. replace (12 * r + 3 * k + 2)%nat with (2 + 3 * k + 12 * r)%nat by lia. replace (12 * r + 3 * k)%nat with (0 + 3 * k + 12 * r)%nat by lia.
  rewrite !V by lia. reflexivity.
Qed.
Lemma det_ok : forall r, (r < f)%nat -> rd (DET g) r = Some (det3 (edge_matrix (x r))).
Proof using Hp. clear Hq. intros r Hr. now apply Hp. Qed.
Lemma L_sum : forall n, (n < q)%nat -> Rsum 4 (L n) = 1.
Proof using Hp. clear Hq. intros n Hn. now apply Hp. Qed.
(* V(j, i) = derivative of coordinate j along axis i *)
Lemma grad_lam_ok : forall r, (r < f)%nat -> exists V, grad_lam g r = Some V /\ forall j i, (j < 4)%nat -> (i < 3)%nat -> rd V (j + 4 * i) = Some (dlam (x r) j i).
Proof using Hp. clear Hq.
  intros r Hr. unfold grad_lam.
  destruct (step2 (fun i j c => c = (j + 4 * i)%nat) (fun c y => forall j i, (j < 4)%nat -> (i < 3)%nat -> c = (j + 4 * i)%nat -> y = dlam (x r) j i) 3 4
    (fun i j V => do s <- for_ 3 (fun k s => do u <- rd GRAD_P1 (k + 3 * j); do p <- rd (PSI g) (9 * r + (k + 3 * i)); Some (s + u * p)) 0; wr V (j + 4 * i) s) (repeat 0 12)) as (V & E & S).
  - intros i j l Hi Hj Hl. erewrite (for_sum 3 (fun k => dlam (x r) (S k) i * gref j k)).
    + cbn [obind]. apply step_wr; [rewrite Hl, repeat_length; lia|]. intros j' i' Hj' Hi' Ec. assert (j = j' /\ i = i') as [<- <-] by lia. rewrite Rplus_0_l. symmetry. now apply (dlam_gref f q g x L Hp).
    + intros k s0 Hk. rewrite grad_p1_tab by assumption. rewrite (prep_psi f q g x L Hp) by assumption. cbn [obind]. f_equal. ring.
  - exists V. split; [exact E|]. intros j i Hj Hi. destruct S as (_ & S & _). destruct (S (j + 4 * i)%nat) as (y & Ey & Hy); [exists i, j; auto|]. rewrite Ey. f_equal. now apply Hy.
Qed.
Definition iv3 (s : fem) : nat -> nat -> nat -> nat -> R := fun r n k i => shape s (x r) i k (point x L r n).
Definition gv3 (s : fem) : nat -> nat -> nat -> nat -> R := fun r n k i => dshape s (x r) i (k / 3) (k mod 3) (point x L r n).

(** *** IDEN of RT0 and ND0 *)
Lemma rt0_coef : forall y A, A / (Rabs (det3 (edge_matrix y)) / 2) = A / (3 * volume y).
Proof. intros y A. unfold volume. f_equal. field. Qed.
Lemma iden_rt0_ok : forall U, (3 * q * (4 * f) <= length U)%nat -> tabulates 3 q 4 f (iv3 RT0) U (iden_rt0 f q g U).
Proof using Hp. clear Hq.
  intros U HU. unfold iden_rt0. rewrite room_ok by exact HU. cbn [obind].
  destruct (for_step_len (fun r c => exists i n k, (i < 4)%nat /\ (n < q)%nat /\ (k < 3)%nat /\ c = cell 3 q 4 r n k i) (good 3 q 4 f (iv3 RT0)) f (fun r U =>
    do det <- rd (DET g) r;
    let vol := Rabs det / 2 in
    for_ 4 (fun i U =>
      do (i0, i1, i2, i3) <- row4 IPF i;
      do x0 <- vtx g r i0; do x1 <- vtx g r i1; do x2 <- vtx g r i2; do x3 <- vtx g r i3;
      let sqr := tri_area x0 x1 x2 / vol in
      for_ q (fun n U => for_ 3 (fun j U =>
        do l0 <- rd (XYL g) (i0 + 4 * n); do l1 <- rd (XYL g) (i1 + 4 * n); do l2 <- rd (XYL g) (i2 + 4 * n);
        wr U (j + 3 * n + 3 * q * (i + 4 * r))
          (sqr * (l0 * (comp x0 j - comp x3 j) + l1 * (comp x1 j - comp x3 j) + l2 * (comp x2 j - comp x3 j)))) U) U) U) U) as (U' & E & St).
  - intros r l Hr Hl. rewrite det_ok by exact Hr. cbn [obind]. cbv zeta.
    edestruct (for_step_len (fun i c => exists n k, (n < q)%nat /\ (k < 3)%nat /\ c = cell 3 q 4 r n k i) (good 3 q 4 f (iv3 RT0)) 4) as (l' & E' & S').
    2:{ exists l'. split; [exact E'|]. eapply step_ext; [exact S'|]. intros c. split; [intros (i & Hi & n & k & Hn & Hk & Hc); exists i, n, k; auto|intros (i & n & k & Hi & Hn & Hk & Hc); exists i; eauto 6]. }
    intros i l1 Hi L1. cbv beta. destruct (row_face (x r) i Hi) as (i0 & i1 & i2 & Er & H0 & H1 & H2 & Ea & Es). rewrite Er. cbn [obind]. assert (Ho : (opp i < 4)%nat) by (unfold opp; apply Nat.mod_upper_bound; lia).
    rewrite !vtx_ok by assumption. cbn [obind]. rewrite Ea, rt0_coef.
    apply (step2 (fun n k c => c = cell 3 q 4 r n k i)). intros n j l2 Hn Hj L2. rewrite !(prep_L f q g x L Hp) by assumption. cbn [obind].
    replace (j + 3 * n + 3 * q * (i + 4 * r))%nat with (cell 3 q 4 r n j i) by (unfold cell; lia).
    apply (good_wr 3 q 4 f (iv3 RT0) l2 _ _ r i n j); auto; [lia|].
    unfold iv3, shape, point. rewrite (Es (fun k => L n k * x r k j)). rewrite !comp_rel2 by exact Hj. assert (HS := L_sum n Hn). rewrite (Es (L n)) in HS. f_equal.
    replace (L n (opp i)) with (1 - L n i0 - L n i1 - L n i2) by lra. ring.
  - eapply tab_intro; [exact E|exact St| |].
    + intros r i n k Hr Hi Hn Hk. exists r. split; [exact Hr|]. exists i, n, k. auto.
    + intros c (r & Hr & i & n & k & Hi & Hn & Hk & ->). now apply cell_lt.
Qed.
Lemma lam_pt : forall r n k, (r < f)%nat -> (n < q)%nat -> (k < 4)%nat -> lam (x r) k (point x L r n) = L n k.
Proof using Hp. clear Hq. intros r n k Hr Hn Hk. unfold point. apply lam_bary; [exact Hk|now apply (prep_nd f q g x L Hp)|now apply L_sum]. Qed.
Lemma iden_nd0_ok : forall U, (3 * q * (6 * f) <= length U)%nat -> tabulates 3 q 6 f (iv3 ND0) U (iden_nd0 f q g U).
Proof using Hp. clear Hq.
  intros U HU. unfold iden_nd0. rewrite room_ok by exact HU. cbn [obind].
  destruct (for_step_len (fun r c => exists i n k, (i < 6)%nat /\ (n < q)%nat /\ (k < 3)%nat /\ c = cell 3 q 6 r n k i) (good 3 q 6 f (iv3 ND0)) f (fun r U =>
    do vol <- rd (DET g) r;
    for_ 6 (fun i U =>
      do (i0, i1, i2, i3) <- row4 IPR i;
      do x0 <- vtx g r i0; do x1 <- vtx g r i1; do x2 <- vtx g r i2; do x3 <- vtx g r i3;
      let sqr := edge_len x0 x1 / vol in
      let xyn := cross3 x2 x3 x0 in let xym := cross3 x2 x3 x1 in
      for_ q (fun n U => for_ 3 (fun k U =>
        do l0 <- rd (XYL g) (i0 + 4 * n); do l1 <- rd (XYL g) (i1 + 4 * n);
        wr U (3 * q * 6 * r + (k + 3 * n + 3 * q * i)) (sqr * (comp xyn k * l0 + comp xym k * l1))) U) U) U) U) as (U' & E & St).
  - intros r l Hr Hl. rewrite det_ok by exact Hr. cbn [obind].
    edestruct (for_step_len (fun i c => exists n k, (n < q)%nat /\ (k < 3)%nat /\ c = cell 3 q 6 r n k i) (good 3 q 6 f (iv3 ND0)) 6) as (l' & E' & S').
    2:{ exists l'. split; [exact E'|]. eapply step_ext; [exact S'|]. intros c. split; [intros (i & Hi & n & k & Hn & Hk & Hc); exists i, n, k; auto|intros (i & n & k & Hi & Hn & Hk & Hc); exists i; eauto 6]. }
    assert (Hnd := prep_nd f q g x L Hp r Hr). assert (Hd : det3 (edge_matrix (x r)) <> 0) by exact Hnd.
    intros i l1 Hi L1. cbv beta. destruct (row_edge (x r) i Hi Hnd) as (i0 & i1 & i2 & i3 & Er & H0 & H1 & H2 & H3 & Ee & C1 & C2). rewrite Er. cbn [obind].
    rewrite !vtx_ok by assumption. cbn [obind]. cbv zeta. rewrite edge_len_rel.
    apply (step2 (fun n k c => c = cell 3 q 6 r n k i)). intros n j l2 Hn Hj L2. rewrite !(prep_L f q g x L Hp) by assumption. cbn [obind].
    replace (3 * q * 6 * r + (j + 3 * n + 3 * q * i))%nat with (cell 3 q 6 r n j i) by (unfold cell; lia).
    apply (good_wr 3 q 6 f (iv3 ND0) l2 _ _ r i n j); auto; [lia|].
    unfold iv3, shape. rewrite Ee. rewrite !lam_pt by assumption. rewrite <- (C1 j Hj). assert (B := C2 j Hj). replace (dlam (x r) i0 j) with (- (- dlam (x r) i0 j)) by ring. rewrite <- B. field. exact Hd.
  - eapply tab_intro; [exact E|exact St| |].
    + intros r i n k Hr Hi Hn Hk. exists r. split; [exact Hr|]. exists i, n, k. auto.
    + intros c (r & Hr & i & n & k & Hi & Hn & Hk & ->). now apply cell_lt.
Qed.
(** *** GRAD and DIV of RT0 *)
Lemma rt0_grad : forall r i i0 i1 i2 k j, (r < f)%nat -> (k < 3)%nat -> (j < 3)%nat -> (forall h, Rsum 4 h = h i0 + h i1 + h i2 + h (opp i)) ->
  dlam (x r) i0 k * (x r i0 j - x r (opp i) j) + dlam (x r) i1 k * (x r i1 j - x r (opp i) j) + dlam (x r) i2 k * (x r i2 j - x r (opp i) j) = delta j k.
Proof using Hp. clear Hq.
  intros r i i0 i1 i2 k j Hr Hk Hj Es. destruct (sum_dlam (x r) k j (prep_nd f q g x L Hp r Hr) Hk Hj) as [A B]. rewrite Es in A, B. rewrite <- A.
  replace (dlam (x r) (opp i) k) with (- dlam (x r) i0 k - dlam (x r) i1 k - dlam (x r) i2 k) by lra. ring.
Qed.
(* cells of the first point *)
Lemma first_cells : forall d nf v (S : nat -> Prop) l l' r i, (r < f)%nat -> (i < nf)%nat -> step S (good d q nf f v) l l' -> (forall k, (k < d)%nat -> S (cell d q nf r 0 k i)) ->
  forall k, (k < d)%nat -> rd l' (cell d q nf r 0 k i) = Some (v r 0%nat k i).
Proof. intros d nf v S l l' r i Hr Hi (_ & St & _) HS k Hk. destruct (St _ (HS k Hk)) as (y & Ey & Hy). rewrite Ey. f_equal. eapply Hy; eauto. Qed.
Lemma grad_rt0_ok : forall U, (9 * q * (4 * f) <= length U)%nat -> tabulates 9 q 4 f (gv3 RT0) U (grad_rt0 f q g U).
Proof.
  intros U HU. unfold grad_rt0. rewrite room_ok by exact HU. cbn [obind].
  destruct (fill_n_ok 9 q 4 f 0 U HU) as (U0 & E0 & _ & A0). rewrite E0. cbn [obind]. assert (L0 : length U0 = length U) by (destruct A0; assumption).
  set (G := good 9 q 4 f (gv3 RT0)).
  destruct (for_step_len (fun r c => exists i n k, (i < 4)%nat /\ (n < q)%nat /\ (k < 9)%nat /\ c = cell 9 q 4 r n k i) G f (fun r U =>
    do V <- grad_lam g r;
    do det <- rd (DET g) r;
    let vol := Rabs det / 2 in
    do U <- for_ 4 (fun i U =>
      do (i0, i1, i2, i3) <- row4 IPF i;
      do x0 <- vtx g r i0; do x1 <- vtx g r i1; do x2 <- vtx g r i2; do x3 <- vtx g r i3;
      let sqr := tri_area x0 x1 x2 / vol in
      for_ 3 (fun j U => for_ 3 (fun k U =>
        do v0 <- rd V (i0 + 4 * k); do v1 <- rd V (i1 + 4 * k); do v2 <- rd V (i2 + 4 * k);
        wr U (k + 3 * j + 9 * q * (i + 4 * r))
          (sqr * (v0 * (comp x0 j - comp x3 j) + v1 * (comp x1 j - comp x3 j) + v2 * (comp x2 j - comp x3 j)))) U) U) U;
    for_range 1 (q - 1) (fun n U => for_ 4 (fun i U => for_ 9 (fun l U =>
      do v <- rd U (l + 9 * q * (i + 4 * r)); wr U (l + 9 * n + 9 * q * (i + 4 * r)) v) U) U) U) U0) as (U' & E & St).
  - intros r l Hr Hl. destruct (grad_lam_ok r Hr) as (V & EV & HV). rewrite EV. cbn [obind]. rewrite det_ok by exact Hr. cbn [obind]. cbv zeta.
    edestruct (for_step_len (fun i c => exists k, (k < 9)%nat /\ c = cell 9 q 4 r 0 k i) G 4) as (l1 & E1 & S1).
    2:{ rewrite E1. cbn [obind]. assert (L1 : length l1 = length l) by (destruct S1; assumption).
      set (I := fun l2 : list R => length l2 = length l /\ forall i k, (i < 4)%nat -> (k < 9)%nat -> rd l2 (cell 9 q 4 r 0 k i) = Some (gv3 RT0 r 0%nat k i)).
      destruct (for_range_step (fun n c => exists i k, (i < 4)%nat /\ (k < 9)%nat /\ c = cell 9 q 4 r n k i) G I (q - 1) 1 (fun n U => for_ 4 (fun i U => for_ 9 (fun l U =>
      do v <- rd U (l + 9 * q * (i + 4 * r)); wr U (l + 9 * n + 9 * q * (i + 4 * r)) v) U) U) l1) as (l2 & E2 & S2 & _).
      - split; [exact L1|]. intros i k Hi Hk. eapply (first_cells 9 4 (gv3 RT0) _ _ l1 r i Hr Hi S1); [|exact Hk]. intros k' Hk'. exists i. split; [exact Hi|]. eauto.
      - intros n l2 Hn I2.
        destruct (for_step (fun i c => exists k, (k < 9)%nat /\ c = cell 9 q 4 r n k i) G I 4 (fun i U => for_ 9 (fun l U =>
      do v <- rd U (l + 9 * q * (i + 4 * r)); wr U (l + 9 * n + 9 * q * (i + 4 * r)) v) U) l2 I2) as (l3 & E3 & S3 & I3).
        + intros i l3 Hi I3. apply (for_step (fun k c => c = cell 9 q 4 r n k i) G I); [exact I3|].
          intros k l4 Hk (L4 & R4). replace (k + 9 * q * (i + 4 * r))%nat with (cell 9 q 4 r 0 k i) by (unfold cell; lia). replace (k + 9 * n + 9 * q * (i + 4 * r))%nat with (cell 9 q 4 r n k i) by (unfold cell; lia).
          rewrite R4 by assumption. cbn [obind].
          destruct (good_wr 9 q 4 f (gv3 RT0) l4 (cell 9 q 4 r n k i) (gv3 RT0 r 0%nat k i) r i n k ltac:(lia) Hr Hi ltac:(lia) Hk eq_refl eq_refl) as (l5 & E5 & S5).
          exists l5. split; [exact E5|]. split; [exact S5|]. split; [destruct S5; congruence|]. intros i' k' Hi' Hk'. rewrite (step_keep _ _ _ _ _ S5); [now apply R4|].
          intros Ec. apply cell_inj in Ec; lia.
        + exists l3. split; [exact E3|]. split; [|exact I3]. eapply step_ext; [exact S3|]. intros c. split; [intros (i & Hi & k & Hk & Hc); exists i, k; auto|intros (i & k & Hi & Hk & Hc); exists i; eauto].
      - exists l2. split; [exact E2|]. eapply step_ext; [exact (step_trans _ _ _ _ _ _ S1 S2)|]. intros c. split.
        + intros [(i & Hi & k & Hk & ->)|(n & Hn & i & k & Hi & Hk & ->)]; [exists i, 0%nat, k|exists i, n, k]; repeat (split; [lia|]); reflexivity.
        + intros (i & n & k & Hi & Hn & Hk & ->). destruct (Nat.eq_dec n 0) as [->|]; [left; exists i; eauto|]. right. exists n. split; [lia|]. exists i, k. auto. }
    intros i l1 Hi L1. cbv beta. destruct (row_face (x r) i Hi) as (i0 & i1 & i2 & Er & H0 & H1 & H2 & Ea & Es). rewrite Er. cbn [obind]. assert (Ho : (opp i < 4)%nat) by (unfold opp; apply Nat.mod_upper_bound; lia).
    rewrite !vtx_ok by assumption. cbn [obind]. rewrite Ea, rt0_coef.
    edestruct (step2 (fun j k c => c = cell 9 q 4 r 0 (k + 3 * j) i) G 3 3) as (l2 & E2 & S2).
    2:{ exists l2. split; [exact E2|]. eapply step_ext; [exact S2|]. intros c. split; [intros (j & k & Hj & Hk & ->); exists (k + 3 * j)%nat; split; [lia|reflexivity]|].
        intros (k & Hk & ->). exists (k / 3)%nat, (k mod 3)%nat. split; [apply Nat.div_lt_upper_bound; lia|]. split; [apply Nat.mod_upper_bound; lia|]. f_equal. rewrite Nat.add_comm. apply Nat.div_mod. lia. }
    intros j k l2 Hj Hk L2. cbv beta. rewrite !HV by assumption. cbn [obind].
    replace (k + 3 * j + 9 * q * (i + 4 * r))%nat with (cell 9 q 4 r 0 (k + 3 * j) i) by (unfold cell; lia).
    apply (good_wr 9 q 4 f (gv3 RT0) l2 _ _ r i 0 (k + 3 * j)); auto; [lia|lia|].
    unfold gv3. replace ((k + 3 * j) / 3)%nat with j by (rewrite Nat.mul_comm, Nat.div_add, Nat.div_small; lia). replace ((k + 3 * j) mod 3)%nat with k by (rewrite Nat.mul_comm, Nat.mod_add, Nat.mod_small; lia).
    cbn [dshape]. rewrite !comp_rel2 by exact Hj. rewrite rt0_grad by assumption. reflexivity.
  - exists U'. split; [exact E|]. split.
    + apply (table_intro _ _ _ _ _ _ _ _ St). intros r i n k Hr Hi Hn Hk. exists r. split; [exact Hr|]. exists i, n, k. auto.
    + apply (after_trans _ _ _ _ A0). apply (after_intro _ _ _ _ _ St). intros c (r & Hr & i & n & k & Hi & Hn & Hk & ->). now apply cell_lt.
Qed.
Definition dv3 (s : fem) : nat -> nat -> nat -> nat -> R := fun r n k i => dshape s (x r) i 0 0 (point x L r n) + dshape s (x r) i 1 1 (point x L r n) + dshape s (x r) i 2 2 (point x L r n).
Lemma div_rt0_ok : forall U, (1 * q * (4 * f) <= length U)%nat -> tabulates 1 q 4 f (dv3 RT0) U (div_rt0 f q g U).
Proof.
  intros U HU. unfold div_rt0. rewrite room_ok by exact HU. cbn [obind]. set (G := good 1 q 4 f (dv3 RT0)).
  destruct (for_step_len (fun r c => exists i n, (i < 4)%nat /\ (n < q)%nat /\ c = cell 1 q 4 r n 0 i) G f (fun r U =>
    do V <- grad_lam g r;
    do det <- rd (DET g) r;
    let vol := Rabs det / 2 in
    for_ 4 (fun i U =>
      do (i0, i1, i2, i3) <- row4 IPF i;
      do x0 <- vtx g r i0; do x1 <- vtx g r i1; do x2 <- vtx g r i2; do x3 <- vtx g r i3;
      let sqr := tri_area x0 x1 x2 / vol in
      do s <- for_ 3 (fun j s => do v0 <- rd V (i0 + 4 * j); do v1 <- rd V (i1 + 4 * j); do v2 <- rd V (i2 + 4 * j);
                Some (s + (v0 * (comp x0 j - comp x3 j) + v1 * (comp x1 j - comp x3 j) + v2 * (comp x2 j - comp x3 j)))) 0;
      do U <- wr U (0 + q * (i + 4 * r)) (sqr * s);
      for_range 1 (q - 1) (fun n U => do v <- rd U (0 + q * (i + 4 * r)); wr U (n + q * (i + 4 * r)) v) U) U) U) as (U' & E & St).
  - intros r l Hr Hl. destruct (grad_lam_ok r Hr) as (V & EV & HV). rewrite EV. cbn [obind]. rewrite det_ok by exact Hr. cbn [obind]. cbv zeta.
    edestruct (for_step_len (fun i c => exists n, (n < q)%nat /\ c = cell 1 q 4 r n 0 i) G 4) as (l' & E' & S').
    2:{ exists l'. split; [exact E'|]. eapply step_ext; [exact S'|]. intros c. split; [intros (i & Hi & n & Hn & Hc); exists i, n; auto|intros (i & n & Hi & Hn & Hc); exists i; eauto 6]. }
    intros i l1 Hi L1. cbv beta. destruct (row_face (x r) i Hi) as (i0 & i1 & i2 & Er & H0 & H1 & H2 & Ea & Es). rewrite Er. cbn [obind]. assert (Ho : (opp i < 4)%nat) by (unfold opp; apply Nat.mod_upper_bound; lia).
    rewrite !vtx_ok by assumption. cbn [obind]. rewrite Ea, rt0_coef.
    erewrite (for_sum 3 (fun j => delta j j)).
    2:{ intros j s0 Hj. rewrite !HV by assumption. cbn [obind]. rewrite !comp_rel2 by exact Hj. now rewrite rt0_grad by assumption. }
    cbn [obind].
    destruct (good_wr 1 q 4 f (dv3 RT0) l1 (0 + q * (i + 4 * r)) (face_area (x r) i / (3 * volume (x r)) * (0 + Rsum 3 (fun j => delta j j))) r i 0 0) as (l2 & E2 & S2); auto; try (unfold cell; lia).
    { unfold dv3, dshape. rewrite Rsum3. unfold delta. cbn [Nat.eqb]. ring. }
    rewrite E2. cbn [obind]. assert (L2 : length l2 = length l1) by (destruct S2; assumption).
    destruct (copy_points_ok f q 1 4 r i (dv3 RT0) l2 Hq ltac:(lia) Hr Hi (fun _ _ => eq_refl)) with (body := fun n (_ : nat) (U : list R) => do v <- rd U (0 + q * (i + 4 * r)); wr U (n + q * (i + 4 * r)) v) as (l3 & E3 & S3).
    { apply (first_cells 1 4 (dv3 RT0) _ _ l2 r i Hr Hi S2). intros k Hk. unfold cell. lia. }
    { intros n k l3 Hn Hk. replace (0 + q * (i + 4 * r))%nat with (cell 1 q 4 r 0 k i) by (unfold cell; lia). replace (n + q * (i + 4 * r))%nat with (cell 1 q 4 r n k i) by (unfold cell; lia). reflexivity. }
    exists l3. split.
    + rewrite <- E3. rewrite !for_range_shift. apply GeoProofs2.for_ext. intros n U1 Hn. now rewrite for_1'.
    + eapply step_ext; [exact (step_trans _ _ _ _ _ _ S2 S3)|]. intros c. split.
      * intros [->|(n & k & Hn & Hk & ->)]; [exists 0%nat; split; [lia|unfold cell; lia]|exists n]. split; [lia|]. now replace k with 0%nat by lia.
      * intros (n & Hn & ->). destruct (Nat.eq_dec n 0) as [->|]; [left; unfold cell; lia|]. right. exists n, 0%nat. split; [lia|]. split; [lia|reflexivity].
  - eapply tab_intro; [exact E|exact St| |].
    + intros r i n k Hr Hi Hn Hk. exists r. split; [exact Hr|]. exists i, n. replace k with 0%nat by lia. auto.
    + intros c (r & Hr & i & n & Hi & Hn & ->). apply cell_lt; auto.
Qed.
End Vec.
