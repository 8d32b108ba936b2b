(** CURL and GRAD of ND0; all operators. *)
From Verif Require Import Prelude RSum GeoModel GeoSpec SpModel BasModel BasSpec BasProofs CoreProofs SpProofs3 BasProofs2 BasProofs3 BasProofs4 BasProofs5.
Local Open Scope R_scope.

Section Nd.
Variables (f q : nat) (g : geo) (x : nat -> tetra) (L : nat -> nat -> R).
Hypothesis Hp : prepared f q x L g.
Hypothesis Hq : (1 <= q)%nat.
Definition cv3 (s : fem) : nat -> nat -> nat -> nat -> R := fun r n k i =>
  dshape s (x r) i ((k + 2) mod 3) ((k + 1) mod 3) (point x L r n) - dshape s (x r) i ((k + 1) mod 3) ((k + 2) mod 3) (point x L r n).
(* a table at offset o *)
Definition goodo (o : nat) (c : nat) (y : R) : Prop :=
  forall r i n k, (r < f)%nat -> (i < 6)%nat -> (n < q)%nat -> (k < 3)%nat -> c = (o + cell 3 q 6 r n k i)%nat -> y = cv3 ND0 r n k i.
Lemma goodo_wr : forall o U y r i n k, (o + 3 * q * (6 * f) <= length U)%nat -> (r < f)%nat -> (i < 6)%nat -> (n < q)%nat -> (k < 3)%nat -> y = cv3 ND0 r n k i ->
  exists U', wr U (o + cell 3 q 6 r n k i) y = Some U' /\ step (fun c' => c' = (o + cell 3 q 6 r n k i)%nat) (goodo o) U U'.
Proof.
  intros o U y r i n k HU Hr Hi Hn Hk Hy. apply step_wr.
  - assert (H := cell_lt 3 q 6 f r n k i Hr Hi Hn Hk). lia.
  - intros r' i' n' k' Hr' Hi' Hn' Hk' E. assert (E' : cell 3 q 6 r n k i = cell 3 q 6 r' n' k' i') by lia. apply cell_inj in E' as (-> & -> & -> & ->); auto.
Qed.
Lemma curl_nd0_ok : forall o U, (o + 3 * q * (6 * f) <= length U)%nat -> exists U', curl_nd0 f q g o U = Some U' /\
  (forall r i n k, (r < f)%nat -> (i < 6)%nat -> (n < q)%nat -> (k < 3)%nat -> rd U' (o + cell 3 q 6 r n k i) = Some (cv3 ND0 r n k i)) /\
  length U' = length U /\ forall c, (c < o)%nat \/ (o + 3 * q * (6 * f) <= c)%nat -> rd U' c = rd U c.
Proof.
  intros o U HU. unfold curl_nd0.
  destruct (for_step_len (fun r c => exists i n k, (i < 6)%nat /\ (n < q)%nat /\ (k < 3)%nat /\ c = (o + cell 3 q 6 r n k i)%nat) (goodo o) f (fun r U =>
    do V <- grad_lam g r;
    do vol <- rd (DET g) r;
    for_ 6 (fun i U =>
      do (i0, i1, i2, i3) <- row4 IPR i;
      do x0 <- vtx g r i0; do x1 <- vtx g r i1; do x2 <- vtx g r i2; do x3 <- vtx g r i3;
      let sqr := edge_len x0 x1 / vol in
      let xyn := cross3 x2 x3 x0 in let xym := cross3 x2 x3 x1 in
      do U <- for_ 3 (fun k U =>
        do a <- rd V (i0 + 4 * ((k + 1) mod 3)); do b <- rd V (i1 + 4 * ((k + 1) mod 3));
        do c <- rd V (i0 + 4 * ((k + 2) mod 3)); do d <- rd V (i1 + 4 * ((k + 2) mod 3));
        wr U (o + (3 * q * 6 * r + (k + 3 * 0 + 3 * q * i)))
          (sqr * ((a * comp xyn ((k + 2) mod 3) + b * comp xym ((k + 2) mod 3)) - (c * comp xyn ((k + 1) mod 3) + d * comp xym ((k + 1) mod 3))))) U;
      for_range 1 (q - 1) (fun n U => for_ 3 (fun k U =>
        do v <- rd U (o + (3 * q * 6 * r + (k + 3 * 0 + 3 * q * i))); wr U (o + (3 * q * 6 * r + (k + 3 * n + 3 * q * i))) v) U) U) U) U) as (U' & E & St).
  - intros r l Hr Hl. destruct (grad_lam_ok f q g x L Hp r Hr) as (V & EV & HV). rewrite EV. cbn [obind]. rewrite (det_ok f q g x L Hp) by exact Hr. cbn [obind].
    edestruct (for_step_len (fun i c => exists n k, (n < q)%nat /\ (k < 3)%nat /\ c = (o + cell 3 q 6 r n k i)%nat) (goodo o) 6) as (l' & E' & S').
    2:{ exists l'. split; [exact E'|]. eapply step_ext; [exact S'|]. intros c. split; [intros (i & Hi & n & k & Hn & Hk & Hc); exists i, n, k; auto|intros (i & n & k & Hi & Hn & Hk & Hc); exists i; eauto 6]. }
    assert (Hnd := prep_nd f q g x L Hp r Hr). assert (Hd : det3 (edge_matrix (x r)) <> 0) by exact Hnd.
    intros i l1 Hi L1. cbv beta. destruct (row_edge (x r) i Hi Hnd) as (i0 & i1 & i2 & i3 & Er & H0 & H1 & H2 & H3 & Ee & C1 & C2). rewrite Er. cbn [obind].
    rewrite !(vtx_ok f q g x L Hp) by assumption. cbn [obind]. cbv zeta. rewrite edge_len_rel.
    edestruct (for_step_len (fun k c => c = (o + cell 3 q 6 r 0 k i)%nat) (goodo o) 3) as (l2 & E2 & S2).
    2:{ rewrite E2. cbn [obind]. assert (L2 : length l2 = length l1) by (destruct S2; assumption).
      set (I := fun l3 : list R => length l3 = length l1 /\ forall k, (k < 3)%nat -> rd l3 (o + cell 3 q 6 r 0 k i) = Some (cv3 ND0 r 0%nat k i)).
      destruct (for_range_step (fun n c => exists k, (k < 3)%nat /\ c = (o + cell 3 q 6 r n k i)%nat) (goodo o) I (q - 1) 1 (fun n U => for_ 3 (fun k U =>
        do v <- rd U (o + (3 * q * 6 * r + (k + 3 * 0 + 3 * q * i))); wr U (o + (3 * q * 6 * r + (k + 3 * n + 3 * q * i))) v) U) l2) as (l3 & E3 & S3 & _).
      - split; [exact L2|]. intros k Hk. destruct S2 as (_ & S2 & _). destruct (S2 (o + cell 3 q 6 r 0 k i)%nat) as (y & Ey & Hy); [eauto|]. rewrite Ey. f_equal. eapply Hy; eauto.
      - intros n l3 Hn I3. apply (for_step (fun k c => c = (o + cell 3 q 6 r n k i)%nat) (goodo o) I); [exact I3|]. intros k l4 Hk (L4 & R4).
        replace (o + (3 * q * 6 * r + (k + 3 * 0 + 3 * q * i)))%nat with (o + cell 3 q 6 r 0 k i)%nat by (unfold cell; lia). replace (o + (3 * q * 6 * r + (k + 3 * n + 3 * q * i)))%nat with (o + cell 3 q 6 r n k i)%nat by (unfold cell; lia).
        rewrite R4 by exact Hk. cbn [obind].
        assert (Ev : cv3 ND0 r 0%nat k i = cv3 ND0 r n k i) by (unfold cv3, dshape; now rewrite Ee).
        destruct (goodo_wr o l4 (cv3 ND0 r 0%nat k i) r i n k ltac:(lia) Hr Hi ltac:(lia) Hk Ev) as (l5 & E5 & S5).
        exists l5. split; [exact E5|]. split; [exact S5|]. split; [destruct S5; congruence|]. intros k' Hk'. rewrite (step_keep _ _ _ _ _ S5); [now apply R4|].
        intros Ec. assert (Ec' : cell 3 q 6 r 0 k' i = cell 3 q 6 r n k i) by lia. apply cell_inj in Ec'; lia.
      - exists l3. split; [exact E3|]. eapply step_ext; [exact (step_trans _ _ _ _ _ _ S2 S3)|]. intros c. split.
        + intros [(k & Hk & ->)|(n & Hn & k & Hk & ->)]; [exists 0%nat, k|exists n, k]; repeat (split; [lia|]); reflexivity.
        + intros (n & k & Hn & Hk & ->). destruct (Nat.eq_dec n 0) as [->|]; [left; eauto|]. right. exists n. split; [lia|]. eauto. }
    intros k l2 Hk L2. cbv beta. rewrite !HV by (assumption || (apply Nat.mod_upper_bound; lia)). cbn [obind].
    replace (o + (3 * q * 6 * r + (k + 3 * 0 + 3 * q * i)))%nat with (o + cell 3 q 6 r 0 k i)%nat by (unfold cell; lia).
    apply goodo_wr; auto; [lia|].
    assert (M1 : ((k + 1) mod 3 < 3)%nat) by (apply Nat.mod_upper_bound; lia). assert (M2 : ((k + 2) mod 3 < 3)%nat) by (apply Nat.mod_upper_bound; lia).
    unfold cv3, dshape. rewrite Ee. set (k1 := ((k + 1) mod 3)%nat) in *. set (k2 := ((k + 2) mod 3)%nat) in *.
    assert (A : forall k, (k < 3)%nat -> comp (cross3 (rel (x r) i2) (rel (x r) i3) (rel (x r) i0)) k = dlam (x r) i1 k * det3 (edge_matrix (x r))) by (intros j Hj; rewrite <- (C1 j Hj); field; exact Hd).
    assert (B : forall k, (k < 3)%nat -> comp (cross3 (rel (x r) i2) (rel (x r) i3) (rel (x r) i1)) k = - dlam (x r) i0 k * det3 (edge_matrix (x r))) by (intros j Hj; rewrite <- (C2 j Hj); field; exact Hd).
    rewrite !A, !B by assumption. field. exact Hd.
  - exists U'. split; [exact E|]. destruct St as (L' & St & Fr). split; [|split; [exact L'|]].
    + intros r i n k Hr Hi Hn Hk. destruct (St (o + cell 3 q 6 r n k i)%nat) as (y & Ey & Hy); [exists r; split; [exact Hr|]; exists i, n, k; auto|]. rewrite Ey. f_equal. eapply Hy; eauto.
    + intros c Hc. destruct (Fr c) as [F|(r & Hr & i & n & k & Hi & Hn & Hk & ->)]; [exact F|]. pose proof (cell_lt 3 q 6 f r n k i Hr Hi Hn Hk). lia.
Qed.
Lemma curl0_ok : forall U, (3 * q * (6 * f) <= length U)%nat -> tabulates 3 q 6 f (cv3 ND0) U (curl_nd0 f q g 0 U).
Proof.
  intros U HU. destruct (curl_nd0_ok 0 U HU) as (U' & E & T & A & B). exists U'. split; [exact E|]. split; [exact T|]. split; [exact A|]. intros c Hc. apply B. now right.
Qed.
(** The expansion of CURL into GRAD in place *)
Lemma wr_seq : forall (l : list R) o vs, (o + length vs <= length l)%nat -> exists l', for_ (length vs) (fun j l => do y <- rd vs j; wr l (o + j) y) l = Some l' /\ length l' = length l /\
  (forall j, (j < length vs)%nat -> rd l' (o + j) = rd vs j) /\ forall c, (c < o)%nat \/ (o + length vs <= c)%nat -> rd l' c = rd l c.
Proof.
  intros l o vs H. destruct (for_step_len (fun j c => c = (o + j)%nat) (fun c y => rd vs (c - o) = Some y) (length vs) (fun j l => do y <- rd vs j; wr l (o + j) y) l) as (l' & E & L' & S & F).
  - intros j l1 Hj L1. destruct (rd_some vs j Hj) as (y & Ey). rewrite Ey. cbn [obind]. apply step_wr; [lia|]. replace (o + j - o)%nat with j by lia. exact Ey.
  - exists l'. split; [exact E|]. split; [exact L'|]. split.
    + intros j Hj. destruct (S (o + j)%nat) as (y & Ey & Hy); [eauto|]. rewrite Ey, <- Hy. f_equal. lia.
    + intros c Hc. destruct (F c) as [F'|(j & Hj & ->)]; [exact F'|lia].
Qed.
Definition nine (c0 c1 c2 : R) (j : nat) : R := nth j [0; - (c2 / 2); c1 / 2; c2 / 2; 0; - (c0 / 2); - (c1 / 2); c0 / 2; 0] 0.
Lemma nine_wr : forall (l : list R) o c0 c1 c2, (o + 9 <= length l)%nat -> exists l',
  (do U <- wr l (o + 0) 0; do U <- wr U (o + 3) (c2 / 2); do U <- wr U (o + 6) (- (c1 / 2));
    do U <- wr U (o + 1) (- (c2 / 2)); do U <- wr U (o + 4) 0; do U <- wr U (o + 7) (c0 / 2);
    do U <- wr U (o + 2) (c1 / 2); do U <- wr U (o + 5) (- (c0 / 2)); wr U (o + 8) 0) = Some l' /\ length l' = length l /\
  (forall j, (j < 9)%nat -> rd l' (o + j) = Some (nine c0 c1 c2 j)) /\ forall c, (c < o)%nat \/ (o + 9 <= c)%nat -> rd l' c = rd l c.
Proof.
  intros l o c0 c1 c2 H.
  destruct (wr_some l (o + 0) 0) as (l0 & E0 & L0 & R0); [lia|]. rewrite E0. cbn [obind].
  destruct (wr_some l0 (o + 3) (c2 / 2)) as (l1 & E1 & L1 & R1); [lia|]. rewrite E1. cbn [obind].
  destruct (wr_some l1 (o + 6) (- (c1 / 2))) as (l2 & E2 & L2 & R2); [lia|]. rewrite E2. cbn [obind].
  destruct (wr_some l2 (o + 1) (- (c2 / 2))) as (l3 & E3 & L3 & R3); [lia|]. rewrite E3. cbn [obind].
  destruct (wr_some l3 (o + 4) 0) as (l4 & E4 & L4 & R4); [lia|]. rewrite E4. cbn [obind].
  destruct (wr_some l4 (o + 7) (c0 / 2)) as (l5 & E5 & L5 & R5); [lia|]. rewrite E5. cbn [obind].
  destruct (wr_some l5 (o + 2) (c1 / 2)) as (l6 & E6 & L6 & R6); [lia|]. rewrite E6. cbn [obind].
  destruct (wr_some l6 (o + 5) (- (c0 / 2))) as (l7 & E7 & L7 & R7); [lia|]. rewrite E7. cbn [obind].
  destruct (wr_some l7 (o + 8) 0) as (l8 & E8 & L8 & R8); [lia|]. exists l8. split; [exact E8|]. split; [congruence|]. split.
  - intros j Hj. rewrite R8, R7, R6, R5, R4, R3, R2, R1, R0.
    repeat match goal with |- context [(?a =? ?b)%nat] => destruct (Nat.eqb_spec a b) end; try (exfalso; lia);
      (destruct j as [|[|[|[|[|[|[|[|[|j]]]]]]]]]; try (exfalso; lia); reflexivity).
  - intros c Hc. rewrite R8, R7, R6, R5, R4, R3, R2, R1, R0.
    repeat match goal with |- context [(?a =? ?b)%nat] => destruct (Nat.eqb_spec a b); [exfalso; lia|] end. reflexivity.
Qed.
Lemma nine_ok : forall r n i k, (k < 9)%nat -> (r < f)%nat -> (n < q)%nat -> (i < 6)%nat -> nine (cv3 ND0 r n 0 i) (cv3 ND0 r n 1 i) (cv3 ND0 r n 2 i) k = gv3 x L ND0 r n k i.
Proof.
  intros r n i k Hk Hr Hn Hi. unfold gv3, nine, cv3, dshape. destruct (edge_of i) as [a b]. destruct k as [|[|[|[|[|[|[|[|[|k]]]]]]]]]; try (exfalso; lia); cbn -[Rdiv]; field.
Qed.
Lemma grad_nd0_ok : forall U, (9 * q * (6 * f) <= length U)%nat -> tabulates 9 q 6 f (gv3 x L ND0) U (grad_nd0 f q g U).
Proof.
  intros U HU. unfold grad_nd0. rewrite room_ok by exact HU. cbn [obind]. cbv zeta.
  set (N := (q * 6 * f)%nat). replace (9 * q * (6 * f) - N * 3)%nat with (6 * N)%nat by (unfold N; lia).
  destruct (curl_nd0_ok (6 * N) U) as (U1 & E1 & T1 & L1 & F1); [unfold N; lia|]. rewrite E1. cbn [obind].
  set (w := gv3 x L ND0).
  set (st := fun (m : nat) (l : list R) => length l = length U /\ (forall c, (9 * m <= c)%nat -> rd l c = rd U1 c) /\
     (forall r i n k, (r < f)%nat -> (i < 6)%nat -> (n < q)%nat -> (k < 9)%nat -> (n + q * (i + 6 * r) < m)%nat -> rd l (cell 9 q 6 r n k i) = Some (w r n k i))).
  set (B := fun r i n (U : list R) =>
    do c0 <- rd U (6 * N + 0 + n * 3 + q * 3 * (i + 6 * r));
    do c1 <- rd U (6 * N + 1 + n * 3 + q * 3 * (i + 6 * r));
    do c2 <- rd U (6 * N + 2 + n * 3 + q * 3 * (i + 6 * r));
    let a0 := c0 / 2 in let a1 := c1 / 2 in let a2 := c2 / 2 in
    let o := (9 * (n + q * (i + r * 6)))%nat in
    do U <- wr U (o + 0) 0; do U <- wr U (o + 3) a2; do U <- wr U (o + 6) (- a1);
    do U <- wr U (o + 1) (- a2); do U <- wr U (o + 4) 0; do U <- wr U (o + 7) a0;
    do U <- wr U (o + 2) a1; do U <- wr U (o + 5) (- a0); wr U (o + 8) 0).
  change (tabulates 9 q 6 f w U (for_ f (fun r U => for_ 6 (fun i U => for_ q (fun n U => B r i n U) U) U) U1)).
  destruct (for_inv (fun r l => st (q * 6 * r)%nat l) f (fun r U => for_ 6 (fun i U => for_ q (fun n U => B r i n U) U) U) U1) as (U' & E & P).
  - split; [congruence|]. split; [auto|]. intros. lia.
  - intros r l Hr P1. destruct (for_inv (fun i l => st (q * (i + 6 * r))%nat l) 6 (fun i U => for_ q (fun n U => B r i n U) U) l) as (l1 & El1 & P2).
    + replace (q * (0 + 6 * r))%nat with (q * 6 * r)%nat by lia. exact P1.
    + intros i l1 Hi P2. destruct (for_inv (fun n l => st (n + q * (i + 6 * r))%nat l) q (fun n U => B r i n U) l1) as (l2 & El2 & P3).
      * exact P2.
      * intros n l2 Hn (L2 & Q2 & T2). assert (Hm : (n + q * (i + 6 * r) < N)%nat) by (pose proof (cell_lt 1 q 6 f r n 0 i Hr Hi Hn ltac:(lia)) as H; unfold cell in H; unfold N; lia).
        set (m := (n + q * (i + 6 * r))%nat) in *.
        assert (RC : forall j, (j < 3)%nat -> rd l2 (6 * N + j + n * 3 + q * 3 * (i + 6 * r)) = Some (cv3 ND0 r n j i)).
        { intros j Hj. rewrite Q2 by (unfold m in *; lia). rewrite <- T1 by assumption. f_equal. unfold cell. lia. }
        unfold B. rewrite !RC by lia. cbn [obind]. cbv zeta. replace (i + r * 6)%nat with (i + 6 * r)%nat by lia. fold m.
        destruct (nine_wr l2 (9 * m) (cv3 ND0 r n 0 i) (cv3 ND0 r n 1 i) (cv3 ND0 r n 2 i)) as (l3 & E3 & L3 & R3 & F3); [unfold N in Hm; nia|].
        exists l3. split; [exact E3|]. split; [congruence|]. split.
        -- intros c Hc. rewrite F3 by lia. apply Q2. lia.
        -- intros r' i' n' k' Hr' Hi' Hn' Hk' Hlt. destruct (Nat.eq_dec (n' + q * (i' + 6 * r')) m) as [Em|Em].
           ++ assert (Ec : cell 1 q 6 r' n' 0 i' = cell 1 q 6 r n 0 i) by (unfold cell; unfold m in Em; lia). apply cell_inj in Ec as (-> & -> & _ & ->); auto.
              replace (cell 9 q 6 r n k' i) with (9 * m + k')%nat by (unfold cell, m; lia). rewrite R3 by exact Hk'. f_equal. now apply nine_ok.
           ++ assert (Hc : (cell 9 q 6 r' n' k' i' < 9 * m)%nat) by (unfold cell; lia). rewrite F3 by (now left). apply T2; auto. lia.
      * exists l2. split; [exact El2|]. replace (q * (S i + 6 * r))%nat with (q + q * (i + 6 * r))%nat by nia. exact P3.
    + exists l1. split; [exact El1|]. replace (q * 6 * S r)%nat with (q * (6 + 6 * r))%nat by nia. exact P2.
  - destruct P as (L' & Q' & T'). exists U'. split; [exact E|]. split.
    + intros r i n k Hr Hi Hn Hk. apply T'; auto. pose proof (cell_lt 1 q 6 f r n 0 i Hr Hi Hn ltac:(lia)) as H. unfold cell in H. lia.
    + split; [exact L'|]. intros c Hc. rewrite Q' by (fold N in Hc; unfold N; nia). apply F1. right. unfold N. lia.
Qed.
End Nd.

(** *** All operators *)
Lemma tab2_ext : forall f q d nf v v' es U E res, tabulates2 f q d nf v es U E res -> (forall r i n k, (r < f)%nat -> (i < nf)%nat -> (n < q)%nat -> (k < d)%nat -> v r n k i = v' r n k i) -> tabulates2 f q d nf v' es U E res.
Proof. intros f q d nf v v' es U E res (U' & E' & Er & T & A & B) H. exists U', E'. split; [exact Er|]. split; [exact (table_ext _ _ _ _ _ _ _ T H)|auto]. Qed.
Section All.
Variables (f q : nat) (g : geo) (x : nat -> tetra) (L : nat -> nat -> R).
Hypothesis Hp : prepared f q x L g.
Hypothesis Hq : (1 <= q)%nat.
Hypothesis Hf : (1 <= f)%nat.
Definition uval (s : fem) : nat -> nat -> nat -> nat -> R := fun r n k i => shape s (x r) i k (point x L r n).
Definition gval (s : fem) : nat -> nat -> nat -> nat -> R := fun r n k i => dshape s (x r) i (k / 3) (k mod 3) (point x L r n).
Lemma iden_ok : forall s U, (fdim s * q * (nfa s * f) <= length U)%nat -> tabulates (fdim s) q (nfa s) f (uval s) U (iden s f q g U).
Proof.
  intros s U HU. assert (HL := prep_L f q g x L Hp).
  assert (SV : scalar s = true -> forall r i n k, (r < f)%nat -> (i < nfa s)%nat -> (n < q)%nat -> (k < 1)%nat -> iv L s r n k i = uval s r n k i).
  { intros Hs r i n k Hr Hi Hn _. unfold iv, uval. rewrite shape_sval by exact Hs. apply sval_ext; [exact Hi|]. intros j Hj. symmetry. now apply (lam_pt f q g x L Hp). }
  destruct s; cbn [fdim nfa iden] in *; [eapply tab_ext; [|now apply SV]..| |].
  - now apply iden_p0_ok. - now apply iden_p1_ok. - now apply iden_p2_ok. - now apply iden_p3_ok. - now apply iden_b2_ok. - now apply iden_b4_ok. - now apply iden_cr1_ok.
  - now apply iden_rt0_ok. - now apply iden_nd0_ok.
Qed.
Lemma gv_gval : forall s, scalar s = true -> forall r i n k, (r < f)%nat -> (i < nfa s)%nat -> (n < q)%nat -> (k < 3)%nat -> gv x L s r n k i = gval s r n k i.
Proof.
  intros s Hs r i n k Hr Hi Hn Hk. unfold gv, gval. rewrite Nat.div_small, Nat.mod_small by exact Hk. rewrite dshape_dval by exact Hs. apply dval_ext; [exact Hi| |auto]. intros j Hj. symmetry. now apply (lam_pt f q g x L Hp).
Qed.
Lemma grad_ok : forall s U E, (3 * fdim s * q * (nfa s * f) <= length U)%nat -> (esize s GRAD q <= length E)%nat -> tabulates2 f q (3 * fdim s) (nfa s) (gval s) (esize s GRAD q) U E (grad s f q g U E).
Proof.
  intros s U E HU HE. assert (SV := gv_gval s).
  destruct s; cbn [fdim nfa grad esize] in *; cbn [Nat.mul Nat.add] in HU |- *; [eapply tab2_ext; [|now apply SV]..| |]; try (apply keepE_ok).
  - now apply grad_p0_ok. - now apply (grad_p1_ok f q g x L Hp).
  - apply (grad_ref_ok f q g x L Hp P2); auto. now apply (ref_p2_ok f q g x L Hp).
  - apply (grad_ref_ok f q g x L Hp P3); auto. now apply (ref_p3_ok f q g x L Hp).
  - apply (grad_ref_ok f q g x L Hp B2); auto. now apply (ref_b2_ok f q g x L Hp).
  - replace (3 * q)%nat with (3 * nfa B4 * q)%nat by (cbn [nfa]; lia). apply (grad_ref_ok f q g x L Hp B4); auto. now apply (ref_b4_ok f q g x L Hp).
  - now apply (grad_cr1_ok f q g x L Hp).
  - now apply (grad_rt0_ok f q g x L Hp). - now apply (grad_nd0_ok f q g x L Hp).
Qed.
End All.
