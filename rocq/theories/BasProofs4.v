(** GRAD of P2, P3, B2, B4 (through the reference gradients) and CR1; the DUDX helper. *)
From Verif Require Import Prelude RSum GeoModel GeoSpec SpModel BasModel BasSpec BasProofs CoreProofs SpProofs3 BasProofs2 BasProofs3.
Local Open Scope R_scope.

Section Ref.
Variables (f q : nat) (g : geo) (x : nat -> tetra) (L : nat -> nat -> R).
Hypothesis Hp : prepared f q x L g.
Definition rv (s : fem) : nat -> nat -> nat -> nat -> R := fun _ i k n => dval s (L n) (fun a => gref a k) i.
Definition rgood (s : fem) : nat -> R -> Prop := good 3 (nfa s) q 1 (rv s).
Lemma ref_wr : forall s l c y i n k, (3 * nfa s * q <= length l)%nat -> (i < nfa s)%nat -> (n < q)%nat -> (k < 3)%nat -> c = (k + 3 * (i + nfa s * n))%nat -> y = dval s (L n) (fun a => gref a k) i ->
  exists l', wr l c y = Some l' /\ step (fun c' => c' = c) (rgood s) l l'.
Proof. intros s l c y i n k Hl Hi Hn Hk Hc Hy. apply (good_wr 3 (nfa s) q 1 (rv s) l c y 0 n i k); auto; try lia. unfold cell. rewrite Hc. lia. Qed.
Lemma ref_row : forall s l i n body, (3 * nfa s * q <= length l)%nat -> (i < nfa s)%nat -> (n < q)%nat ->
  (forall k l1, (k < 3)%nat -> body k l1 = wr l1 (k + 3 * (i + nfa s * n)) (dval s (L n) (fun a => gref a k) i)) ->
  exists l', for_ 3 body l = Some l' /\ step (fun c => exists k, (k < 3)%nat /\ c = (k + 3 * (i + nfa s * n))%nat) (rgood s) l l'.
Proof.
  intros s l i n body Hl Hi Hn HB. apply (for_step_len (fun k c => c = (k + 3 * (i + nfa s * n))%nat)). intros k l1 Hk L1. rewrite HB by exact Hk. apply (ref_wr s l1 _ _ i n k); auto. lia.
Qed.
Definition rset (nf n : nat) (c : nat) : Prop := exists i k, (i < nf)%nat /\ (k < 3)%nat /\ c = (k + 3 * (i + nf * n))%nat.
Definition ref_good (s : fem) (E : list R) (res : option (list R)) : Prop := exists E', res = Some E' /\ ref_ok q L s E' /\ same_after (3 * nfa s * q) E E'.
Lemma ref_for : forall s E body, (3 * nfa s * q <= length E)%nat ->
  (forall n l, (n < q)%nat -> length l = length E -> exists l', body n l = Some l' /\ step (rset (nfa s) n) (rgood s) l l') -> ref_good s E (for_ q body E).
Proof.
  intros s E body HE HB. destruct (for_step_len (rset (nfa s)) (rgood s) q body E HB) as (E' & EE & St). exists E'. split; [exact EE|]. split.
  - intros n i k Hn Hi Hk. destruct St as (_ & St & _). destruct (St (k + 3 * (i + nfa s * n))%nat) as (y & Ey & Hy); [exists n; split; [exact Hn|]; exists i, k; auto|].
    rewrite Ey. f_equal. apply (Hy 0%nat n i k); auto. unfold cell. lia.
  - apply (after_intro _ _ _ _ _ St). intros c (n & Hn & i & k & Hi & Hk & ->). pose proof (cell_lt 3 (nfa s) q 1 0 i k n ltac:(lia) Hn Hi Hk) as H. unfold cell in H. lia.
Qed.
Lemma ref_p2_ok : forall E, (3 * 10 * q <= length E)%nat -> ref_good P2 E (ref_p2 q g E).
Proof.
  intros E HE. unfold ref_p2. apply ref_for; [exact HE|]. intros n l Hn Hl.
  destruct (for_step_len (fun i c => exists k, (k < 3)%nat /\ c = (k + 3 * (i + 10 * n))%nat) (rgood P2) 4
    (fun i E => do s1 <- rd (XYL g) (i + 4 * n); for_ 3 (fun d E => do a <- rd GRAD_P1 (d + 3 * i); wr E (d + 3 * (i + 10 * n)) (a * (4 * s1 - 1))) E) l) as (l1 & E1 & S1).
  { intros i l1 Hi L1. rewrite (prep_L f q g x L Hp) by assumption. cbn [obind]. apply (ref_row P2 l1 i n); cbn [nfa]; try lia. intros k l2 Hk. rewrite grad_p1_tab by assumption. cbn [obind].
    cbn [dval]. apply Nat.ltb_lt in Hi. now rewrite Hi. }
  rewrite E1. cbn [obind]. rewrite for_range_shift. assert (L1 : length l1 = length l) by (destruct S1; assumption).
  destruct (for_step_len (fun i c => exists k, (k < 3)%nat /\ c = (k + 3 * (4 + i + 10 * n))%nat) (rgood P2) 6
    (fun i E => do a <- rd eI (4 + i - 4); do b <- rd eJ (4 + i - 4); do s1 <- rd (XYL g) (a + 4 * n); do s2 <- rd (XYL g) (b + 4 * n);
              for_ 3 (fun d E => do u <- rd GRAD_P1 (d + 3 * b); do v <- rd GRAD_P1 (d + 3 * a);
                        wr E (d + 3 * (4 + i + 10 * n)) (4 * (u * s1 + v * s2))) E) l1) as (l2 & E2 & S2).
  { intros i l2 Hi L2. replace (4 + i - 4)%nat with i by lia. destruct (edges_tab i Hi) as (a & b & Ea & Eb & Ee & Ha & Hb). rewrite Ea, Eb. cbn [obind]. rewrite !(prep_L f q g x L Hp) by assumption. cbn [obind].
    apply (ref_row P2 l2 (4 + i) n); cbn [nfa]; try lia. intros k l3 Hk. rewrite !grad_p1_tab by assumption. cbn [obind].
    cbn [dval]. destruct (Nat.ltb_spec (4 + i) 4); [lia|]. replace (4 + i - 4)%nat with i by lia. rewrite Ee. f_equal. ring. }
  exists l2. split; [exact E2|]. eapply step_ext; [exact (step_trans _ _ _ _ _ _ S1 S2)|]. intros c. unfold rset. cbn [nfa]. split.
  - intros [(i & Hi & k & Hk & ->)|(i & Hi & k & Hk & ->)]; [exists i, k|exists (4 + i)%nat, k]; repeat (split; [lia|]); reflexivity.
  - intros (i & k & Hi & Hk & ->). destruct (Nat.lt_ge_cases i 4); [left; exists i; split; [assumption|]; eauto|]. right. exists (i - 4)%nat. split; [lia|]. exists k. split; [exact Hk|]. lia.
Qed.
Lemma ref_b2_ok : forall E, (3 * 6 * q <= length E)%nat -> ref_good B2 E (ref_b2 q g E).
Proof.
  intros E HE. unfold ref_b2. apply ref_for; [exact HE|]. intros n l Hn Hl.
  destruct (for_step_len (fun i c => exists k, (k < 3)%nat /\ c = (k + 3 * (i + 6 * n))%nat) (rgood B2) 6
    (fun i E => do a <- rd eI i; do b <- rd eJ i; do s1 <- rd (XYL g) (a + 4 * n); do s2 <- rd (XYL g) (b + 4 * n);
              for_ 3 (fun d E => do u <- rd GRAD_P1 (d + 3 * b); do v <- rd GRAD_P1 (d + 3 * a);
                        wr E (d + 3 * (i + 6 * n)) (4 * (u * s1 + v * s2))) E) l) as (l2 & E2 & S2).
  { intros i l2 Hi L2. destruct (edges_tab i Hi) as (a & b & Ea & Eb & Ee & Ha & Hb). rewrite Ea, Eb. cbn [obind]. rewrite !(prep_L f q g x L Hp) by assumption. cbn [obind].
    apply (ref_row B2 l2 i n); cbn [nfa]; try lia. intros k l3 Hk. rewrite !grad_p1_tab by assumption. cbn [obind].
    cbn [dval]. rewrite Ee. f_equal. ring. }
  exists l2. split; [exact E2|]. eapply step_ext; [exact S2|]. intros c. unfold rset. cbn [nfa]. split.
  - intros (i & Hi & k & Hk & ->); exists i, k; auto.
  - intros (i & k & Hi & Hk & ->). exists i. eauto.
Qed.
Lemma ref_b4_ok : forall E, (3 * 1 * q <= length E)%nat -> ref_good B4 E (ref_b4 q g E).
Proof.
  intros E HE. unfold ref_b4. apply ref_for; [exact HE|]. intros n l Hn Hl. rewrite !(prep_L f q g x L Hp) by lia. cbn [obind].
  destruct (ref_row B4 l 0 n (fun k E => do u0 <- rd GRAD_P1 (k + 3 * 0); do u1 <- rd GRAD_P1 (k + 3 * 1); do u2 <- rd GRAD_P1 (k + 3 * 2); do u3 <- rd GRAD_P1 (k + 3 * 3);
              wr E (k + 3 * n) (256 * (u0 * (L n 1%nat * L n 2%nat * L n 3%nat) + u1 * (L n 0%nat * L n 2%nat * L n 3%nat) + u2 * (L n 0%nat * L n 1%nat * L n 3%nat) + u3 * (L n 0%nat * L n 1%nat * L n 2%nat))))) as (l' & E' & S'); cbn [nfa]; try lia.
  - intros k l1 Hk. rewrite !grad_p1_tab by lia. cbn [obind dval]. f_equal. lia.
  - exists l'. split; [exact E'|]. eapply step_ext; [exact S'|]. intros c. unfold rset. cbn [nfa]. split.
    + intros (k & Hk & ->). exists 0%nat, k. repeat (split; [lia|]). reflexivity.
    + intros (i & k & Hi & Hk & ->). exists k. split; [exact Hk|]. replace i with 0%nat by lia. reflexivity.
Qed.
Lemma ref_p3_ok : forall E, (3 * 20 * q <= length E)%nat -> ref_good P3 E (ref_p3 q g E).
Proof.
  intros E HE. unfold ref_p3. apply ref_for; [exact HE|]. intros n l Hn Hl.
  destruct (for_step_len (fun i c => exists k, (k < 3)%nat /\ c = (k + 3 * (i + 20 * n))%nat) (rgood P3) 4
    (fun i E => do s1 <- rd (XYL g) (i + 4 * n); for_ 3 (fun d E => do a <- rd GRAD_P1 (d + 3 * i); wr E (d + 3 * (i + 20 * n)) (a * ((27 / 2 * s1 - 9) * s1 + 1))) E) l) as (l1 & E1 & S1).
  { intros i l1 Hi L1. rewrite (prep_L f q g x L Hp) by assumption. cbn [obind]. apply (ref_row P3 l1 i n); cbn [nfa]; try lia. intros k l2 Hk. rewrite grad_p1_tab by assumption. cbn [obind].
    cbn [dval]. apply Nat.ltb_lt in Hi. now rewrite Hi. }
  rewrite E1. cbn [obind]. rewrite for_range_shift. assert (L1 : length l1 = length l) by (destruct S1; assumption).
  destruct (for_step_len (fun e c => exists k, (k < 3)%nat /\ (c = (k + 3 * (4 + 2 * e + 20 * n))%nat \/ c = (k + 3 * (4 + 2 * e + 1 + 20 * n))%nat)) (rgood P3) 6
    (fun i E => do a <- rd eI (4 + i - 4); do b <- rd eJ (4 + i - 4); do s1 <- rd (XYL g) (a + 4 * n); do s2 <- rd (XYL g) (b + 4 * n);
              for_ 3 (fun d E => do u <- rd GRAD_P1 (d + 3 * a); do v <- rd GRAD_P1 (d + 3 * b);
                        do E <- wr E (d + 3 * (4 + (4 + i - 4) * 2 + 20 * n)) ((u * (6 * s1 - 1) * s2 + v * (3 * s1 - 1) * s1) * (9 / 2));
                        wr E (d + 3 * (4 + (4 + i - 4) * 2 + 1 + 20 * n)) ((v * (6 * s2 - 1) * s1 + u * (3 * s2 - 1) * s2) * (9 / 2))) E) l1) as (l2 & E2 & S2).
  { intros e l2 He L2. replace (4 + e - 4)%nat with e by lia. destruct (edges_tab e He) as (a & b & Ea & Eb & Ee & Ha & Hb). rewrite Ea, Eb. cbn [obind]. rewrite !(prep_L f q g x L Hp) by assumption. cbn [obind].
    apply (for_step_len (fun k c => c = (k + 3 * (4 + 2 * e + 20 * n))%nat \/ c = (k + 3 * (4 + 2 * e + 1 + 20 * n))%nat)). intros k l3 Hk L3. rewrite !grad_p1_tab by assumption. cbn [obind].
    destruct (ref_wr P3 l3 (k + 3 * (4 + e * 2 + 20 * n)) ((gref a k * (6 * L n a - 1) * L n b + gref b k * (3 * L n a - 1) * L n a) * (9 / 2)) (4 + 2 * e) n k) as (m1 & W1 & T1); auto; try (cbn [nfa]; lia).
    { cbn [dval]. destruct (Nat.ltb_spec (4 + 2 * e) 4); [lia|]. destruct (Nat.ltb_spec (4 + 2 * e) 16); [|lia]. replace ((4 + 2 * e - 4) / 2)%nat with e by (replace (4 + 2 * e - 4)%nat with (e * 2)%nat by lia; now rewrite Nat.div_mul by lia). rewrite Ee.
      replace (Nat.even (4 + 2 * e)) with true by (symmetry; apply Nat.even_spec; exists (2 + e)%nat; lia). field. }
    rewrite W1. cbn [obind].
    destruct (ref_wr P3 m1 (k + 3 * (4 + e * 2 + 1 + 20 * n)) ((gref b k * (6 * L n b - 1) * L n a + gref a k * (3 * L n b - 1) * L n b) * (9 / 2)) (4 + 2 * e + 1) n k) as (m2 & W2 & T2); auto; try (cbn [nfa]; destruct T1; lia).
    { cbn [dval]. destruct (Nat.ltb_spec (4 + 2 * e + 1) 4); [lia|]. destruct (Nat.ltb_spec (4 + 2 * e + 1) 16); [|lia]. replace ((4 + 2 * e + 1 - 4) / 2)%nat with e by (replace (4 + 2 * e + 1 - 4)%nat with (1 + e * 2)%nat by lia; rewrite Nat.div_add by lia; reflexivity). rewrite Ee.
      replace (Nat.even (4 + 2 * e + 1)) with false; [field|]. symmetry. rewrite <- Nat.negb_odd. replace (Nat.odd (4 + 2 * e + 1)) with true; [reflexivity|]. symmetry. apply Nat.odd_spec. exists (2 + e)%nat. lia. }
    exists m2. split; [exact W2|]. eapply step_ext; [exact (step_trans _ _ _ _ _ _ T1 T2)|]. intros c. split; (intros [E0|E0]; [left|right]; rewrite E0; lia). }
  rewrite E2. cbn [obind]. rewrite for_range_shift. assert (L2 : length l2 = length l) by (destruct S2; congruence).
  destruct (for_step_len (fun i c => exists k, (k < 3)%nat /\ c = (k + 3 * (16 + i + 20 * n))%nat) (rgood P3) 4
    (fun i E => do a <- rd IPF (4 * (16 + i - 16)); do b <- rd IPF (1 + 4 * (16 + i - 16)); do c <- rd IPF (2 + 4 * (16 + i - 16));
              do s1 <- rd (XYL g) (a + 4 * n); do s2 <- rd (XYL g) (b + 4 * n); do s3 <- rd (XYL g) (c + 4 * n);
              for_ 3 (fun d E => do u <- rd GRAD_P1 (d + 3 * a); do v <- rd GRAD_P1 (d + 3 * b); do w <- rd GRAD_P1 (d + 3 * c);
                        wr E (d + 3 * (16 + i + 20 * n)) (27 * (u * s2 * s3 + s1 * v * s3 + s1 * s2 * w))) E) l2) as (l3 & E3 & S3).
  { intros e l3 He L3. replace (16 + e - 16)%nat with e by lia. destruct (faces_tab e He) as (a & b & c & Ea & Eb & Ec & Ha & Hb & Hc & _ & Hd). change (4 * e)%nat with (0 + 4 * e)%nat at 1. rewrite Ea, Eb, Ec. cbn [obind]. rewrite !(prep_L f q g x L Hp) by lia. cbn [obind].
    apply (ref_row P3 l3 (16 + e) n); cbn [nfa]; try lia. intros k l4 Hk. rewrite !grad_p1_tab by assumption. cbn [obind]. f_equal.
    cbn [dval]. destruct (Nat.ltb_spec (16 + e) 4); [lia|]. destruct (Nat.ltb_spec (16 + e) 16); [lia|]. replace (16 + e - 16)%nat with e by lia. cbv zeta. f_equal. exact (Hd (L n) (fun a => gref a k)). }
  exists l3. split; [exact E3|]. eapply step_ext; [exact (step_trans _ _ _ _ _ _ (step_trans _ _ _ _ _ _ S1 S2) S3)|]. intros c. unfold rset. cbn [nfa]. split.
  - intros [[(i & Hi & k & Hk & ->)|(i & Hi & k & Hk & [->| ->])]|(i & Hi & k & Hk & ->)]; [exists i, k|exists (4 + 2 * i)%nat, k|exists (4 + 2 * i + 1)%nat, k|exists (16 + i)%nat, k]; repeat (split; [lia|]); reflexivity.
  - intros (i & k & Hi & Hk & ->). destruct (Nat.lt_ge_cases i 4); [left; left; exists i; split; [assumption|]; eauto|]. destruct (Nat.lt_ge_cases i 16).
    + left. right. exists ((i - 4) / 2)%nat. assert (He : ((i - 4) / 2 < 6)%nat) by (apply Nat.div_lt_upper_bound; lia). split; [exact He|]. exists k. split; [exact Hk|].
      assert (Ei := Nat.div_mod (i - 4) 2 ltac:(lia)). assert (Hm := Nat.mod_upper_bound (i - 4) 2 ltac:(lia)). destruct ((i - 4) mod 2)%nat as [|[|?]] eqn:Em; [left|right|lia]; lia.
    + right. exists (i - 16)%nat. split; [lia|]. exists k. split; [exact Hk|]. lia.
Qed.
(** GRAD through the reference gradients *)
Definition tabulates2 (d nf : nat) (v : nat -> nat -> nat -> nat -> R) (es : nat) (U E : list R) (res : option (list R * list R)) : Prop :=
  exists U' E', res = Some (U', E') /\ has_table d q nf f v U' /\ same_after (d * q * (nf * f)) U U' /\ same_after es E E'.
Lemma grad_ref_ok : forall s ref U E, (3 * q * (nfa s * f) <= length U)%nat -> (3 * nfa s * q <= length E)%nat -> (forall E, (3 * nfa s * q <= length E)%nat -> ref_good s E (ref q g E)) ->
  tabulates2 3 (nfa s) (gv x L s) (3 * nfa s * q) U E (grad_ref (nfa s) ref f q g U E).
Proof.
  intros s ref U E HU HE HR. unfold grad_ref. rewrite room_ok by exact HU. cbn [obind]. rewrite guard_true by (now apply Nat.leb_le). destruct (HR E HE) as (E' & -> & RE & A). cbn [obind].
  destruct (push_grad_ok f q g x L Hp s E' U RE HU) as (U' & -> & T & B). cbn [obind]. exists U', E'. auto.
Qed.
Lemma keepE_ok : forall d nf v es U E res, tabulates d q nf f v U res -> tabulates2 d nf v es U E (keepE E res).
Proof. intros d nf v es U E res (U' & -> & T & A). exists U', E. split; [reflexivity|]. split; [exact T|]. split; [exact A|]. apply after_refl. Qed.

(** The first point to the others *)
Lemma copy_points_ok : forall d nf r i (v : nat -> nat -> nat -> nat -> R) l, (1 <= q)%nat -> (d * q * (nf * f) <= length l)%nat -> (r < f)%nat -> (i < nf)%nat ->
  (forall n k, v r n k i = v r 0%nat k i) ->
  (forall k, (k < d)%nat -> rd l (cell d q nf r 0 k i) = Some (v r 0%nat k i)) -> forall body,
  (forall n k l1, (1 <= n < q)%nat -> (k < d)%nat -> body n k l1 = (do y <- rd l1 (cell d q nf r 0 k i); wr l1 (cell d q nf r n k i) y)) ->
  exists l', for_range 1 (q - 1) (fun n U => for_ d (fun k U => body n k U) U) l = Some l' /\ step (fun c => exists n k, (1 <= n < q)%nat /\ (k < d)%nat /\ c = cell d q nf r n k i) (good d q nf f v) l l'.
Proof.
  intros d nf r i v l Hq Hl Hr Hi Hv H0 body HB.
  set (I := fun l1 : list R => length l1 = length l /\ forall k, (k < d)%nat -> rd l1 (cell d q nf r 0 k i) = Some (v r 0%nat k i)).
  destruct (for_range_step (fun n c => exists k, (k < d)%nat /\ c = cell d q nf r n k i) (good d q nf f v) I (q - 1) 1 (fun n U => for_ d (fun k U => body n k U) U) l) as (l' & E & St & _).
  - split; auto.
  - intros n l1 Hn I1. apply (for_step (fun k c => c = cell d q nf r n k i) (good d q nf f v) I); [exact I1|].
    intros k l2 Hk (L2 & R2). rewrite HB by lia. rewrite R2 by exact Hk. cbn [obind].
    destruct (good_wr d q nf f v l2 (cell d q nf r n k i) (v r 0%nat k i) r i n k ltac:(lia) Hr Hi ltac:(lia) Hk eq_refl (eq_sym (Hv n k))) as (l3 & E3 & S3).
    exists l3. split; [exact E3|]. split; [exact S3|]. split; [destruct S3; congruence|]. intros k' Hk'. rewrite (step_keep _ _ _ _ _ S3); [now apply R2|].
    intros E0. apply cell_inj in E0; try lia.
  - exists l'. split; [exact E|]. eapply step_ext; [exact St|]. intros c. split; [intros (n & Hn & k & Hk & Hc); exists n, k; split; [lia|auto]|intros (n & k & Hn & Hk & Hc); exists n; split; [lia|eauto]].
Qed.
Lemma grad_cr1_ok : forall U, (1 <= q)%nat -> (3 * q * (4 * f) <= length U)%nat -> tabulates 3 q 4 f (gv x L CR1) U (grad_cr1 f q g U).
Proof.
  intros U Hq HU. unfold grad_cr1. rewrite room_ok by exact HU. cbn [obind].
  destruct (step2 (fun r i c => exists n k, (n < q)%nat /\ (k < 3)%nat /\ c = cell 3 q 4 r n k i) (good 3 q 4 f (gv x L CR1)) f 4
   (fun r i U => do U <- for_ 3 (fun k U =>
      do a <- rd IPF3 i;
      do s <- for_ 3 (fun j s => do p <- rd (PSI g) (j + 3 * (k + 3 * r)); do u <- rd GRAD_P1 (j + 3 * a); Some (s + p * u)) 0;
      wr U (k + 3 * q * (i + 4 * r)) (-3 * s)) U;
    for_range 1 (q - 1) (fun n U => for_ 3 (fun k U => do v <- rd U (k + 3 * q * (i + 4 * r)); wr U (k + 3 * n + 3 * q * (i + 4 * r)) v) U) U) U) as (U' & E & St).
  - intros r i l Hr Hi Hl.
    destruct (for_step_len (fun k c => c = cell 3 q 4 r 0 k i) (good 3 q 4 f (gv x L CR1)) 3 (fun k U =>
      do a <- rd IPF3 i;
      do s <- for_ 3 (fun j s => do p <- rd (PSI g) (j + 3 * (k + 3 * r)); do u <- rd GRAD_P1 (j + 3 * a); Some (s + p * u)) 0;
      wr U (k + 3 * q * (i + 4 * r)) (-3 * s)) l) as (l1 & E1 & S1).
    { intros k l1 Hk L1. assert (Ei : rd IPF3 i = Some (opp i)) by (four i; reflexivity). rewrite Ei. cbn [obind]. assert (Ho : (opp i < 4)%nat) by (unfold opp; apply Nat.mod_upper_bound; lia).
      erewrite (for_sum 3 (fun j => dlam (x r) (S j) k * gref (opp i) j)).
      - cbn [obind]. replace (k + 3 * q * (i + 4 * r))%nat with (cell 3 q 4 r 0 k i) by (unfold cell; lia). apply (good_wr 3 q 4 f (gv x L CR1) l1 _ _ r i 0 k); auto; try lia.
        rewrite Rplus_0_l, <- (dlam_gref f q g x L Hp) by assumption. reflexivity.
      - intros j s0 Hj. replace (j + 3 * (k + 3 * r))%nat with (9 * r + (j + 3 * k))%nat by lia. rewrite (prep_psi f q g x L Hp) by assumption. rewrite grad_p1_tab by assumption. reflexivity. }
    rewrite E1. cbn [obind]. assert (L1 : length l1 = length l) by (destruct S1; assumption).
    destruct (copy_points_ok 3 4 r i (gv x L CR1) l1 Hq ltac:(lia) Hr Hi (fun _ _ => eq_refl)) with
      (body := fun n k (U : list R) => do v <- rd U (k + 3 * q * (i + 4 * r)); wr U (k + 3 * n + 3 * q * (i + 4 * r)) v) as (l2 & E2 & S2).
    { intros k Hk. destruct S1 as (_ & S1 & _). destruct (S1 (cell 3 q 4 r 0 k i)) as (y & Ey & Hy); [eauto|]. rewrite Ey. f_equal. eapply Hy; eauto. }
    { intros n k l2 Hn Hk. replace (k + 3 * q * (i + 4 * r))%nat with (cell 3 q 4 r 0 k i) by (unfold cell; lia). replace (k + 3 * n + 3 * q * (i + 4 * r))%nat with (cell 3 q 4 r n k i) by (unfold cell; lia). reflexivity. }
    exists l2. split; [exact E2|]. eapply step_ext; [exact (step_trans _ _ _ _ _ _ S1 S2)|]. intros c. split.
    + intros [(k & Hk & ->)|(n & k & Hn & Hk & ->)]; [exists 0%nat, k|exists n, k]; auto. split; [lia|auto].
    + intros (n & k & Hn & Hk & ->). destruct (Nat.eq_dec n 0) as [->|]; [left; eauto|]. right. exists n, k. split; [lia|auto].
  - eapply tab_intro; [exact E|exact St| |].
    + intros r i n k Hr Hi Hn Hk. exists r, i. repeat (split; [assumption|]). exists n, k. auto.
    + intros c (r & i & Hr & Hi & n & k & Hn & Hk & ->). now apply cell_lt.
Qed.
(** *** The DUDX helper: the rows 3 k + a of a table of 3 d rows *)
Lemma compress_ok : forall a d nf (v : nat -> nat -> nat -> nat -> R) U, (a < 3)%nat -> (3 * d * q * (nf * f) <= length U)%nat -> has_table (3 * d) q nf f v U ->
  exists U', compress a d f q nf U = Some U' /\ has_table d q nf f (fun r n k i => v r n (a + 3 * k)%nat i) U' /\ same_after (d * q * (nf * f)) U U'.
Proof.
  intros a d nf v U Ha HU HT. unfold compress. set (w := fun r n k i => v r n (a + 3 * k)%nat i).
  set (N := (d * q * (nf * f))%nat).
  (* state before a cell of linear number m: the cells up to m are final, the ones from m on are those of U *)
  set (st := fun (m : nat) (l : list R) => length l = length U /\ (forall c, (m <= c)%nat -> rd l c = rd U c) /\
     (forall r i n k, (r < f)%nat -> (i < nf)%nat -> (n < q)%nat -> (k < d)%nat -> (cell d q nf r n k i < m)%nat -> rd l (cell d q nf r n k i) = Some (w r n k i))).
  assert (H : exists U', for_ f (fun r U => for_ nf (fun i U => for_ q (fun n U => for_ d (fun k U =>
    do v <- rd U (a + 3 * k + n * (3 * d) + 3 * d * q * (i + nf * r)); wr U (k + n * d + q * d * (i + nf * r)) v) U) U) U) U = Some U' /\ st (d * q * nf * f)%nat U').
  { destruct (for_inv (fun r l => st (d * q * nf * r)%nat l) f (fun r U => for_ nf (fun i U => for_ q (fun n U => for_ d (fun k U =>
    do v <- rd U (a + 3 * k + n * (3 * d) + 3 * d * q * (i + nf * r)); wr U (k + n * d + q * d * (i + nf * r)) v) U) U) U) U) as (U' & E & P).
    - split; [reflexivity|]. split; [auto|]. intros. lia.
    - intros r l Hr P1.
      destruct (for_inv (fun i l => st (d * q * (i + nf * r))%nat l) nf (fun i U => for_ q (fun n U => for_ d (fun k U =>
    do v <- rd U (a + 3 * k + n * (3 * d) + 3 * d * q * (i + nf * r)); wr U (k + n * d + q * d * (i + nf * r)) v) U) U) l) as (l1 & E1 & P2).
      + replace (d * q * (0 + nf * r))%nat with (d * q * nf * r)%nat by lia. exact P1.
      + intros i l1 Hi P2.
        destruct (for_inv (fun n l => st (d * (n + q * (i + nf * r)))%nat l) q (fun n U => for_ d (fun k U =>
    do v <- rd U (a + 3 * k + n * (3 * d) + 3 * d * q * (i + nf * r)); wr U (k + n * d + q * d * (i + nf * r)) v) U) l1) as (l2 & E2 & P3).
        * replace (d * (0 + q * (i + nf * r)))%nat with (d * q * (i + nf * r))%nat by lia. exact P2.
        * intros n l2 Hn P3.
          destruct (for_inv (fun k l => st (k + d * (n + q * (i + nf * r)))%nat l) d (fun k U => 
    do v <- rd U (a + 3 * k + n * (3 * d) + 3 * d * q * (i + nf * r)); wr U (k + n * d + q * d * (i + nf * r)) v) l2) as (l3 & E3 & P4).
          { exact P3. }
          { intros k l3 Hk (L3 & Q3 & T3).
            replace (a + 3 * k + n * (3 * d) + 3 * d * q * (i + nf * r))%nat with (cell (3 * d) q nf r n (a + 3 * k) i) by (unfold cell; nia).
            replace (k + n * d + q * d * (i + nf * r))%nat with (cell d q nf r n k i) by (unfold cell; nia).
            rewrite Q3 by (unfold cell; nia). rewrite HT by (assumption || nia). cbn [obind].
            assert (Hc := cell_lt d q nf f r n k i Hr Hi Hn Hk).
            destruct (wr_some l3 (cell d q nf r n k i) (v r n (a + 3 * k)%nat i)) as (l4 & E4 & L4 & R4); [nia|].
            exists l4. split; [exact E4|]. split; [congruence|]. split.
            - intros c Hc'. rewrite R4. destruct (Nat.eqb_spec c (cell d q nf r n k i)); [unfold cell in *; lia|]. apply Q3. lia.
            - intros r' i' n' k' Hr' Hi' Hn' Hk' Hlt. rewrite R4. destruct (Nat.eqb_spec (cell d q nf r' n' k' i') (cell d q nf r n k i)) as [Ec|Ec].
              + apply cell_inj in Ec as (-> & -> & -> & ->); auto.
              + apply T3; auto. unfold cell in *. lia. }
          exists l3. split; [exact E3|]. replace (d * (S n + q * (i + nf * r)))%nat with (d + d * (n + q * (i + nf * r)))%nat by nia. exact P4.
        * exists l2. split; [exact E2|]. replace (d * q * (S i + nf * r))%nat with (d * (q + q * (i + nf * r)))%nat by nia. exact P3.
      + exists l1. split; [exact E1|]. replace (d * q * nf * S r)%nat with (d * q * (nf + nf * r))%nat by nia. exact P2.
    - exists U'. split; [exact E|exact P]. }
  destruct H as (U' & E & L' & Q' & T'). exists U'. split; [exact E|]. split.
  - intros r i n k Hr Hi Hn Hk. apply T'; auto. pose proof (cell_lt d q nf f r n k i Hr Hi Hn Hk). nia.
  - split; [exact L'|]. intros c Hc. apply Q'. nia.
Qed.
End Ref.
