(** Lemmas for C12, C15 and C16. *)
From Coq Require Import Permutation.
From Verif Require Import Prelude MemModel MemSpec.

Lemma pad_spec : forall a p, 0 < a -> (p + pad a p) mod a = 0 /\ pad a p < a.
Proof.
  intros a p Ha. unfold pad. split; [|apply Nat.mod_upper_bound; lia].
  destruct (Nat.eq_dec (p mod a) 0) as [E|E].
  - rewrite E, Nat.sub_0_r, Nat.mod_same, Nat.add_0_r by lia. exact E.
  - pose proof (Nat.mod_upper_bound p a ltac:(lia)) as Hr.
    rewrite (Nat.mod_small (a - p mod a)) by lia.
    rewrite (Nat.div_mod p a) at 1 by lia.
    replace (a * (p / a) + p mod a + (a - p mod a)) with ((p / a + 1) * a) by nia.
    apply Nat.mod_mul. lia.
Qed.

Lemma std_align_some : forall a sz p r x, 0 < a -> std_align a sz p r = Some x ->
  aligned a x /\ p <= x /\ x + sz <= p + r.
Proof.
  intros a sz p r x Ha E. unfold std_align in E. destruct (Nat.leb_spec (pad a p + sz) r); [|discriminate].
  injection E as <-. destruct (pad_spec a p Ha). unfold aligned. repeat split; [assumption|lia|lia].
Qed.
Lemma std_align_enough : forall a sz p r, 0 < a -> a - 1 + sz <= r ->
  exists x, std_align a sz p r = Some x /\ x <= p + (a - 1).
Proof.
  intros a sz p r Ha H. destruct (pad_spec a p Ha). unfold std_align.
  destruct (Nat.leb_spec (pad a p + sz) r); [|lia]. eexists; split; [reflexivity|lia].
Qed.
Lemma ok_type_align : forall t, ok_type t -> 0 < ct_align t.
Proof. intros t ((k & ->) & _). induction k; cbn; lia. Qed.

Lemma ltb_pos : forall n, (0 <? n) = true <-> 0 < n.
Proof. intros; apply Nat.ltb_lt. Qed.

(** PlainMemory: whenever allocateFromRaw returns a pointer the blocks are good. *)
Lemma pm_allocate_sound : forall S I m mem_in mem_sz dsize isize p m', 0 < ct_align S -> 0 < ct_align I ->
  pm_allocate S I m mem_in mem_sz dsize isize = (Some p, m') ->
  placed_block S (pm_d m') dsize mem_in mem_sz /\ placed_block I (pm_i m') isize mem_in mem_sz /\
  blocks_apart S I (pm_d m') (pm_i m') dsize isize /\
  mem_in <= p <= mem_in + mem_sz \/ (dsize = 0 /\ isize = 0 /\ p = mem_in).
Proof.
  intros S I m mem_in mem_sz dsize isize p m' HS HI E. unfold pm_allocate in E.
  destruct (Nat.ltb_spec 0 dsize) as [Hd|Hd].
  - destruct (std_align (ct_align S) _ _ _) as [a|] eqn:Ea; [|discriminate E].
    destruct (std_align_some _ _ _ _ _ HS Ea) as (A1 & A2 & A3).
    destruct (Nat.ltb_spec 0 isize) as [Hi|Hi].
    + destruct (std_align (ct_align I) _ _ _) as [b|] eqn:Eb; [|discriminate E].
      destruct (std_align_some _ _ _ _ _ HI Eb) as (B1 & B2 & B3). injection E as <- <-. cbn [pm_d pm_i].
      left. split; [|split; [|split]].
      * intros _. exists a. split; [reflexivity|]. split; [exact A1|]. split; cbn; lia.
      * intros _. exists b. split; [reflexivity|]. split; [exact B1|]. split; cbn; lia.
      * intros a' b' _ _ [= <-] [= <-] x [X1 X2]. cbn in X1, X2. lia.
      * lia.
    + injection E as <- <-. cbn [pm_d pm_i]. left. split; [|split; [|split]].
      * intros _. exists a. split; [reflexivity|]. split; [exact A1|]. split; cbn; lia.
      * intros H. lia.
      * intros a' b' _ H. lia.
      * lia.
  - destruct (Nat.ltb_spec 0 isize) as [Hi|Hi].
    + destruct (std_align (ct_align I) _ _ _) as [b|] eqn:Eb; [|discriminate E].
      destruct (std_align_some _ _ _ _ _ HI Eb) as (B1 & B2 & B3). injection E as <- <-. cbn [pm_d pm_i].
      left. split; [|split; [|split]].
      * intros H. lia.
      * intros _. exists b. split; [reflexivity|]. split; [exact B1|]. split; cbn; lia.
      * intros a' b' H. lia.
      * lia.
    + injection E as <- <-. right. repeat split; lia.
Qed.

Lemma pm_allocate_enough : forall S I m mem_in mem_sz, 0 < ct_align S -> 0 < ct_align I ->
  pm_enough S I m <= mem_sz -> exists p m', pm_allocate_own S I m mem_in mem_sz = (Some p, m') /\
    pm_dsize m' = pm_dsize m /\ pm_isize m' = pm_isize m /\ p <= mem_in + mem_sz.
Proof.
  intros S I m mem_in mem_sz HS HI Hn. unfold pm_enough in Hn. unfold pm_allocate_own, pm_allocate.
  destruct (Nat.ltb_spec 0 (pm_dsize m)) as [Hd|Hd].
  - destruct (Nat.eqb_spec (pm_dsize m) 0) as [|_]; [lia|]. rewrite Bool.andb_false_r in Hn.
    destruct (std_align_enough (ct_align S) (ct_size S * pm_dsize m) mem_in (mem_in + mem_sz - mem_in) HS) as (a & Ea & La); [lia|].
    rewrite Ea. destruct (std_align_some _ _ _ _ _ HS Ea) as (_ & A2 & A3).
    destruct (Nat.ltb_spec 0 (pm_isize m)) as [Hi|Hi].
    + destruct (std_align_enough (ct_align I) (ct_size I * pm_isize m) (a + ct_size S * pm_dsize m)
                  (mem_in + mem_sz - (a + ct_size S * pm_dsize m)) HI) as (b & Eb & Lb); [lia|].
      destruct (std_align_some _ _ _ _ _ HI Eb) as (_ & B2 & B3).
      rewrite Eb. eexists _, _. split; [reflexivity|]. cbn. repeat split; lia.
    + eexists _, _. split; [reflexivity|]. cbn. repeat split; lia.
  - destruct (Nat.ltb_spec 0 (pm_isize m)) as [Hi|Hi].
    + destruct (Nat.eqb_spec (pm_isize m) 0) as [|_]; [lia|]. cbn [andb] in Hn.
      destruct (std_align_enough (ct_align I) (ct_size I * pm_isize m) mem_in (mem_in + mem_sz - mem_in) HI) as (b & Eb & Lb); [lia|].
      destruct (std_align_some _ _ _ _ _ HI Eb) as (_ & B2 & B3).
      rewrite Eb. eexists _, _. split; [reflexivity|]. cbn. repeat split; lia.
    + eexists _, _. split; [reflexivity|]. cbn. repeat split; lia.
Qed.

(** PlainMemoryX.  Invariant of the carving loop: the blocks placed so far are
    good and end before the cursor. *)
Definition out_ok (types : list ctype) (sizes : list nat) (base len p : nat) (done : list nat) (out : list (option nat)) : Prop :=
  length out = length sizes /\ base <= p <= base + len /\
  (forall i, In i done -> forall t n, nth_error types i = Some t -> nth_error sizes i = Some n -> 0 < n ->
     exists a, nth_error out i = Some (Some a) /\ aligned (ct_align t) a /\ base <= a /\ a + ct_size t * n <= p) /\
  (forall i j, In i done -> In j done -> i <> j -> forall ti tj ni nj a b,
     nth_error types i = Some ti -> nth_error types j = Some tj -> nth_error sizes i = Some ni -> nth_error sizes j = Some nj ->
     0 < ni -> 0 < nj -> nth_error out i = Some (Some a) -> nth_error out j = Some (Some b) ->
     apart (a, ct_size ti * ni) (b, ct_size tj * nj)).

Lemma apart_sym : forall a b, apart a b -> apart b a.
Proof. intros a b H x [X Y]. now apply (H x). Qed.

Lemma px_carve_sound : forall types sizes base len i p out p' out' done,
  Forall (fun t => 0 < ct_align t) types -> length types = length sizes -> ~ In i done ->
  out_ok types sizes base len p done out ->
  px_carve types sizes base len i (p, out) = Some (p', out') ->
  out_ok types sizes base len p' (i :: done) out'.
Proof.
  intros types sizes base len i p out p' out' done HA Hl Hi (L & Hb & H1 & H2) E. unfold px_carve in E.
  destruct (rd sizes i) as [n|] eqn:En; [|discriminate E]. destruct (rd types i) as [t|] eqn:Et; [|discriminate E].
  cbn [obind] in E. unfold rd in En, Et.
  destruct (Nat.ltb_spec 0 n) as [Hn|Hn].
  - destruct (std_align (ct_align t) _ _ _) as [a|] eqn:Ea; [|discriminate E]. cbn [obind] in E.
    assert (Ht : 0 < ct_align t). { rewrite Forall_forall in HA. apply HA. eapply nth_error_In; eassumption. }
    destruct (std_align_some _ _ _ _ _ Ht Ea) as (A1 & A2 & A3).
    destruct (wr_some out i (Some a)) as (o' & Ew & Lw & Hw).
    { rewrite L. apply nth_error_Some. congruence. }
    rewrite Ew in E. cbn [obind] in E. injection E as <- <-. unfold rd in Hw.
    split; [lia|]. split; [lia|]. split.
    + intros j [<-|Hj] tj nj Etj Enj Hnj.
      * rewrite Hw, Nat.eqb_refl. exists a. rewrite Et in Etj. rewrite En in Enj. injection Etj as <-. injection Enj as <-.
        split; [reflexivity|]. split; [exact A1|]. lia.
      * rewrite Hw. destruct (Nat.eqb_spec j i); [subst; contradiction|].
        destruct (H1 j Hj tj nj Etj Enj Hnj) as (b & Eb & B1 & B2 & B3). exists b. repeat split; [assumption|assumption|lia|lia].
    + assert (Hnew : forall j tj nj b, In j done -> nth_error types j = Some tj -> nth_error sizes j = Some nj -> 0 < nj ->
                 nth_error o' j = Some (Some b) -> apart (a, ct_size t * n) (b, ct_size tj * nj)).
      { intros j tj nj b Hj Etj Enj Hnj Eb x [X Y]. rewrite Hw in Eb. destruct (Nat.eqb_spec j i); [subst; contradiction|].
        destruct (H1 j Hj tj nj Etj Enj Hnj) as (b' & Eb' & B1 & B2 & B3). assert (b' = b) by congruence. subst. cbn in X, Y. lia. }
      intros j k [<-|Hj] [<-|Hk] Hjk tj tk nj nk x y Etj Etk Enj Enk Hnj Hnk Ex Ey.
      * lia.
      * assert (tj = t) by congruence. assert (nj = n) by congruence. subst tj nj.
        rewrite Hw, Nat.eqb_refl in Ex. injection Ex as <-. eapply Hnew; eassumption.
      * assert (tk = t) by congruence. assert (nk = n) by congruence. subst tk nk.
        rewrite Hw, Nat.eqb_refl in Ey. injection Ey as <-. apply apart_sym. eapply Hnew; eassumption.
      * rewrite Hw in Ex, Ey. destruct (Nat.eqb_spec j i); [subst; contradiction|]. destruct (Nat.eqb_spec k i); [subst; contradiction|].
        exact (H2 j k Hj Hk Hjk tj tk nj nk x y Etj Etk Enj Enk Hnj Hnk Ex Ey).
  - injection E as <- <-. split; [exact L|]. split; [exact Hb|]. split.
    + intros j [<-|Hj] tj nj Etj Enj Hnj; [assert (nj = n) by congruence; lia|]. now apply (H1 j Hj tj nj).
    + intros j k [<-|Hj] [<-|Hk] Hjk tj tk nj nk x y Etj Etk Enj Enk Hnj Hnk Ex Ey;
        [lia|assert (nj = n) by congruence; lia|assert (nk = n) by congruence; lia|].
      exact (H2 j k Hj Hk Hjk tj tk nj nk x y Etj Etk Enj Enk Hnj Hnk Ex Ey).
Qed.

Lemma px_carve_all_sound : forall types sizes base len order done p out p' out',
  Forall (fun t => 0 < ct_align t) types -> length types = length sizes -> NoDup order -> (forall i, In i order -> ~ In i done) ->
  out_ok types sizes base len p done out ->
  px_carve_all types sizes base len order (p, out) = Some (p', out') ->
  out_ok types sizes base len p' (rev order ++ done) out'.
Proof.
  intros types sizes base len order. induction order as [|i r IH]; intros done p out p' out' HA Hl Hn Hd H E.
  - injection E as <- <-. exact H.
  - cbn [px_carve_all] in E. destruct (px_carve types sizes base len i (p, out)) as [[p1 o1]|] eqn:E1; [|discriminate E].
    cbn [obind] in E. inversion Hn as [|? ? Hi Hr]; subst.
    assert (Hnew : forall j, In j r -> ~ In j (i :: done)).
    { intros j Hj [->|Hd']; [contradiction|]. exact (Hd j (or_intror Hj) Hd'). }
    pose proof (px_carve_sound _ _ _ _ _ _ _ _ _ _ HA Hl (Hd i (or_introl eq_refl)) H E1) as H1.
    pose proof (IH (i :: done) p1 o1 p' out' HA Hl Hr Hnew H1 E) as H2.
    cbn [rev]. rewrite <- app_assoc. exact H2.
Qed.

Definition need (t : ctype) (n : nat) : nat := if 0 <? n then (ct_align t - 1) + n * ct_size t else 0.
Definition need_at (types : list ctype) (sizes : list nat) (i : nat) : nat :=
  match nth_error types i, nth_error sizes i with Some t, Some n => need t n | _, _ => 0 end.

Lemma px_carve_all_enough : forall types sizes base len order p out,
  Forall (fun t => 0 < ct_align t) types -> length types = length sizes -> length out = length sizes ->
  Forall (fun i => i < length sizes) order -> base <= p ->
  p + list_sum (map (need_at types sizes) order) <= base + len ->
  exists p' out', px_carve_all types sizes base len order (p, out) = Some (p', out') /\ p' <= base + len /\ length out' = length sizes.
Proof.
  intros types sizes base len order. induction order as [|i r IH]; intros p out HA Hl Lo Hf Hb H.
  - exists p, out. split; [reflexivity|]. cbn in H. rewrite list_sum_nil in H. lia.
  - inversion Hf as [|? ? Hi Hr]; subst. cbn [map] in H. rewrite list_sum_cons in H. cbn [px_carve_all].
    destruct (nth_error sizes i) as [n|] eqn:En; [|apply nth_error_None in En; lia].
    destruct (nth_error types i) as [t|] eqn:Et; [|apply nth_error_None in Et; lia].
    unfold need_at in H at 1. rewrite En, Et in H. unfold need in H.
    unfold px_carve, rd. rewrite En, Et. cbn [obind].
    destruct (Nat.ltb_spec 0 n) as [Hn|Hn].
    + assert (Ht : 0 < ct_align t). { rewrite Forall_forall in HA. apply HA. eapply nth_error_In; eassumption. }
      destruct (std_align_enough (ct_align t) (ct_size t * n) p (base + len - p) Ht) as (a & Ea & La); [lia|].
      destruct (std_align_some _ _ _ _ _ Ht Ea) as (A1 & A2 & A3).
      rewrite Ea. cbn [obind]. destruct (wr_some out i (Some a)) as (o' & Ew & Lw & Hw); [lia|].
      rewrite Ew. cbn [obind]. apply IH; try assumption; lia.
    + cbn [obind]. apply IH; try assumption; lia.
Qed.

Lemma perm3 : forall order, Permutation [0; 1; 2] order ->
  NoDup order /\ Forall (fun i => i < 3) order /\ In 0 order /\ In 1 order /\ In 2 order.
Proof.
  intros order H. split.
  - eapply Permutation_NoDup; [exact H|]. repeat constructor; cbn; intuition lia.
  - split; [|repeat split; eapply Permutation_in; try exact H; cbn; tauto].
    apply Forall_forall. intros x Hx. apply Permutation_sym in H.
    eapply Permutation_in in Hx; [|exact H]. cbn in Hx. lia.
Qed.

Lemma px_allocate_sound : forall S I M order m base len dsize isize msize p m',
  0 < ct_align S -> 0 < ct_align I -> 0 < ct_align M -> Permutation [0; 1; 2] order ->
  px_allocate S I M order m base len dsize isize msize = (Some p, m') ->
  placed_block S (px_d m') dsize base len /\ placed_block I (px_i m') isize base len /\ placed_block M (px_m m') msize base len /\
  blocks_apart S I (px_d m') (px_i m') dsize isize /\ blocks_apart S M (px_d m') (px_m m') dsize msize /\
  blocks_apart I M (px_i m') (px_m m') isize msize /\ base <= p <= base + len.
Proof.
  intros S I M order m base len dsize isize msize p m' HS HI HM Hp E. unfold px_allocate in E.
  destruct (px_carve_all _ _ _ _ _ _) as [[p' out]|] eqn:Ec; [|discriminate E]. injection E as -> <-.
  destruct (perm3 _ Hp) as (Hn & Hf & I0 & I1 & I2).
  assert (HA : Forall (fun t => 0 < ct_align t) [M; S; I]) by (repeat constructor; assumption).
  destruct (Nat.le_gt_cases base (base + len)) as [Hbl|]; [|lia].
  assert (Hout : out_ok [M; S; I] [msize; dsize; isize] base len p (rev order ++ []) out).
  { eapply px_carve_all_sound; [exact HA|reflexivity|exact Hn| | |exact Ec].
    - intros i _ [].
    - split; [reflexivity|]. split; [lia|]. split; [intros i []|intros i j []]. }
  rewrite app_nil_r in Hout. destruct Hout as (L & Hb & H1 & H2).
  cbn [length] in L. destruct out as [|o0 [|o1 [|o2 [|]]]]; try discriminate L. cbn [nth px_d px_i px_m].
  assert (J : forall i, In i order -> In i (rev order)) by (intros i Hi; now apply -> in_rev).
  repeat split; try lia.
  - intros Hd. destruct (H1 1 (J 1 I1) S dsize eq_refl eq_refl Hd) as (a & Ea & A1 & A2 & A3). cbn in Ea. injection Ea as ->.
    exists a. split; [reflexivity|]. split; [exact A1|]. split; cbn; lia.
  - intros Hd. destruct (H1 2 (J 2 I2) I isize eq_refl eq_refl Hd) as (a & Ea & A1 & A2 & A3). cbn in Ea. injection Ea as ->.
    exists a. split; [reflexivity|]. split; [exact A1|]. split; cbn; lia.
  - intros Hd. destruct (H1 0 (J 0 I0) M msize eq_refl eq_refl Hd) as (a & Ea & A1 & A2 & A3). cbn in Ea. injection Ea as ->.
    exists a. split; [reflexivity|]. split; [exact A1|]. split; cbn; lia.
  - intros a b Ha Hb' -> ->. exact (H2 1 2 (J 1 I1) (J 2 I2) ltac:(lia) S I dsize isize a b eq_refl eq_refl eq_refl eq_refl Ha Hb' eq_refl eq_refl).
  - intros a b Ha Hb' -> ->. exact (H2 1 0 (J 1 I1) (J 0 I0) ltac:(lia) S M dsize msize a b eq_refl eq_refl eq_refl eq_refl Ha Hb' eq_refl eq_refl).
  - intros a b Ha Hb' -> ->. exact (H2 2 0 (J 2 I2) (J 0 I0) ltac:(lia) I M isize msize a b eq_refl eq_refl eq_refl eq_refl Ha Hb' eq_refl eq_refl).
Qed.

Lemma list_sum_perm : forall l l', Permutation l l' -> list_sum l = list_sum l'.
Proof. intros l l' H. induction H; autorewrite with lsum; lia. Qed.

Lemma px_allocate_enough : forall S I M order m base len,
  0 < ct_align S -> 0 < ct_align I -> 0 < ct_align M -> Permutation [0; 1; 2] order ->
  px_enough_raw S I M m <= len ->
  exists p m', px_allocate S I M order m base len (px_dsize m) (px_isize m) (px_msize m) = (Some p, m') /\
    px_dsize m' = px_dsize m /\ px_isize m' = px_isize m /\ px_msize m' = px_msize m.
Proof.
  intros S I M order m base len HS HI HM Hp Hlen. unfold px_allocate.
  destruct (perm3 _ Hp) as (Hn & Hf & _).
  destruct (px_carve_all_enough [M; S; I] [px_msize m; px_dsize m; px_isize m] base len order base [None; None; None])
    as (p & out & E & Hp1 & Hp2).
  - repeat constructor; assumption.
  - reflexivity.
  - reflexivity.
  - exact Hf.
  - lia.
  - rewrite <- (list_sum_perm _ _ (Permutation_map _ Hp)). cbn [map]. unfold need_at. cbn [nth_error].
    autorewrite with lsum. unfold px_enough_raw in Hlen.
    destruct (px_isize m =? 0) eqn:Ei, (px_dsize m =? 0) eqn:Ed, (px_msize m =? 0) eqn:Em; cbn [andb] in Hlen; unfold need; try lia.
    apply Nat.eqb_eq in Ei, Ed, Em. rewrite Ei, Ed, Em. cbn. lia.
  - rewrite E. eexists _, _. split; [reflexivity|]. cbn [px_dsize px_isize px_msize].
    destruct (Nat.ltb_spec 0 (px_dsize m)), (Nat.ltb_spec 0 (px_isize m)), (Nat.ltb_spec 0 (px_msize m)); repeat split; lia.
Qed.

(** Matrices carved from the tail of one of two arrays. *)
Lemma px_from_plain_sound : forall S I M m d_in d_sz i_in i_sz dsize isize msize fs m',
  0 < ct_align M ->
  px_from_plain S I M m d_in d_sz i_in i_sz dsize isize msize fs = (true, m') ->
  (0 < dsize -> px_d m' = Some d_in /\ dsize <= d_sz) /\ (0 < isize -> px_i m' = Some i_in /\ isize <= i_sz) /\
  (0 < msize -> exists a, px_m m' = Some a /\ aligned (ct_align M) a /\
     (if fs then d_in + ct_size S * dsize <= a /\ a + msize * ct_size M <= d_in + ct_size S * d_sz
      else i_in + ct_size I * isize <= a /\ a + msize * ct_size M <= i_in + ct_size I * i_sz)).
Proof.
  intros S I M m d_in d_sz i_in i_sz dsize isize msize fs m' HM E. unfold px_from_plain in E.
  destruct (Nat.ltb_spec i_sz isize) as [|Hi]; [discriminate E|]. destruct (Nat.ltb_spec d_sz dsize) as [|Hd]; [discriminate E|].
  cbn [orb] in E.
  destruct (Nat.ltb_spec 0 msize) as [Hm|Hm].
  - destruct (std_align _ _ _ _) as [a|] eqn:Ea; [|discriminate E].
    destruct (std_align_some _ _ _ _ _ HM Ea) as (A1 & A2 & A3). injection E as <-. cbn [px_d px_i px_m].
    split; [|split].
    + intros H. apply ltb_pos in H. rewrite H. auto.
    + intros H. apply ltb_pos in H. rewrite H. auto.
    + intros _. exists a. split; [reflexivity|]. split; [exact A1|]. destruct fs; nia.
  - injection E as <-. cbn [px_d px_i px_m]. split; [|split].
    + intros H. apply ltb_pos in H. rewrite H. auto.
    + intros H. apply ltb_pos in H. rewrite H. auto.
    + intros H. lia.
Qed.

Lemma pow2_div : forall a b, pow2 a -> pow2 b -> a <= b -> exists c, b = c * a /\ 0 < c.
Proof.
  intros a b (j & ->) (k & ->) H. assert (j <= k).
  { destruct (Nat.le_gt_cases j k) as [|Hlt]; [assumption|]. exfalso.
    pose proof (Nat.pow_lt_mono_r 2 k j ltac:(lia) Hlt). lia. }
  exists (2 ^ (k - j)). rewrite <- Nat.pow_add_r. split; [f_equal; lia|].
  pose proof (Nat.pow_nonzero 2 (k - j)). lia.
Qed.

(* padding of an address aligned for the donor type *)
Lemma pad_bound : forall a b x, pow2 a -> pow2 b -> x mod b = 0 -> pad a x + b <= Nat.max a b.
Proof.
  intros a b x Ha Hb Hx.
  assert (0 < a /\ 0 < b) as [Pa Pb].
  { destruct Ha as (j & ->), Hb as (k & ->). pose proof (Nat.pow_nonzero 2 j). pose proof (Nat.pow_nonzero 2 k). lia. }
  destruct (Nat.le_gt_cases a b) as [Hle|Hgt].
  - destruct (pow2_div a b Ha Hb Hle) as (c & -> & Hc).
    assert (x mod a = 0).
    { apply Nat.mod_divides in Hx; [|lia]. destruct Hx as (d & ->). replace (c * a * d) with (c * d * a) by lia. apply Nat.mod_mul. lia. }
    unfold pad. rewrite H, Nat.sub_0_r, Nat.mod_same by lia. lia.
  - destruct (pow2_div b a Hb Ha ltac:(lia)) as (c & -> & Hc).
    destruct (pad_spec (c * b) x Pa) as [P1 P2].
    apply Nat.mod_divides in P1; [|lia]. destruct P1 as (d & P1).
    apply Nat.mod_divides in Hx; [|lia]. destruct Hx as (e & ->).
    assert (Hpad : pad (c * b) (b * e) = b * (c * d - e)) by nia.
    assert (c * d - e < c) by nia. nia.
Qed.

Lemma px_from_plain_enough : forall S I M m d_in d_sz i_in i_sz fs,
  ok_type S -> ok_type I -> ok_type M -> aligned (ct_align S) d_in -> aligned (ct_align I) i_in ->
  fst (px_enough_plain S I M m fs) <= d_sz -> snd (px_enough_plain S I M m fs) <= i_sz ->
  exists m', px_from_plain S I M m d_in d_sz i_in i_sz (px_dsize m) (px_isize m) (px_msize m) fs = (true, m') /\
    px_dsize m' = px_dsize m /\ px_isize m' = px_isize m /\ px_msize m' = px_msize m.
Proof.
  intros S I M m d_in d_sz i_in i_sz fs HS HI HM Ad Ai Hd Hi. unfold px_enough_plain in Hd, Hi. unfold px_from_plain.
  destruct (Nat.ltb_spec 0 (px_msize m)) as [Hm|Hm].
  - set (B := if fs then S else I).
    assert (HB : ok_type B) by (destruct fs; assumption).
    set (st := if fs then d_in + ct_size S * px_dsize m else i_in + ct_size I * px_isize m).
    assert (Hst : st mod ct_align B = 0).
    { pose proof (ok_type_align _ HB). destruct HB as (_ & HBm & _). apply Nat.mod_divides in HBm; [|lia]. destruct HBm as (c & Ec).
      unfold st, B, aligned in *. destruct fs; rewrite Ec.
      - rewrite Nat.add_mod, Ad by lia. replace (ct_align S * c * px_dsize m) with (c * px_dsize m * ct_align S) by lia.
        rewrite Nat.mod_mul by lia. cbn. now rewrite Nat.mod_0_l by lia.
      - rewrite Nat.add_mod, Ai by lia. replace (ct_align I * c * px_isize m) with (c * px_isize m * ct_align I) by lia.
        rewrite Nat.mod_mul by lia. cbn. now rewrite Nat.mod_0_l by lia. }
    set (al := if (if fs then ct_align S else ct_align I) <? ct_align M
               then ct_align M / (if fs then ct_align S else ct_align I) - 1 +
                    (if ct_align M mod (if fs then ct_align S else ct_align I) =? 0 then 0 else 1) else 0) in *.
    set (sd := px_msize m * ct_size M) in *.
    set (add := al + sd / (if fs then ct_size S else ct_size I) + (if sd mod (if fs then ct_size S else ct_size I) =? 0 then 0 else 1)) in *.
    assert (EA : (if fs then ct_align S else ct_align I) = ct_align B) by (unfold B; destruct fs; reflexivity).
    assert (ES : (if fs then ct_size S else ct_size I) = ct_size B) by (unfold B; destruct fs; reflexivity).
    assert (Hadd : pad (ct_align M) st + sd <= add * ct_size B).
    { unfold add. rewrite ES. clear Hd Hi.
      pose proof (ok_type_align _ HB) as Pb. pose proof (ok_type_align _ HM) as Pm.
      assert (Hsd : sd <= (sd / ct_size B + (if sd mod ct_size B =? 0 then 0 else 1)) * ct_size B).
      { destruct HB as (_ & _ & HBs). pose proof (Nat.div_mod sd (ct_size B) ltac:(lia)). pose proof (Nat.mod_upper_bound sd (ct_size B) ltac:(lia)).
        destruct (Nat.eqb_spec (sd mod ct_size B) 0); nia. }
      assert (Hal : pad (ct_align M) st <= al * ct_size B).
      { pose proof (pad_bound (ct_align M) (ct_align B) st (proj1 HM) (proj1 HB) Hst) as Hpb. unfold al. rewrite EA.
        destruct (Nat.ltb_spec (ct_align B) (ct_align M)) as [Hlt|Hge].
        - destruct (pow2_div _ _ (proj1 HB) (proj1 HM) ltac:(lia)) as (c & Ec & Hc).
          rewrite Ec, Nat.div_mul, Nat.mod_mul by lia. cbn [Nat.eqb]. destruct HB as (_ & HBm & HBs).
          apply Nat.mod_divides in HBm; [|lia]. destruct HBm as (e & Ee). rewrite Ec in Hpb. rewrite Nat.max_l in Hpb by nia. rewrite Ee. destruct e; [nia|]. nia.
        - lia. }
      nia. }
    assert (Hdd : px_dsize m <= d_sz /\ px_isize m <= i_sz) by (destruct fs; cbn [fst snd] in Hd, Hi; lia).
    destruct (Nat.ltb_spec i_sz (px_isize m)); [lia|]. destruct (Nat.ltb_spec d_sz (px_dsize m)); [lia|]. cbn [orb].
    unfold std_align. fold st. fold sd.
    assert (Hrem : pad (ct_align M) st + sd <= (if fs then (d_sz - px_dsize m) * ct_size S else (i_sz - px_isize m) * ct_size I)).
    { destruct fs; cbn [fst snd] in Hd, Hi; unfold B in Hadd; nia. }
    apply Nat.leb_le in Hrem. rewrite Hrem.
    eexists. split; [reflexivity|]. cbn [px_dsize px_isize px_msize]. destruct (Nat.ltb_spec 0 (px_dsize m)), (Nat.ltb_spec 0 (px_isize m)); repeat split; lia.
  - cbn [fst snd] in Hd, Hi. destruct (Nat.ltb_spec i_sz (px_isize m)); [lia|]. destruct (Nat.ltb_spec d_sz (px_dsize m)); [lia|]. cbn [orb].
    eexists. split; [reflexivity|]. cbn [px_dsize px_isize px_msize]. destruct (Nat.ltb_spec 0 (px_dsize m)), (Nat.ltb_spec 0 (px_isize m)); repeat split; lia.
Qed.
