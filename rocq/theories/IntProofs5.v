(** The weights of a union make its basis dual to its dofs; the solver of region interpolation. *)
From Verif Require Import Prelude RSum GeoModel GeoSpec DenseModel DenseSpec DenseProps BasModel BasSpec BasProofs2 BasProofs7 BasProofs8 BasProofs9 IntModel IntSpec IntProofs IntProofs2 IntProofs3 IntProofs4.
Local Open Scope R_scope.

Lemma Rsum_abs : forall n f, Rabs (Rsum n f) <= Rsum n (fun i => Rabs (f i)).
Proof. induction n as [|n IH]; intros f; cbn [Rsum]; [rewrite Rabs_R0; lra|]. eapply Rle_trans; [apply Rabs_triang|]. specialize (IH f). lra. Qed.
Lemma Rsum_bound : forall n f c, (forall i, (i < n)%nat -> f i <= c) -> Rsum n f <= INR n * c.
Proof.
  induction n as [|n IH]; intros f c H; [cbn; lra|]. rewrite S_INR. cbn [Rsum]. assert (f n <= c) by (apply H; lia). assert (Rsum n f <= INR n * c) by (apply IH; intros; apply H; lia). lra.
Qed.
Lemma tgt_near : forall e Q l j k, quads_ok e Q -> (forall s, In s l -> flat s) -> (j < list_sum (map infa l))%nat -> (k < list_sum (map infa l))%nat -> near (4 * e) (tgt Q l j k) (gram l Q ref_x j k).
Proof.
  intros e Q l j k HQ Hf Hj Hk. assert (He := e_pos e Q HQ).
  destruct (part_ex l j Hj) as (v & q & s & _ & Es & Hq & ->). destruct (part_ex l k Hk) as (v' & q' & s' & _ & Es' & Hq' & ->).
  rewrite (tgt_at Q l v s q v' s' q'), (gram_at l Q ref_x v s q v' s' q') by assumption. destruct (Nat.eqb_spec v v') as [->|]; [|apply near_refl; lra]. assert (s' = s) by congruence. subst s'.
  unfold near. rewrite Rabs_minus_sym. apply (dual_flat e Q ref_x HQ ref_x_nondegenerate); trivial. apply Hf. exact (nth_error_In' _ _ _ Es).
Qed.
(** the check compares A B with the identity *)
Lemma setup_check_ok : forall nf A b, length A = (nf * nf)%nat -> exists E G, setup_check nf A (store nf nf b) = Some (E, G) /\
  (forall i k, (i < nf)%nat -> (k < nf)%nat -> near E (Rsum nf (fun j => nth (i + nf * j) A 0 * b j k)) (delta i k) /\ Rabs (b i k) <= G) /\
  (forall M, 0 <= M -> (forall i k, (i < nf)%nat -> (k < nf)%nat -> Rabs (b i k) <= M) -> G <= M).
Proof.
  intros nf A b LA. unfold setup_check.
  assert (K : forall i k, (i < nf)%nat -> (k < nf)%nat -> forall st, (do s <- for_ nf (fun j s => do a <- rd A (i + nf * j); do b <- rd (store nf nf b) (j + nf * k); Some (s + a * b)) 0; do b <- rd (store nf nf b) (i + nf * k);
    Some (Rmax (fst st) (Rabs (s - (if (i =? k)%nat then 1 else 0))), Rmax (snd st) (Rabs b)))
    = Some (Rmax (fst st) (Rabs (Rsum nf (fun j => nth (i + nf * j) A 0 * b j k) - delta i k)), Rmax (snd st) (Rabs (b i k)))).
  { intros i k Hi Hk st. rewrite (for_sum nf (fun j => nth (i + nf * j) A 0 * b j k)).
    - cbn [obind]. change (rd (store nf nf b) (i + nf * k)) with (mrd (store nf nf b) nf i k). rewrite mrd_store by assumption. cbn [obind]. rewrite Rplus_0_l. reflexivity.
    - intros j s Hj. unfold rd at 1. rewrite (nth_error_nth' A 0) by (rewrite LA; now apply RSum.cell_lt). cbn [obind]. change (rd (store nf nf b) (j + nf * k)) with (mrd (store nf nf b) nf j k). now rewrite mrd_store by assumption. }
  destruct (for_inv (fun n st => 0 <= snd st /\ (forall i k, (i < n)%nat -> (k < nf)%nat -> near (fst st) (Rsum nf (fun j => nth (i + nf * j) A 0 * b j k)) (delta i k) /\ Rabs (b i k) <= snd st) /\
    (forall M, 0 <= M -> (forall i k, (i < nf)%nat -> (k < nf)%nat -> Rabs (b i k) <= M) -> snd st <= M)) nf
    (fun i st => for_ nf (fun k st => do s <- for_ nf (fun j s => do a <- rd A (i + nf * j); do b <- rd (store nf nf b) (j + nf * k); Some (s + a * b)) 0; do b <- rd (store nf nf b) (i + nf * k);
    Some (Rmax (fst st) (Rabs (s - (if (i =? k)%nat then 1 else 0))), Rmax (snd st) (Rabs b))) st) (0, 0)) as ([E G] & Es & _ & H & HG).
  - cbn. split; [lra|]. split; [intros; lia|]. intros; assumption.
  - intros i st Hi (P0 & H & HG).
    destruct (for_inv (fun n st' => (fst st <= fst st' /\ snd st <= snd st') /\ (forall k, (k < n)%nat -> near (fst st') (Rsum nf (fun j => nth (i + nf * j) A 0 * b j k)) (delta i k) /\ Rabs (b i k) <= snd st') /\
      (forall M, 0 <= M -> (forall i k, (i < nf)%nat -> (k < nf)%nat -> Rabs (b i k) <= M) -> snd st' <= M)) nf
      (fun k st => do s <- for_ nf (fun j s => do a <- rd A (i + nf * j); do b <- rd (store nf nf b) (j + nf * k); Some (s + a * b)) 0; do b <- rd (store nf nf b) (i + nf * k);
    Some (Rmax (fst st) (Rabs (s - (if (i =? k)%nat then 1 else 0))), Rmax (snd st) (Rabs b))) st) as (st' & Es & (L1 & L2) & H' & HG').
    + split; [lra|]. split; [intros; lia|exact HG].
    + intros k st1 Hk ((L1 & L2) & H1 & HG1). eexists. split; [apply K; assumption|]. cbn [fst snd].
      assert (M1 := Rmax_l (fst st1) (Rabs (Rsum nf (fun j => nth (i + nf * j) A 0 * b j k) - delta i k))). assert (M2 := Rmax_r (fst st1) (Rabs (Rsum nf (fun j => nth (i + nf * j) A 0 * b j k) - delta i k))).
      assert (M3 := Rmax_l (snd st1) (Rabs (b i k))). assert (M4 := Rmax_r (snd st1) (Rabs (b i k))). split; [lra|]. split.
      * intros k' Hk'. destruct (Nat.eq_dec k' k) as [->|]; [split; [exact M2|exact M4]|]. destruct (H1 k') as (A1 & A2); [lia|]. split; [unfold near in *; lra|lra].
      * intros M HM HB. apply Rmax_lub; [apply HG1; assumption|]. now apply HB.
    + exists st'. split; [exact Es|]. split; [lra|]. split; [|exact HG']. intros i' k Hi' Hk. destruct (Nat.eq_dec i' i) as [->|]; [now apply H'|]. destruct (H i' k) as (A1 & A2); [lia|assumption|]. split; [unfold near in *; lra|lra].
  - exists E, G. split; [exact Es|]. split; [exact H|exact HG].
Qed.
(** dropping the small entries of a column *)
Lemma setup_clean_ok : forall nf A, length A = (nf * nf)%nat -> exists W, setup_clean nf A = Some W /\ length W = (nf * nf)%nat /\
  forall w, (forall p, (p < nf * nf)%nat -> Rabs (nth p W 0) <= w) -> forall p, (p < nf * nf)%nat -> Rabs (nth p W 0 - nth p A 0) <= 1 / 10 ^ 7 * w.
Proof.
  intros nf A LA. unfold setup_clean.
  destruct (for_inv (fun n W => length W = (nf * nf)%nat /\ (forall p, (n * nf <= p)%nat -> rd W p = rd A p) /\
     forall i, (i < n)%nat -> exists m, (forall j, (j < nf)%nat -> exists a b, rd A (i * nf + j) = Some a /\ rd W (i * nf + j) = Some b /\ Rabs (b - a) <= 1 / 10 ^ 7 * m /\ (b = a \/ b = 0)) /\ (m = 0 \/ exists j b, (j < nf)%nat /\ rd W (i * nf + j) = Some b /\ Rabs b = m)) nf
    (fun i A => do m <- for_ nf (fun j m => do a <- rd A (i * nf + j); Some (Rmax m (Rabs a))) 0;
      for_ nf (fun j A => do a <- rd A (i * nf + j); wr A (i * nf + j) (if Rlt_dec (m * (1 / 10 ^ 7)) (Rabs a) then a else 0)) A) A) as (W & EW & LW & _ & HW).
  - split; [exact LA|]. split; [trivial|intros; lia].
  - intros i W Hi (LW & Hr & Hd).
    assert (Bd : forall j, (j < nf)%nat -> (i * nf + j < nf * nf)%nat) by (intros; nia).
    destruct (for_inv (fun n m => 0 <= m /\ (forall j a, (j < n)%nat -> rd W (i * nf + j) = Some a -> Rabs a <= m) /\ (m = 0 \/ exists j a, (j < n)%nat /\ rd W (i * nf + j) = Some a /\ Rabs a = m)) nf (fun j m => do a <- rd W (i * nf + j); Some (Rmax m (Rabs a))) 0) as (m & Em & Pm & Hm & Hx).
    { split; [lra|]. split; [intros; lia|now left]. }
    { intros j m Hj (Pm & Hm & Hx). destruct (rd_some W (i * nf + j)) as (a & Ea); [rewrite LW; now apply Bd|]. rewrite Ea. cbn [obind]. eexists. split; [reflexivity|].
      assert (M1 := Rmax_l m (Rabs a)). assert (M2 := Rmax_r m (Rabs a)). split; [lra|]. split.
      - intros j' a' Hj' Ea'. destruct (Nat.eq_dec j' j) as [->|]; [assert (a' = a) by congruence; subst; exact M2|]. apply Rle_trans with m; [apply (Hm j'); [lia|exact Ea']|exact M1].
      - destruct (Rle_dec m (Rabs a)) as [C|C]; [rewrite Rmax_right by exact C; right; exists j, a; split; [lia|auto]|]. rewrite Rmax_left by lra. destruct Hx as [->|(j' & a' & Hj' & Ea' & Ev)]; [now left|]. right. exists j', a'. split; [lia|auto]. }
    rewrite Em. cbn [obind].
    destruct (for_inv (fun n V => length V = (nf * nf)%nat /\ (forall p, (p < i * nf \/ i * nf + n <= p)%nat -> rd V p = rd W p) /\ forall j, (j < n)%nat -> exists a, rd W (i * nf + j) = Some a /\ rd V (i * nf + j) = Some (if Rlt_dec (m * (1 / 10 ^ 7)) (Rabs a) then a else 0)) nf
      (fun j A => do a <- rd A (i * nf + j); wr A (i * nf + j) (if Rlt_dec (m * (1 / 10 ^ 7)) (Rabs a) then a else 0)) W) as (V & EV & LV & HV & HV').
    { split; [exact LW|]. split; [trivial|intros; lia]. }
    { intros j V Hj (LV & HV & HV'). destruct (rd_some W (i * nf + j)) as (a & Ea); [rewrite LW; now apply Bd|]. rewrite (HV (i * nf + j)%nat) by lia. rewrite Ea. cbn [obind].
      destruct (wr_some V (i * nf + j) (if Rlt_dec (m * (1 / 10 ^ 7)) (Rabs a) then a else 0)) as (V' & EV & LV' & Hq); [rewrite LV; now apply Bd|]. exists V'. split; [exact EV|]. split; [congruence|]. split.
      - intros p Hp. rewrite Hq. destruct (Nat.eqb_spec p (i * nf + j)); [lia|]. apply HV. lia.
      - intros j' Hj'. rewrite Hq. destruct (Nat.eqb_spec (i * nf + j') (i * nf + j)) as [Q|Q]; [assert (j' = j) by lia; subst; exists a; auto|]. apply HV'. lia. }
    exists V. split; [exact EV|]. split; [exact LV|]. split; [intros p Hp; rewrite HV by nia; apply Hr; nia|].
    intros i' Hi'. destruct (Nat.eq_dec i' i) as [->|Hne].
    + exists m. split.
      * intros j Hj. destruct (HV' j Hj) as (a & Ea & Ev). exists a. rewrite <- (Hr (i * nf + j)%nat) by lia. eexists. split; [exact Ea|]. split; [exact Ev|]. destruct (Rlt_dec (m * (1 / 10 ^ 7)) (Rabs a)) as [C|C]; (split; [|auto]).
        -- replace (a - a) with 0 by ring. rewrite Rabs_R0. apply Rmult_le_pos; [lra|exact Pm].
        -- rewrite Rminus_0_l, Rabs_Ropp. lra.
      * destruct Hx as [->|(j & a & Hj & Ea & Ev)]; [now left|]. destruct (Req_dec m 0) as [->|Z]; [now left|]. right. destruct (HV' j Hj) as (a' & Ea' & Ev'). assert (a' = a) by congruence. subst a'. exists j. eexists. split; [exact Hj|]. split; [exact Ev'|].
        destruct (Rlt_dec (m * (1 / 10 ^ 7)) (Rabs a)) as [C|C]; [exact Ev|]. elim C. rewrite Ev. nra.
    + destruct (Hd i') as (m' & K1 & K2); [lia|]. assert (Ko : forall j, (j < nf)%nat -> rd V (i' * nf + j) = rd W (i' * nf + j)) by (intros j Hj; apply HV; nia). exists m'. split.
      * intros j Hj. rewrite Ko by exact Hj. now apply K1.
      * destruct K2 as [->|(j & b & Hj & Eb & Ev)]; [now left|]. right. exists j, b. rewrite Ko by exact Hj. auto.
  - exists W. split; [exact EW|]. split; [exact LW|]. intros w Hw p Hp. assert (0 < nf)%nat by nia. assert (Ep : (p = p / nf * nf + p mod nf)%nat) by (rewrite (Nat.div_mod_eq p nf) at 1; lia). assert (Hm : (p mod nf < nf)%nat) by (apply Nat.mod_upper_bound; lia).
    destruct (HW (p / nf)%nat) as (m & K1 & K2); [apply Nat.div_lt_upper_bound; lia|]. destruct (K1 (p mod nf)%nat Hm) as (a & b & Ea & Eb & Hab & _). rewrite <- Ep in Ea, Eb. unfold rd in Ea, Eb. rewrite (nth_error_nth _ _ 0 Ea), (nth_error_nth _ _ 0 Eb).
    eapply Rle_trans; [exact Hab|]. apply Rmult_le_compat_l; [lra|]. assert (Hpos := Rabs_pos (nth p W 0)). assert (Hwp := Hw p Hp). destruct K2 as [->|(j & b' & Hj & Eb' & <-)]; [lra|]. unfold rd in Eb'.
    rewrite <- (nth_error_nth _ _ 0 Eb'). apply Hw. assert (p / nf < nf)%nat by (apply Nat.div_lt_upper_bound; lia). nia.
Qed.

(** *** Compaction in place *)
Lemma increasing_ge : forall ids k, increasing ids -> (k < length ids)%nat -> (k <= nth k ids 0)%nat.
Proof. intros ids k Hi. induction k as [|k IH]; intros Hk; [lia|]. assert (nth k ids 0 < nth (S k) ids 0)%nat by (apply Hi; lia). specialize (IH ltac:(lia)). lia. Qed.
Lemma increasing_length : forall ids nf, increasing ids -> (forall i, In i ids -> (i < nf)%nat) -> (length ids <= nf)%nat.
Proof.
  intros ids nf Hi Hb. destruct (length ids) as [|n] eqn:E; [lia|]. assert (H := increasing_ge ids n Hi ltac:(lia)). assert (In (nth n ids 0%nat) ids) by (apply nth_In; lia). specialize (Hb _ H0). lia.
Qed.
Lemma compact_ok : forall nf ids a f, increasing ids -> (forall i, In i ids -> (i < nf)%nat) ->
  exists A' F', compact nf ids (store nf nf a) (arr nf f) = Some (A', F') /\ length A' = (nf * nf)%nat /\ length F' = nf /\
    firstn (length ids * length ids) A' = store (length ids) (length ids) (fun i j => a (nth i ids 0%nat) (nth j ids 0%nat)) /\ firstn (length ids) F' = arr (length ids) (fun k => f (nth k ids 0%nat)).
Proof.
  intros nf ids a f Hinc Hb. assert (Hn := increasing_length ids nf Hinc Hb). set (n := length ids) in *.
  assert (Hid : forall k, (k < n)%nat -> rd ids k = Some (nth k ids 0%nat)) by (intros; now apply nth_error_nth'). assert (Hlt : forall k, (k < n)%nat -> (nth k ids 0 < nf)%nat) by (intros; apply Hb; now apply nth_In).
  unfold compact. fold n.
  destruct (for_inv (fun m F => length F = nf /\ (forall k, (k < m)%nat -> rd F k = Some (f (nth k ids 0%nat))) /\ forall k, (m <= k)%nat -> rd F k = rd (arr nf f) k) n (fun k F => do i <- rd ids k; do v <- rd F i; wr F k v) (arr nf f)) as (F' & EF & LF & HF & _).
  { split; [apply arr_length|]. split; [intros; lia|trivial]. }
  { intros k F Hk (LF & HF & Ho). rewrite Hid by exact Hk. cbn [obind]. assert (G := increasing_ge ids k Hinc Hk). rewrite Ho, rd_arr by auto. cbn [obind].
    destruct (wr_some F k (f (nth k ids 0%nat))) as (F' & EF & LF' & Hq); [lia|]. exists F'. split; [exact EF|]. split; [congruence|]. split; intros k' Hk'; rewrite Hq; destruct (Nat.eqb_spec k' k) as [->|]; trivial; try lia; [apply HF; lia|apply Ho; lia]. }
  rewrite EF. cbn [obind].
  set (t := fun q => a (nth (q mod n) ids 0%nat) (nth (q / n) ids 0%nat)).
  destruct (for_inv (fun m A => length A = (nf * nf)%nat /\ (forall q, (q < m * n)%nat -> rd A q = Some (t q)) /\ forall q, (m * n <= q)%nat -> rd A q = rd (store nf nf a) q) n
    (fun j A => for_ n (fun i A => do a <- rd ids i; do b <- rd ids j; do v <- rd A (a + nf * b); wr A (i + j * n) v) A) (store nf nf a)) as (A' & EA & LA & HA & _).
  { split; [apply store_length|]. split; [intros; lia|trivial]. }
  { intros j A Hj (LA & HA & Ho).
    destruct (for_inv (fun m A => length A = (nf * nf)%nat /\ (forall q, (q < j * n + m)%nat -> rd A q = Some (t q)) /\ forall q, (j * n + m <= q)%nat -> rd A q = rd (store nf nf a) q) n
      (fun i A => do a <- rd ids i; do b <- rd ids j; do v <- rd A (a + nf * b); wr A (i + j * n) v) A) as (A1 & E1 & L1 & K1 & K2).
    { split; [exact LA|]. split; intros q Hq; [apply HA|apply Ho]; lia. }
    { intros i B Hi (LB & HB & HoB). rewrite !Hid by assumption. cbn [obind]. assert (G1 := increasing_ge ids i Hinc Hi). assert (G2 := increasing_ge ids j Hinc Hj). assert (T1 := Hlt i Hi). assert (T2 := Hlt j Hj).
      rewrite HoB by nia. change (rd (store nf nf a) (nth i ids 0%nat + nf * nth j ids 0%nat)) with (mrd (store nf nf a) nf (nth i ids 0%nat) (nth j ids 0%nat)). rewrite mrd_store by assumption. cbn [obind].
      destruct (wr_some B (i + j * n) (a (nth i ids 0%nat) (nth j ids 0%nat))) as (B' & EB & LB' & Hq); [rewrite LB; nia|]. exists B'. split; [exact EB|]. split; [congruence|]. split; intros q Hq'; rewrite Hq; destruct (Nat.eqb_spec q (i + j * n)) as [->|]; trivial; try lia.
      - f_equal. unfold t. rewrite Nat.mod_add, Nat.div_add, Nat.mod_small, Nat.div_small by lia. reflexivity.
      - apply HB. lia.
      - apply HoB. lia. }
    exists A1. split; [exact E1|]. split; [exact L1|]. split; intros q Hq; [apply K1|apply K2]; lia. }
  rewrite EA. cbn [obind]. exists A', F'. split; [reflexivity|]. split; [exact LA|]. split; [exact LF|].
  assert (Ex : forall (l : list R) m (g : nat -> R), (m <= length l)%nat -> (forall q, (q < m)%nat -> rd l q = Some (g q)) -> firstn m l = arr m g).
  { intros l m g Hm Hg. rewrite (list_arr 0 (firstn m l)), firstn_length, Nat.min_l by exact Hm. apply arr_ext. intros q Hq. apply nth_error_nth. rewrite nth_error_firstn' by exact Hq. now apply Hg. }
  split; [apply (Ex A' (n * n)%nat t); [nia|exact HA]|apply Ex; [lia|exact HF]].
Qed.
Lemma region_solve_ok : forall nf ids a f mem u, increasing ids -> (forall i, In i ids -> (i < nf)%nat) -> (nf <= length u)%nat -> (nf * (nf + 1) / 2 <= length mem)%nat ->
  let n := length ids in let a' := (fun i j => a (nth i ids 0%nat) (nth j ids 0%nat)) in
  symmetric n a' -> positive_definite n a' ->
  exists u' v, region_solve nf ids (store nf nf a) (arr nf f) mem u = Some u' /\ set_at ids v u u' /\ forall i, In i ids -> Rsum n (fun m => a i (nth m ids 0%nat) * v (nth m ids 0%nat)) = f i.
Proof.
  intros nf ids a f mem u Hinc Hb Hu Hm n a' Hsym Hpd. unfold region_solve. destruct (is_nil ids) eqn:Eids. { destruct ids; [|discriminate Eids]. exists u, (fun _ => 0). split; [reflexivity|]. split; [split; [reflexivity|]; intros j; split; [intros []|trivial]|intros i []]. }
  clear Eids.
  destruct (compact_ok nf ids a f Hinc Hb) as (A' & F' & E & LA & LF & HA & HF). rewrite E. cbn [obind]. fold n in HA, HF |- *. rewrite (proj2 (Nat.leb_le _ _) Hm). cbn [guard obind].
  assert (Hn := increasing_length ids nf Hinc Hb). fold n in Hn.
  assert (E1 : arr n (fun k => f (nth k ids 0%nat)) = store n 1 (fun i _ => f (nth i ids 0%nat))). { unfold store. rewrite Nat.mul_1_r. apply arr_ext. intros i Hi. now rewrite Nat.mod_small. }
  rewrite HA, HF, E1.
  assert (Hmem : (n * (n + 1) / 2 <= length mem)%nat). { eapply Nat.le_trans; [|exact Hm]. apply Nat.div_le_mono; [lia|]. nia. }
  destruct (C29_solve n 1 false true a' (fun i _ => f (nth i ids 0%nat)) (store n 1 (fun i _ => f (nth i ids 0%nat))) mem Hsym eq_refl Hmem) as [K _]. destruct (K Hpd) as (x & mem' & Es & Hx & _). fold a'. rewrite Es. cbn [obind].
  assert (Hid : forall k, (k < n)%nat -> rd ids k = Some (nth k ids 0%nat)) by (intros; now apply nth_error_nth').
  assert (Hinj : forall k k', (k < n)%nat -> (k' < n)%nat -> nth k ids 0%nat = nth k' ids 0%nat -> k = k'). { intros k k' Hk Hk' He. destruct (Nat.lt_total k k') as [C|[C|C]]; trivial; [assert (G := Hinc k k')|assert (G := Hinc k' k)]; fold n in G; lia. }
  destruct (for_inv (fun m w => length w = length u /\ (forall k, (k < m)%nat -> rd w (nth k ids 0%nat) = Some (x k 0%nat)) /\ forall p, (forall k, (k < m)%nat -> nth k ids 0%nat <> p) -> rd w p = rd u p) n
    (fun k u => do i <- rd ids k; do v <- rd (store n 1 x) k; wr u i v) u) as (u' & Eu & Lu & Hu1 & Hu2).
  { split; [reflexivity|]. split; [intros; lia|trivial]. }
  { intros k w Hk (Lw & W1 & W2). rewrite Hid by exact Hk. cbn [obind]. assert (Ev : rd (store n 1 x) k = Some (x k 0%nat)). { replace k with (k + n * 0)%nat at 1 by lia. apply (mrd_store n 1); lia. } rewrite Ev. cbn [obind].
    destruct (wr_some w (nth k ids 0%nat) (x k 0%nat)) as (w' & Ew & Lw' & Hq). { assert (nth k ids 0 < nf)%nat by (apply Hb; apply nth_In; exact Hk). lia. }
    exists w'. split; [exact Ew|]. split; [congruence|]. split.
    - intros k' Hk'. rewrite Hq. destruct (Nat.eqb_spec (nth k' ids 0%nat) (nth k ids 0%nat)) as [C|C]; [apply Hinj in C; [now subst|lia|exact Hk]|]. apply W1. destruct (Nat.eq_dec k' k) as [->|]; [congruence|lia].
    - intros p Hp. rewrite Hq. destruct (Nat.eqb_spec p (nth k ids 0%nat)) as [->|]; [elim (Hp k); [lia|reflexivity]|]. apply W2. intros k' Hk'. apply Hp. lia. }
  exists u', (fun i => nth i u' 0). split; [exact Eu|].
  assert (Hv : forall k, (k < n)%nat -> nth (nth k ids 0%nat) u' 0 = x k 0%nat). { intros k Hk. apply nth_error_nth. now apply Hu1. }
  split.
  - split; [exact Lu|]. intros j. split.
    + intros Hj. destruct (In_nth ids j 0%nat Hj) as (k & Hk & <-). rewrite Hv by exact Hk. now apply Hu1.
    + intros Hj. apply Hu2. intros k Hk He. apply Hj. rewrite <- He. now apply nth_In.
  - intros i Hi. destruct (In_nth ids i 0%nat Hi) as (k & Hk & <-). specialize (Hx k 0%nat Hk ltac:(lia)). rewrite <- Hx. apply Rsum_ext. intros m Hm'. now rewrite Hv.
Qed.
