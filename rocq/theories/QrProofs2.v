(** Householder QR: the factorisation loop and the accumulation of Q. *)
From Verif Require GeoProofs2.
From Verif Require Import Prelude RSum DenseModel DenseSpec DenseProofs DenseProofs2 DenseProofs3 QrModel QrSpec QrProofs.
Local Open Scope R_scope.

Lemma vfill : forall N k (g v : nat -> R) body, (forall i h, (S k <= i < N)%nat -> (forall i', (i <= i')%nat -> h i' = v i') -> body i (arr N h) = wr (arr N h) i (g i)) ->
  for_range (S k) (N - S k) body (arr N v) = Some (arr N (fun i => if (k <? i)%nat then g i else v i)).
Proof.
  intros N k g v body Hb.
  destruct (for_rep (arr N) (fun r h => forall i, h i = if ((k <? i) && (i <? r))%nat then g i else v i) (N - S k) (S k) body v) as (h & E & H).
  - intros i. beqs; reflexivity.
  - intros i h Hi Hh. rewrite Hb by (try lia; intros i' Hi'; rewrite Hh; beqs; reflexivity). rewrite wr_arr by lia. eexists. split; [reflexivity|]. intros i'. unfold upd. rewrite Hh. beqs; reflexivity.
  - rewrite E. apply f_equal, arr_ext. intros i Hi. rewrite H. beqs; reflexivity.
Qed.
Lemma wcol_fill : forall N M k (g : nat -> R) w body, (k < M)%nat -> (forall i h, (S k <= i < N)%nat -> body i (store N M h) = wr (store N M h) (i + k * N) (g i)) ->
  for_range (S k) (N - S k) body (store N M w) = Some (store N M (fun i j => if ((k <? i) && (j =? k))%nat then g i else w i j)).
Proof.
  intros N M k g w body Hk Hb.
  destruct (for_rep (store N M) (fun r h => forall i j, h i j = if ((k <? i) && (i <? r) && (j =? k))%nat then g i else w i j) (N - S k) (S k) body w) as (h & E & H).
  - intros i j. beqs; reflexivity.
  - intros i h Hi Hh. rewrite Hb by lia. rewrite (Nat.mul_comm k N), store_wr by lia. eexists. split; [reflexivity|]. intros i' j. unfold upd2. rewrite Hh. beqs; reflexivity.
  - rewrite E. apply f_equal, store_ext. intros i j Hi Hj. rewrite H. beqs; reflexivity.
Qed.
Lemma cols_reflect : forall N C k lo n t v x body, (k < N)%nat -> (lo + n <= C)%nat ->
  (forall j h, (lo <= j < lo + n)%nat -> body j (store N C h) = reflect_col N k j t (arr N v) (store N C h)) ->
  for_range lo n body (store N C x) = Some (store N C (fun i j => if ((lo <=? j) && (j <? lo + n))%nat then refl N t (vm k v) (fun i => x i j) i else x i j)).
Proof.
  intros N C k lo n t v x body Hk Hn Hb.
  destruct (for_rep (store N C) (fun r h => forall i j, h i j = if ((lo <=? j) && (j <? r))%nat then refl N t (vm k v) (fun i => x i j) i else x i j) n lo body x) as (h & E & H).
  - intros i j. beqs; reflexivity.
  - intros j h Hj Hh. rewrite Hb by lia. rewrite reflect_col_ok by lia. eexists. split; [reflexivity|]. intros i j'. cbn beta.
    destruct (Nat.eqb_spec j' j) as [->|].
    + destruct (Nat.leb_spec lo j); [|lia]. destruct (Nat.ltb_spec j (S j)); [|lia]. cbn [andb]. unfold refl, dotn.
      rewrite (Rsum_ext N (fun i0 => vm k v i0 * h i0 j) (fun i0 => vm k v i0 * x i0 j)) by (intros; rewrite Hh, Nat.ltb_irrefl, Bool.andb_false_r; reflexivity).
      rewrite Hh, Nat.ltb_irrefl, Bool.andb_false_r. reflexivity.
    + rewrite Hh. beqs; reflexivity.
  - rewrite E. apply f_equal, store_ext. intros i j Hi Hj. now rewrite H.
Qed.
Lemma qr_norm_ok : forall N M k w, (k < N)%nat -> (k < M)%nat -> qr_norm N k (store N M w) = Some (sqrt (dotn N (vm k (fun i => w i k)) (fun i => w i k))).
Proof.
  intros N M k w Hk HM. unfold qr_norm. rewrite (for_range_add (N - k) k (fun i => w i k * w i k)).
  2:{ intros i s Hi. rewrite (Nat.mul_comm k N), store_rd by lia. reflexivity. }
  cbn [obind]. do 2 f_equal. rewrite Rplus_0_l. unfold dotn. rewrite (Rsum_split N k) by lia. rewrite (Rsum_zero k) by (intros i Hi; unfold vm; beqs; lra).
  rewrite Rplus_0_l. apply Rsum_ext. intros u Hu. unfold vm. beqs. reflexivity.
Qed.

Definition qr_rep (N M : nat) (t : matrix * (nat -> R) * (nat -> R)) : qr_state := let '(w, tau, v) := t in (store N M w, arr M tau, arr N v).
Definition qr_inv (eps : R) (N M : nat) (a : matrix) (k : nat) (w : matrix) (tau : nat -> R) : Prop :=
  exists (T : matrix) (u : nat -> nat -> R),
    (forall m, (m < k)%nat -> reflector N (tau m) (u m)) /\
    (forall m, (m < k)%nat -> tau m <> 0 -> forall i, (i < N)%nat -> u m i = vm m (fun i => if (i =? m)%nat then 1 else w i m) i) /\
    (forall i j, (i < N)%nat -> (j < M)%nat -> a i j = app N tau u k (fun i => T i j) i) /\
    (forall j, (j < k)%nat -> (forall i, (i <= j)%nat -> w i j = T i j) /\ Rsum N (fun i => if (j <? i)%nat then T i j * T i j else 0) <= eps * eps) /\
    (forall i j, (i < N)%nat -> (k <= j < M)%nat -> w i j = T i j).

Lemma tail_le : forall N k x, Rsum N (fun i => if (k <? i)%nat then x i * x i else 0) <= dotn N (vm k x) x.
Proof.
  intros N k x. unfold dotn. induction N as [|N IH]; cbn [Rsum]; [lra|]. assert (0 <= x N * x N) by (apply (Rle_0_sqr (x N))). unfold vm at 2. beqs; lra.
Qed.
Lemma qr_step_ok : forall eps N M a k w tau v, 0 <= eps -> (k < M)%nat -> (M <= N)%nat -> qr_inv eps N M a k w tau ->
  exists w' tau' v', qr_step eps N M k (qr_rep N M (w, tau, v)) = Some (qr_rep N M (w', tau', v')) /\ qr_inv eps N M a (S k) w' tau'.
Proof.
  intros eps N M a k w tau v He Hk HN (T & u & H1 & H2 & H3 & H4 & H5). unfold qr_rep, qr_step.
  rewrite qr_norm_ok by lia. cbn [obind]. set (s := dotn N (vm k (fun i => w i k)) (fun i => w i k)).
  assert (Hs : 0 <= s).
  { unfold s, dotn. apply Rsum_nonneg. intros i Hi. unfold vm. destruct (Nat.ltb_spec i k); [lra|]. apply (Rle_0_sqr (w i k)). }
  destruct (Rle_dec (sqrt s) eps) as [Hle|Hgt].
  - rewrite wr_arr by lia. cbn [obind]. rewrite wr_arr by lia. cbn [obind].
    rewrite (vfill N k (fun _ => 0)) by reflexivity. cbn [obind]. exists w, (upd tau k 0), (fun i => if (k <? i)%nat then 0 else upd v k 1 i). split; [reflexivity|].
    exists T, (fun m => if (m =? k)%nat then (fun _ => 0) else u m). split; [|split; [|split; [|split]]].
    + intros m Hm. unfold upd. destruct (Nat.eqb_spec m k); [unfold reflector; ring|]. apply H1. lia.
    + intros m Hm. unfold upd. destruct (Nat.eqb_spec m k); [intros C; now elim C|]. apply H2. lia.
    + intros i j Hi Hj. cbn [app]. rewrite (H3 i j Hi Hj).
      transitivity (app N (upd tau k 0) (fun m => if (m =? k)%nat then (fun _ => 0) else u m) k (fun i => T i j) i).
      * apply app_change; [|exact Hi]. intros m Hm. unfold upd. destruct (Nat.eqb_spec m k); [lia|]. auto.
      * apply app_ext; [|exact Hi]. intros r Hr. unfold refl, upd. rewrite Nat.eqb_refl. ring.
    + intros j Hj. destruct (Nat.eq_dec j k) as [->|]; [|apply H4; lia]. split; [intros i Hi; apply H5; lia|].
      apply Rle_trans with s.
      * rewrite (Rsum_ext N _ (fun i => if (k <? i)%nat then w i k * w i k else 0)) by (intros i Hi; rewrite H5 by lia; reflexivity). apply (tail_le N k (fun i => w i k)).
      * rewrite <- (sqrt_def s Hs). apply Rmult_le_compat; try assumption; apply sqrt_pos.
    + intros i j Hi Hj. apply H5; lia.
  - rewrite (Nat.mul_comm k N), store_rd by lia. cbn [obind]. set (al := w k k). set (nr := sqrt s) in *.
    set (be := if Rle_dec 0 al then - nr else nr). set (t := (be - al) / be).
    assert (Hnr : 0 < nr) by lra.
    assert (Hbe : be * be = s) by (unfold be; destruct (Rle_dec 0 al); [replace (- nr * - nr) with (nr * nr) by ring|]; apply sqrt_def; exact Hs).
    assert (Hbn : be <> 0) by (unfold be; destruct (Rle_dec 0 al); lra).
    assert (Hab : al - be <> 0) by (unfold be; destruct (Rle_dec 0 al); lra).
    rewrite wr_arr by lia. cbn [obind]. rewrite wr_arr by lia. cbn [obind].
    rewrite (vfill N k (fun i => w i k * (1 / (al - be)))).
    2:{ intros i h Hi _. rewrite store_rd by lia. reflexivity. }
    cbn [obind]. set (vv := fun i => if (k <? i)%nat then w i k * (1 / (al - be)) else upd v k 1 i).
    rewrite store_wr by lia. cbn [obind].
    rewrite (wcol_fill N M k vv).
    2:{ lia. }
    2:{ intros i h Hi. rewrite rd_arr by lia. cbn [obind]. now rewrite (Nat.mul_comm k N). }
    cbn [obind].
    rewrite (cols_reflect N M k (S k) (M - S k) t vv).
    2:{ lia. }
    2:{ lia. }
    2:{ intros j h Hj. rewrite rd_arr by lia. cbn [obind]. unfold upd at 1. rewrite Nat.eqb_refl. reflexivity. }
    cbn [obind]. eexists _, _, _. split; [reflexivity|].
    set (x := fun i => w i k). assert (Hv1 : vm k vv k = 1) by (unfold vm, vv, upd; rewrite !Nat.ltb_irrefl, Nat.eqb_refl; reflexivity).
    assert (Hv2 : forall i, (k < i)%nat -> vm k vv i = x i / (al - be)) by (intros i Hi; unfold vm, vv, x; beqs; unfold Rdiv; ring).
    (* sums over i > k *)
    set (g := Rsum (N - S k) (fun r => x (S k + r)%nat * x (S k + r)%nat)).
    assert (Eg : s = al * al + g) by (unfold s, g; rewrite dotn_vm by lia; reflexivity).
    assert (Evv : dotn N (vm k vv) (vm k vv) = 1 + g / ((al - be) * (al - be))).
    { rewrite dotn_vm by lia. fold (vm k vv k). rewrite Hv1. replace (vv k) with 1 by (rewrite <- Hv1; unfold vm; now rewrite Nat.ltb_irrefl).
      rewrite (Rsum_ext (N - S k) _ (fun r => x (S k + r)%nat * x (S k + r)%nat * (1 / ((al - be) * (al - be))))).
      - rewrite Rsum_scal_r. fold g. unfold Rdiv. ring.
      - intros r Hr. replace (vv (S k + r)%nat) with (vm k vv (S k + r)%nat) by (unfold vm; beqs; reflexivity). rewrite Hv2 by lia. field. exact Hab. }
    assert (Hrf : reflector N t (vm k vv)).
    { unfold reflector. rewrite Evv. replace g with (be * be - al * al) by lra. unfold t. field. split; assumption. }
    assert (Evx : dotn N (vm k vv) x = - be).
    { rewrite dotn_vm by lia. replace (vv k) with 1 by (rewrite <- Hv1; unfold vm; now rewrite Nat.ltb_irrefl).
      rewrite (Rsum_ext (N - S k) _ (fun r => x (S k + r)%nat * x (S k + r)%nat * (1 / (al - be)))).
      - rewrite Rsum_scal_r. fold g. replace g with (be * be - al * al) by lra. change (x k) with al. field. exact Hab.
      - intros r Hr. replace (vv (S k + r)%nat) with (vm k vv (S k + r)%nat) by (unfold vm; beqs; reflexivity). rewrite Hv2 by lia. field. exact Hab. }
    assert (Rlow : forall y i, (i < k)%nat -> refl N t (vm k vv) y i = y i) by (intros y i Hi; unfold refl, vm at 2; beqs; ring).
    assert (Rk : refl N t (vm k vv) x k = be) by (unfold refl; rewrite Evx, Hv1; change (x k) with al; unfold t; field; exact Hbn).
    assert (Rhi : forall i, (k < i)%nat -> refl N t (vm k vv) x i = 0) by (intros i Hi; unfold refl; rewrite Evx, Hv2 by exact Hi; unfold t; field; split; assumption).
    exists (fun i j => refl N t (vm k vv) (fun i => T i j) i), (fun m => if (m =? k)%nat then vm k vv else u m). split; [|split; [|split; [|split]]].
    + intros m Hm. unfold upd. destruct (Nat.eqb_spec m k) as [->|]; [exact Hrf|]. apply H1. lia.
    + intros m Hm. unfold upd. destruct (Nat.eqb_spec m k) as [->|].
      * intros _ i Hi. unfold vm. destruct (Nat.ltb_spec i k); [reflexivity|]. unfold vv, upd, upd2. beqs; reflexivity.
      * intros Ht i Hi. rewrite (H2 m) by (try assumption; lia). unfold vm, upd2. beqs; reflexivity.
    + intros i j Hi Hj. cbn [app]. rewrite (H3 i j Hi Hj).
      transitivity (app N (upd tau k t) (fun m => if (m =? k)%nat then vm k vv else u m) k (fun i => T i j) i).
      * apply app_change; [|exact Hi]. intros m Hm. unfold upd. destruct (Nat.eqb_spec m k); [lia|]. auto.
      * apply app_ext; [|exact Hi]. intros r Hr. unfold upd. rewrite !Nat.eqb_refl. symmetry. exact (refl_refl N t (vm k vv) (fun i => T i j) Hrf r).
    + intros j Hj. destruct (Nat.eq_dec j k) as [->|].
      * assert (Ec : forall i, (i < N)%nat -> refl N t (vm k vv) (fun i => T i k) i = refl N t (vm k vv) x i) by (intros i Hi; apply refl_ext; [reflexivity| |exact Hi]; intros r Hr; symmetry; apply H5; lia).
        split.
        -- intros i Hi. rewrite Ec by lia. destruct (Nat.eq_dec i k) as [->|].
           ++ rewrite Rk. unfold upd2. beqs; reflexivity.
           ++ rewrite (Rlow x i) by lia. unfold upd2, x. beqs; reflexivity.
        -- rewrite Rsum_zero; [apply (Rle_0_sqr eps)|]. intros i Hi. destruct (Nat.ltb_spec k i); [|reflexivity]. rewrite Ec by lia. rewrite Rhi by lia. ring.
      * destruct (H4 j ltac:(lia)) as [H6 H7]. split.
        -- intros i Hi. rewrite (Rlow (fun i => T i j) i) by lia. unfold upd2. beqs; apply H6; lia.
        -- eapply Rle_trans; [|exact H7]. apply Req_le.
           assert (G : forall z, Rsum N (fun i => if (j <? i)%nat then z i * z i else 0) = dotn N z z - Rsum N (fun i => if (j <? i)%nat then 0 else z i * z i)) by (intros z; unfold dotn; rewrite <- Rsum_minus; apply Rsum_ext; intros i Hi; destruct (j <? i)%nat; ring).
           rewrite (G (fun i => refl N t (vm k vv) (fun i => T i j) i)), (G (fun i => T i j)). f_equal.
           ++ change (fun i => refl N t (vm k vv) (fun i0 => T i0 j) i) with (refl N t (vm k vv) (fun i0 => T i0 j)). now apply refl_dot.
           ++ apply Rsum_ext. intros i Hi. destruct (Nat.ltb_spec j i); [reflexivity|]. rewrite Rlow by lia. reflexivity.
    + intros i j Hi Hj. destruct (Nat.leb_spec (S k) j); [|lia]. destruct (Nat.ltb_spec j (S k + (M - S k))); [|lia]. cbn [andb].
      apply refl_ext; [reflexivity| |exact Hi]. intros r Hr. unfold upd2. rewrite <- H5 by lia. beqs; reflexivity.
Qed.

Lemma qr_R_ok : forall N M w (r : matrix), (M <= N)%nat ->
  qr_R N M (store N M w) (store M M r) = Some (store M M (fun i j => if (i <=? j)%nat then w i j else 0)).
Proof.
  intros N M w r HN. unfold qr_R. match goal with |- for_ M ?b _ = _ => set (body := b) end.
  destruct (for_rep0 (store M M) (fun c y => forall i j, (i < M)%nat -> (j < c)%nat -> y i j = if (i <=? j)%nat then w i j else 0) M body r) as (y & E & H).
  - intros; lia.
  - intros j y Hj Hy. unfold body. match goal with |- context [for_ M ?b _] => set (bd := b) end.
    destruct (for_rep0 (store M M) (fun c y' => forall i j', (i < M)%nat -> ((j' < j)%nat \/ (j' = j /\ (i < c)%nat)) -> y' i j' = if (i <=? j')%nat then w i j' else 0) M bd y) as (y2 & E2 & H2).
    + intros i j' Hi Hj'. apply Hy; lia.
    + intros i y3 Hi H3. unfold bd. rewrite (Nat.mul_comm j N), (Nat.mul_comm j M).
      replace (if (i <=? j)%nat then rd (store N M w) (i + N * j) else Some 0) with (Some (if (i <=? j)%nat then w i j else 0)) by (destruct (i <=? j)%nat; [rewrite store_rd by lia|]; reflexivity).
      cbn [obind]. rewrite store_wr by assumption. eexists. split; [reflexivity|]. intros i' j' Hi' Hj'. unfold upd2.
      destruct (Nat.eqb_spec i' i) as [->|]; [|apply H3; lia]. destruct (Nat.eqb_spec j' j) as [->|]; [reflexivity|]. apply H3; lia.
    + exists y2. split; [exact E2|]. intros i j' Hi Hj'. apply H2; lia.
  - rewrite E. apply f_equal, store_ext. intros i j Hi Hj. now apply H.
Qed.
Lemma qr_I_ok : forall N (q : matrix), qr_I N (store N N q) = Some (store N N identity).
Proof.
  intros N q. unfold qr_I. match goal with |- for_ N ?b _ = _ => set (body := b) end.
  destruct (for_rep0 (store N N) (fun c y => forall i j, (i < N)%nat -> (j < c)%nat -> y i j = identity i j) N body q) as (y & E & H).
  - intros; lia.
  - intros j y Hj Hy. unfold body. match goal with |- context [for_ N ?b _] => set (bd := b) end.
    destruct (for_rep0 (store N N) (fun c y' => forall i j', (i < N)%nat -> ((j' < j)%nat \/ (j' = j /\ (i < c)%nat)) -> y' i j' = identity i j') N bd y) as (y2 & E2 & H2).
    + intros i j' Hi Hj'. apply Hy; lia.
    + intros i y3 Hi H3. unfold bd. rewrite (Nat.mul_comm j N), store_wr by assumption. eexists. split; [reflexivity|]. intros i' j' Hi' Hj'. unfold upd2.
      destruct (Nat.eqb_spec i' i) as [->|]; [|apply H3; lia]. destruct (Nat.eqb_spec j' j) as [->|]; [reflexivity|]. apply H3; lia.
    + exists y2. split; [exact E2|]. intros i j' Hi Hj'. apply H2; lia.
  - rewrite E. apply f_equal, store_ext. intros i j Hi Hj. now apply H.
Qed.
Lemma qr_Q_ok : forall N M w tau v (u : nat -> nat -> R), (M <= N)%nat ->
  (forall m, (m < M)%nat -> tau m <> 0 -> forall i, (i < N)%nat -> u m i = vm m (fun i => if (i =? m)%nat then 1 else w i m) i) ->
  qr_Q N M (store N M w) (arr M tau) (arr N v) (store N N identity) = Some (store N N (fun i j => app N tau u M (fun r => identity r j) i)).
Proof.
  intros N M w tau v u HN Hu. unfold qr_Q. set (rep := fun t : (nat -> R) * matrix => (arr N (fst t), store N N (snd t))).
  match goal with |- context [for_ M ?b _] => set (body := b) end.
  destruct (for_rep0 rep (fun s t => forall i j, (i < N)%nat -> (j < N)%nat -> snd t i j = appr N tau u s (M - s) (fun r => identity r j) i) M body (v, identity)) as ([v' q] & E & H).
  - intros i j Hi Hj. reflexivity.
  - intros s [v1 q1] Hs H1. unfold body, rep. cbn [fst snd] in *. set (k := (M - 1 - s)%nat). rewrite rd_arr by lia. cbn [obind].
    replace (M - S s)%nat with k by lia. replace (M - s)%nat with (S k) in H1 by lia. cbn [appr].
    destruct (Req_EM_T (tau k) 0) as [Ez|Ez].
    + exists (v1, q1). split; [reflexivity|]. intros i j Hi Hj. cbn [snd]. rewrite H1 by assumption. unfold refl. rewrite Ez. ring.
    + rewrite wr_arr by lia. cbn [obind]. rewrite (vfill N k (fun i => w i k)).
      2:{ intros i h Hi _. rewrite (Nat.mul_comm k N), store_rd by lia. reflexivity. }
      cbn [obind]. set (v2 := fun i => if (k <? i)%nat then w i k else upd v1 k 1 i). unfold for_. rewrite (cols_reflect N N k 0 N (tau k) v2).
      2:{ lia. }
      2:{ lia. }
      2:{ intros j h Hj. reflexivity. }
      cbn [obind]. eexists (v2, _). split; [reflexivity|]. intros i j Hi Hj. cbn [snd]. destruct (Nat.ltb_spec j (0 + N)); [|lia]. cbn [Nat.leb andb].
      apply refl_ext; [| |exact Hi].
      * intros r Hr. rewrite (Hu k) by (try assumption; lia). unfold vm, v2, upd. beqs; reflexivity.
      * intros r Hr. now apply H1.
  - rewrite (E : for_ M body (arr N v, store N N identity) = _). cbn [obind rep fst snd]. apply f_equal, store_ext. intros i j Hi Hj.
    cbn [snd] in H. rewrite H by assumption. rewrite Nat.sub_diag. symmetry. now apply app_appr.
Qed.
Lemma householder_qr_ok : forall eps N M a Q Rm W v tau, 0 <= eps -> (0 < M <= N)%nat ->
  length Q = (N * N)%nat -> length Rm = (M * M)%nat -> length W = (N * M)%nat -> length v = N -> length tau = M ->
  exists q r, householder_qr eps N M (store N M a) Q Rm W v tau = Some (store N N q, store M M r) /\
    orthonormal N q /\ upper_triangular M r /\ forall j, (j < M)%nat -> norm2 N (residual M a q r j) <= eps.
Proof.
  intros eps N M a Q Rm W v tau He HM HQ HR HW Hv Ht. unfold householder_qr.
  rewrite (copy_n_list 0) by (try assumption; apply store_length). cbn [obind].
  pose proof (list_arr 0 v) as Ev. rewrite Hv in Ev. pose proof (list_arr 0 tau) as Et. rewrite Ht in Et. rewrite Ev, Et.
  destruct (for_rep0 (qr_rep N M) (fun k t => let '(w, tau, v) := t in qr_inv eps N M a k w tau) M (qr_step eps N M) (a, (fun i => nth i tau 0), (fun i => nth i v 0))) as (((w & tau') & v') & E & H).
  - exists a, (fun _ _ => 0). split; [intros; lia|]. split; [intros; lia|]. split; [reflexivity|]. split; [intros; lia|reflexivity].
  - intros k [[w1 tau1] v1] Hk Hi. destruct (qr_step_ok eps N M a k w1 tau1 v1 He Hk ltac:(lia) Hi) as (w2 & tau2 & v2 & E2 & H2). exists (w2, tau2, v2). auto.
  - cbn [qr_rep] in E. rewrite E. cbn [obind]. destruct H as (T & u & H1 & H2 & H3 & H4 & _).
    rewrite (list_store 0 M M Rm) by lia. rewrite qr_R_ok by lia. cbn [obind]. rewrite (list_store 0 N N Q) by lia. rewrite qr_I_ok. cbn [obind].
    rewrite (qr_Q_ok N M w tau' v' u) by (try lia; exact H2). cbn [obind]. eexists _, _. split; [reflexivity|].
    set (q := fun i j => app N tau' u M (fun r => identity r j) i). set (r := fun i j => if (i <=? j)%nat then w i j else 0).
    split; [|split].
    + intros i j Hi Hj. change (dotn N (app N tau' u M (fun r => identity r i)) (app N tau' u M (fun r => identity r j)) = if (i =? j)%nat then 1 else 0).
      rewrite app_dot by assumption. unfold dotn. rewrite (Rsum_single N i); [|exact Hi|].
      * unfold identity. rewrite Nat.eqb_refl. destruct (i =? j)%nat; lra.
      * intros k _ Hk. unfold identity. destruct (Nat.eqb_spec k i); [contradiction|lra].
    + intros i j Hij Hi. unfold r. destruct (Nat.leb_spec i j); [lia|reflexivity].
    + intros j Hj. destruct (H4 j Hj) as [H5 H6]. unfold norm2.
      rewrite <- (sqrt_square eps He). apply sqrt_le_1_alt. eapply Rle_trans; [|exact H6]. apply Req_le.
      set (d := fun i => if (j <? i)%nat then T i j else 0).
      transitivity (dotn N d d).
      2:{ apply Rsum_ext. intros i Hi. unfold d. destruct (j <? i)%nat; ring. }
      rewrite <- (app_dot N tau' u M H1 d d). apply Rsum_ext. intros i Hi.
      assert (Er : residual M a q r j i = app N tau' u M d i); [|now rewrite Er].
      unfold residual. rewrite (H3 i j Hi Hj).
      rewrite (app_ext N tau' u M (fun i => T i j) (fun s => Rsum (S M) (fun m => (if (m <? M)%nat then r m j else 1) * (if (m <? M)%nat then identity s m else d s)))).
      * rewrite (app_lin N tau' u M (S M) (fun m => if (m <? M)%nat then r m j else 1) (fun m s => if (m <? M)%nat then identity s m else d s)) by exact Hi.
        cbn [Rsum]. rewrite Nat.ltb_irrefl. rewrite (Rsum_ext M (fun m => (if (m <? M)%nat then r m j else 1) * _) (fun m => q i m * r m j)).
        -- change (fun s => d s) with d. ring.
        -- intros m Hm. destruct (Nat.ltb_spec m M); [|lia]. unfold q. ring.
      * intros s Hs. cbn [Rsum]. rewrite Nat.ltb_irrefl. rewrite (Rsum_ext M _ (fun m => r m j * identity s m)) by (intros m Hm; destruct (Nat.ltb_spec m M); [reflexivity|lia]).
        destruct (Nat.lt_ge_cases s M) as [Hsm|Hsm].
        -- rewrite (Rsum_single M s); [|exact Hsm|].
           ++ unfold identity. rewrite Nat.eqb_refl. unfold r, d. destruct (Nat.leb_spec s j), (Nat.ltb_spec j s); try lia; [rewrite H5 by lia|]; ring.
           ++ intros m _ Hm. unfold identity. destruct (Nat.eqb_spec s m); [congruence|ring].
        -- rewrite Rsum_zero; [unfold d; destruct (Nat.ltb_spec j s); [ring|lia]|]. intros m Hm. unfold identity. destruct (Nat.eqb_spec s m); [lia|ring].
      * exact Hi.
Qed.
