From Verif Require Import Prelude RSum GeoModel GeoSpec.
Local Open Scope R_scope.

Ltac norm_nat := repeat match goal with
  | |- context [(?a mod ?b)%nat] => is_ground a; is_ground b; let v := eval vm_compute in (a mod b)%nat in change (a mod b)%nat with v
  | |- context [(S ?a)] => fail
  end.
Lemma upd_eq : forall {A} (f : nat -> A) i v j, j = i -> upd f i v j = v.
Proof. intros A f i v j ->. unfold upd. now rewrite Nat.eqb_refl. Qed.
Lemma upd_ne : forall {A} (f : nat -> A) i v j, j <> i -> upd f i v j = f j.
Proof. intros A f i v j H. unfold upd. destruct (Nat.eqb_spec j i); [contradiction|reflexivity]. Qed.
Ltac upds := repeat first [rewrite upd_eq by lia | rewrite upd_ne by lia].
Ltac mem_step := first [rewrite rd_arr by lia | rewrite wr_arr by lia]; cbn [obind].
Ltac unroll := unfold for_; cbn [for_range].

Definition cof (a : nat -> nat -> R) (i j : nat) : R :=
  a ((i + 1) mod 3)%nat ((j + 1) mod 3)%nat * a ((i + 2) mod 3)%nat ((j + 2) mod 3)%nat - a ((i + 1) mod 3)%nat ((j + 2) mod 3)%nat * a ((i + 2) mod 3)%nat ((j + 1) mod 3)%nat.

Lemma inverse3x3_ok : forall msz a mo isz b io, (mo + 9 <= msz)%nat -> (io + 9 <= isz)%nat ->
  let A := fun i j => a (mo + (i + 3 * j))%nat in
  exists b', inverse3x3 (arr msz a) mo (arr isz b) io = Some (det3 A, arr isz b') /\
    (forall i j, (i < 3)%nat -> (j < 3)%nat -> b' (io + (i + 3 * j))%nat = cof A j i / det3 A) /\
    (forall p, (p < io \/ io + 9 <= p)%nat -> b' p = b p).
Proof.
  intros msz a mo isz b io Hm Hi A. unfold inverse3x3, ent3.
  do 9 mem_step. do 3 mem_step. unroll.
  change ((1 + 1) mod 3)%nat with 2%nat. change ((1 + 2) mod 3)%nat with 0%nat. change ((2 + 1) mod 3)%nat with 0%nat. change ((2 + 2) mod 3)%nat with 1%nat.
  change ((0 + 1) mod 3)%nat with 1%nat. change ((0 + 2) mod 3)%nat with 2%nat.
  repeat mem_step.
  set (det := a (mo + (0 + 3 * 0))%nat * _ + _ + _).
  assert (Hd : det = det3 A) by (unfold det, det3, A; ring). rewrite <- Hd.
  eexists. split; [reflexivity|]. split.
  - intros i j Hi' Hj'. destruct i as [|[|[|i]]]; [| | |lia]; (destruct j as [|[|[|j]]]; [| | |lia]); upds;
      unfold cof, A; reflexivity.
  - intros p Hp. upds. reflexivity.
Qed.
Lemma cof_inverse : forall a b, det3 a <> 0 -> (forall i j, (i < 3)%nat -> (j < 3)%nat -> b i j = cof a j i / det3 a) -> inverse_of a b.
Proof.
  intros a b Hd Hb i j Hi Hj. cbn [Rsum]. rewrite !Hb by lia. unfold cof, delta, det3 in *.
  destruct i as [|[|[|i]]]; [| | |lia]; (destruct j as [|[|[|j]]]; [| | |lia]); cbn [Nat.modulo Nat.divmod fst snd Nat.sub Nat.add Nat.eqb]; split; field; exact Hd.
Qed.

Lemma zero_arr : forall l, zero_all l = arr (length l) (fun _ => 0).
Proof. intros l. unfold zero_all, arr. induction l as [|a l IH] using rev_ind; [reflexivity|].
  rewrite map_app, IH, app_length. cbn [length map]. rewrite Nat.add_1_r, seq_S, map_app. reflexivity. Qed.
Lemma repeat_arr : forall n (v : R), repeat v n = arr n (fun _ => v).
Proof. intros n v. induction n as [|n IH]; [reflexivity|]. unfold arr in *. rewrite seq_S, map_app, <- IH. cbn. now rewrite <- repeat_cons. Qed.

(** Loop that adds g i to the cells pos i, all different. *)
Lemma for_acc : forall n (pos : nat -> nat) (g : nat -> R) body sz f, (forall i, (i < n)%nat -> (pos i < sz)%nat) ->
  (forall i j, (i < n)%nat -> (j < n)%nat -> pos i = pos j -> i = j) ->
  (forall i s, (i < n)%nat -> body i s = (do y <- rd s (pos i); wr s (pos i) (y + g i))) ->
  exists f', for_ n body (arr sz f) = Some (arr sz f') /\ (forall i, (i < n)%nat -> f' (pos i) = f (pos i) + g i) /\
    (forall p, (forall i, (i < n)%nat -> p <> pos i) -> f' p = f p).
Proof.
  intros n pos g body sz f Hlt Hinj Hb.
  destruct (for_rep0 (arr sz) (fun k f' => (forall i, (i < k)%nat -> f' (pos i) = f (pos i) + g i) /\ (forall p, (forall i, (i < k)%nat -> p <> pos i) -> f' p = f p)) n body f) as (f' & E & H).
  - split; [intros; lia|reflexivity].
  - intros i f1 Hi [H1 H2]. rewrite Hb by assumption. rewrite rd_arr by auto. cbn [obind]. rewrite wr_arr by auto. eexists. split; [reflexivity|]. split.
    + intros k Hk. destruct (Nat.eq_dec k i) as [->|].
      * rewrite upd_eq by reflexivity. f_equal. apply H2. intros j Hj E. assert (i = j) by (apply Hinj; [lia|lia|assumption]). lia.
      * rewrite upd_ne; [apply H1; lia|]. intros E. assert (k = i) by (apply Hinj; [lia|lia|assumption]). lia.
    + intros p Hp. rewrite upd_ne by (apply Hp; lia). apply H2. intros k Hk. apply Hp. lia.
  - exists f'. split; [exact E|]. destruct H as [H1 H2]. split; [exact H1|exact H2].
Qed.
(** One point: the three accumulated products and the complement. *)
Lemma bary_step : forall sz n (t d : nat -> R) f o c, (4 * n + 4 <= sz)%nat -> (o <= 1)%nat -> (c = if (o =? 0)%nat then 3 else 0)%nat ->
  (forall k, (k < 4)%nat -> f (4 * n + k)%nat = 0) ->
  exists f', (do XYL <- for_ 3 (fun j XYL => for_ 3 (fun i XYL =>
        do t <- rd (arr 9 t) (i + 3 * j); do d <- rd (arr 3 d) j; do y <- rd XYL (4 * n + i + o); wr XYL (4 * n + i + o) (y + t * d)) XYL) (arr sz f);
     do XYL <- wr XYL (4 * n + c) 1;
     for_ 3 (fun i XYL => do y <- rd XYL (4 * n + c); do x <- rd XYL (4 * n + i + o); wr XYL (4 * n + c) (y - x)) XYL) = Some (arr sz f') /\
    (forall i, (i < 3)%nat -> f' (4 * n + i + o)%nat = Rsum 3 (fun j => t (i + 3 * j)%nat * d j)) /\
    f' (4 * n + c)%nat = 1 - Rsum 3 (fun i => Rsum 3 (fun j => t (i + 3 * j)%nat * d j)) /\
    (forall p, (p < 4 * n \/ 4 * n + 4 <= p)%nat -> f' p = f p).
Proof.
  intros sz n t d f o c Hsz Ho Hc Hz. assert (Hoc : (o = 0 /\ c = 3 \/ o = 1 /\ c = 0)%nat) by (destruct o as [|[|o]]; cbn in Hc; lia). clear Hc Ho.
  assert (Hz0 : forall k, (k < 3)%nat -> f (4 * n + k + o)%nat = 0) by (intros k Hk; destruct Hoc as [[-> _]|[-> _]]; [rewrite Nat.add_0_r; apply Hz; lia|rewrite <- Nat.add_assoc; apply Hz; lia]).
  destruct (for_rep0 (arr sz) (fun j f1 => (forall i, (i < 3)%nat -> f1 (4 * n + i + o)%nat = Rsum j (fun j => t (i + 3 * j)%nat * d j)) /\ (forall p, (p < 4 * n \/ 4 * n + 4 <= p)%nat -> f1 p = f p)) 3
    (fun j XYL => for_ 3 (fun i XYL =>
        do t <- rd (arr 9 t) (i + 3 * j); do d <- rd (arr 3 d) j; do y <- rd XYL (4 * n + i + o); wr XYL (4 * n + i + o) (y + t * d)) XYL) f) as (f1 & E1 & H1 & H2).
  - split; [intros i Hi; rewrite Hz0 by assumption; reflexivity|reflexivity].
  - intros j f1 Hj [H1 H2]. destruct (for_acc 3 (fun i => 4 * n + i + o)%nat (fun i => t (i + 3 * j)%nat * d j) (fun i XYL =>
        do t <- rd (arr 9 t) (i + 3 * j); do d <- rd (arr 3 d) j; do y <- rd XYL (4 * n + i + o); wr XYL (4 * n + i + o) (y + t * d)) sz f1) as (f2 & E2 & H3 & H4).
    + intros; lia.
    + intros; lia.
    + intros i s Hi. rewrite rd_arr by lia. cbn [obind]. rewrite rd_arr by lia. reflexivity.
    + exists f2. split; [exact E2|]. split; [intros i Hi; rewrite H3, H1 by assumption; reflexivity|]. intros p Hp. rewrite H4 by (intros; lia). now apply H2.
  - rewrite E1. cbn [obind]. unroll. repeat mem_step. eexists. split; [reflexivity|]. split; [|split].
    + intros i Hi. rewrite <- H1 by assumption. upds. reflexivity.
    + upds. rewrite !H1 by lia. cbn [Rsum]. ring.
    + intros p Hp. upds. now apply H2.
Qed.

Lemma load3 : forall (p q : nat -> R) sp sq op oq, (op + 3 <= sp)%nat -> (oq + 3 <= sq)%nat ->
  for_ 3 (fun i dr => do a <- rd (arr sp p) (i + op); do b <- rd (arr sq q) (i + oq); wr dr i (a - b)) (repeat 0 3) = Some (arr 3 (fun i => p (i + op)%nat - q (i + oq)%nat)).
Proof.
  intros. rewrite repeat_arr. unroll. repeat mem_step. apply f_equal, arr_ext. intros i Hi. destruct i as [|[|[|i]]]; [| | |lia]; upds; reflexivity.
Qed.
Lemma load_T : forall x : nat -> nat -> R, (do T <- for_ 3 (fun i T => do a <- rd (arr 3 (x 0%nat)) i; do b <- rd (arr 3 (x 3%nat)) i; wr T (i + 3 * 0) (a - b)) (repeat 0 9);
  do T <- for_ 3 (fun i T => do a <- rd (arr 3 (x 1%nat)) i; do b <- rd (arr 3 (x 3%nat)) i; wr T (i + 3 * 1) (a - b)) T;
  for_ 3 (fun i T => do a <- rd (arr 3 (x 2%nat)) i; do b <- rd (arr 3 (x 3%nat)) i; wr T (i + 3 * 2) (a - b)) T) =
  Some (arr 9 (fun p => x (p / 3)%nat (p mod 3)%nat - x 3%nat (p mod 3)%nat)).
Proof.
  intros x. rewrite repeat_arr. unroll. repeat mem_step. apply f_equal, arr_ext. intros p Hp.
  destruct p as [|[|[|[|[|[|[|[|[|p]]]]]]]]]; try lia; upds; reflexivity.
Qed.
Lemma bary_alg : forall x y (T b : nat -> nat -> R) w, (forall i k, (i < 3)%nat -> (k < 3)%nat -> T i k = x k i - x 3%nat i) -> inverse_of T b ->
  (forall i, (i < 3)%nat -> w i = Rsum 3 (fun j => b i j * (y j - x 3%nat j))) -> w 3%nat = 1 - Rsum 3 w -> barycentric x y w.
Proof.
  intros x y T b w HT Hinv Hw H3. split.
  - cbn [Rsum] in *. lra.
  - intros i Hi. transitivity (x 3%nat i + Rsum 3 (fun k => w k * T i k)).
    + rewrite (Rsum_ext 3 (fun k => w k * T i k) (fun k => w k * (x k i - x 3%nat i))) by (intros k Hk; now rewrite HT).
      cbn [Rsum] in *. rewrite H3. ring.
    + rewrite (Rsum_ext 3 _ (fun k => Rsum 3 (fun j => T i k * b k j * (y j - x 3%nat j)))).
      2:{ intros k Hk. rewrite Hw by assumption. rewrite <- Rsum_scal_r. apply Rsum_ext. intros j Hj. ring. }
      rewrite Rsum_swap. rewrite (Rsum_ext 3 _ (fun j => delta i j * (y j - x 3%nat j))).
      2:{ intros j Hj. rewrite Rsum_scal_r. now rewrite (proj2 (Hinv i j Hi Hj)). }
      rewrite (Rsum_single 3 i); [unfold delta; rewrite Nat.eqb_refl; ring|assumption|].
      intros j Hj Hne. unfold delta. destruct (Nat.eqb_spec i j); [congruence|]. ring.
Qed.
Lemma bary_alg0 : forall x y (T b : nat -> nat -> R) w, (forall i k, (i < 3)%nat -> (k < 3)%nat -> T i k = x (S k) i - x 0%nat i) -> inverse_of T b ->
  (forall i, (i < 3)%nat -> w (S i) = Rsum 3 (fun j => b i j * (y j - x 0%nat j))) -> w 0%nat = 1 - Rsum 3 (fun i => w (S i)) -> barycentric x y w.
Proof.
  intros x y T b w HT Hinv Hw H3.
  assert (H : barycentric (fun k => match k with 3 => x 0%nat | _ => x (S k) end) y (fun k => match k with 3 => w 0%nat | _ => w (S k) end)).
  { apply (bary_alg _ y T b); [|exact Hinv| |].
    - intros i k Hi Hk. rewrite HT by assumption. destruct k as [|[|[|k]]]; try lia; reflexivity.
    - intros i Hi. destruct i as [|[|[|i]]]; try lia; now rewrite Hw by lia.
    - cbn [Rsum] in *. exact H3. }
  destruct H as [H1 H2]. split; [cbn [Rsum] in *; lra|]. intros i Hi. specialize (H2 i Hi). cbn [Rsum] in *. lra.
Qed.
Lemma det_T : forall x, det3 (fun i k => x k i - x 3%nat i) = - det3 (edge_matrix x).
Proof. intros x. unfold det3, edge_matrix. ring. Qed.
Lemma inverse_ext : forall a a' b, (forall i j, (i < 3)%nat -> (j < 3)%nat -> a i j = a' i j) -> inverse_of a b -> inverse_of a' b.
Proof. intros a a' b H Hi i j Hi' Hj'. destruct (Hi i j Hi' Hj') as [A B]. cbn [Rsum] in *. rewrite <- !H by lia. auto. Qed.
Lemma det3_ext : forall a a', (forall i j, (i < 3)%nat -> (j < 3)%nat -> a i j = a' i j) -> det3 a = det3 a'.
Proof. intros a a' H. unfold det3. rewrite !H by lia. reflexivity. Qed.

Theorem bary_coord_ok : forall x (X : nat -> R) sx wsz W0, nondegenerate x -> (sx / 3 <= wsz / 4)%nat ->
  exists W, bary_coord (arr 3 (x 0%nat)) (arr 3 (x 1%nat)) (arr 3 (x 2%nat)) (arr 3 (x 3%nat)) (arr sx X) (arr wsz W0) = Some (arr wsz W) /\
    forall n, (n < sx / 3)%nat -> barycentric x (fun i => X (i + n * 3)%nat) (fun k => W (4 * n + k)%nat).
Proof.
  intros x X sx wsz W0 Hnd Hsz. unfold bary_coord. rewrite !arr_length.
  destruct (Nat.leb_spec (sx / 3) (wsz / 4)) as [_|]; [|lia]. cbn [guard obind].
  assert (Hlast : (4 * (wsz / 4) <= wsz)%nat) by (apply Nat.mul_div_le; lia). assert (Hlx : (3 * (sx / 3) <= sx)%nat) by (apply Nat.mul_div_le; lia).
  pose proof (load_T x) as HT.
  destruct (for_ 3 (fun i T => do a <- rd (arr 3 (x 0%nat)) i; do b <- rd (arr 3 (x 3%nat)) i; wr T (i + 3 * 0) (a - b)) (repeat 0 9)) as [T1|] in *; [|discriminate]. cbn [obind] in HT |- *.
  destruct (for_ 3 (fun i T => do a <- rd (arr 3 (x 1%nat)) i; do b <- rd (arr 3 (x 3%nat)) i; wr T (i + 3 * 1) (a - b)) T1) as [T2|] in *; [|discriminate]. cbn [obind] in HT |- *.
  rewrite HT. cbn [obind]. rewrite repeat_arr.
  destruct (inverse3x3_ok 9 (fun p => x (p / 3)%nat (p mod 3)%nat - x 3%nat (p mod 3)%nat) 0 9 (fun _ => 0) 0) as (b & E & Hb & _); [lia|lia|]. rewrite E. cbn [obind snd].
  set (T := fun i j => x ((0 + (i + 3 * j)) / 3)%nat ((0 + (i + 3 * j)) mod 3)%nat - x 3%nat ((0 + (i + 3 * j)) mod 3)%nat) in *.
  assert (HTv : forall i k, (i < 3)%nat -> (k < 3)%nat -> T i k = x k i - x 3%nat i).
  { intros i k Hi Hk. unfold T. rewrite Nat.add_0_l. destruct (cell_split 3 i k Hi) as [-> ->]. reflexivity. }
  assert (Hdet : det3 T <> 0).
  { rewrite (det3_ext T (fun i k => x k i - x 3%nat i)) by exact HTv. rewrite det_T. unfold nondegenerate in Hnd. lra. }
  assert (Hinv : inverse_of T (fun i j => b (0 + (i + 3 * j))%nat)) by (apply cof_inverse; [exact Hdet|exact Hb]).
  rewrite zero_arr, arr_length.
  destruct (for_rep0 (arr wsz) (fun n W => (forall m, (m < n)%nat -> barycentric x (fun i => X (i + m * 3)%nat) (fun k => W (4 * m + k)%nat)) /\ forall p, (4 * n <= p)%nat -> W p = 0)
    (sx / 3) (fun n XYL =>
    do dr <- for_ 3 (fun i dr => do a <- rd (arr sx X) (i + n * 3); do b <- rd (arr 3 (x 3%nat)) i; wr dr i (a - b)) (repeat 0 3);
    do XYL <- for_ 3 (fun j XYL => for_ 3 (fun i XYL =>
        do t <- rd (arr 9 b) (i + 3 * j); do d <- rd dr j; do y <- rd XYL (4 * n + i); wr XYL (4 * n + i) (y + t * d)) XYL) XYL;
    do XYL <- wr XYL (4 * n + 3) 1;
    for_ 3 (fun i XYL => do y <- rd XYL (4 * n + 3); do x <- rd XYL (4 * n + i); wr XYL (4 * n + 3) (y - x)) XYL) (fun _ => 0)) as (W & EW & HW & _).
  - split; [intros; lia|reflexivity].
  - intros n W Hn [HW Hz].
    pose proof (load3 X (x 3%nat) sx 3 (n * 3) 0 ltac:(lia) ltac:(lia)) as HL.
    assert (HL' : for_ 3 (fun i dr => do a <- rd (arr sx X) (i + n * 3); do b <- rd (arr 3 (x 3%nat)) i; wr dr i (a - b)) (repeat 0 3) = Some (arr 3 (fun i => X (i + n * 3)%nat - x 3%nat i))).
    { revert HL. unroll. intros HL. exact HL. }
    rewrite HL'. cbn [obind]. clear HL HL'.
    destruct (bary_step wsz n b (fun i => X (i + n * 3)%nat - x 3%nat i) W 0 3 ltac:(lia) ltac:(lia) eq_refl) as (W' & E' & H1 & H2 & H3); [intros k Hk; apply Hz; lia|].
    exists W'. split.
    + revert E'. unroll. rewrite !Nat.add_0_r. intros E'. exact E'.
    + split.
      * intros m Hm. destruct (Nat.eq_dec m n) as [->|].
        -- apply (bary_alg x _ T (fun i j => b (0 + (i + 3 * j))%nat)); [exact HTv|exact Hinv| |].
           ++ intros i Hi. rewrite <- (Nat.add_0_r (4 * n + i)). rewrite H1 by assumption. reflexivity.
           ++ rewrite H2. f_equal. apply Rsum_ext. intros i Hi. rewrite <- (Nat.add_0_r (4 * n + i)). now rewrite H1 by assumption.
        -- destruct (HW m ltac:(lia)) as [A B]. split; [cbn [Rsum] in *; rewrite !H3 by lia; exact A|]. intros i Hi. specialize (B i Hi). cbn [Rsum] in *. rewrite !H3 by lia. exact B.
      * intros p Hp. rewrite H3 by lia. apply Hz. lia.
  - exists W. split; [exact EW|exact HW].
Qed.
