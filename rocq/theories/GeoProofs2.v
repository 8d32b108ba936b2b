From Verif Require Import Prelude RSum GeoModel GeoSpec GeoProofs.
Local Open Scope R_scope.

Theorem bary_coord_psi_ok : forall x (X psi : nat -> R) sx wsz W0, inverse_of (edge_matrix x) (fun i j => psi (i + 3 * j)%nat) -> (sx / 3 <= wsz / 4)%nat ->
  exists W, bary_coord_psi (arr 3 (x 0%nat)) (arr sx X) (arr wsz W0) (arr 9 psi) = Some (arr wsz W) /\
    forall n, (n < sx / 3)%nat -> barycentric x (fun i => X (i + 3 * n)%nat) (fun k => W (4 * n + k)%nat).
Proof.
  intros x X psi sx wsz W0 Hinv Hsz. unfold bary_coord_psi. rewrite arr_length.
  assert (Hlast : (4 * (wsz / 4) <= wsz)%nat) by (apply Nat.mul_div_le; lia). assert (Hlx : (3 * (sx / 3) <= sx)%nat) by (apply Nat.mul_div_le; lia).
  rewrite zero_arr, arr_length.
  destruct (for_rep0 (arr wsz) (fun n W => (forall m, (m < n)%nat -> barycentric x (fun i => X (i + 3 * m)%nat) (fun k => W (4 * m + k)%nat)) /\ forall p, (4 * n <= p)%nat -> W p = 0)
    (sx / 3) (fun n XYL =>
    do dr <- for_ 3 (fun i dr => do a <- rd (arr sx X) (i + 3 * n); do b <- rd (arr 3 (x 0%nat)) i; wr dr i (a - b)) (repeat 0 3);
    do XYL <- for_ 3 (fun j XYL => for_ 3 (fun i XYL =>
        do t <- rd (arr 9 psi) (i + 3 * j); do d <- rd dr j; do y <- rd XYL (4 * n + i + 1); wr XYL (4 * n + i + 1) (y + t * d)) XYL) XYL;
    do XYL <- wr XYL (4 * n + 0) 1;
    for_ 3 (fun i XYL => do y <- rd XYL (4 * n + 0); do x <- rd XYL (4 * n + i + 1); wr XYL (4 * n + 0) (y - x)) XYL) (fun _ => 0)) as (W & EW & HW & _).
  - split; [intros; lia|reflexivity].
  - intros n W Hn [HW Hz].
    assert (HL' : for_ 3 (fun i dr => do a <- rd (arr sx X) (i + 3 * n); do b <- rd (arr 3 (x 0%nat)) i; wr dr i (a - b)) (repeat 0 3) = Some (arr 3 (fun i => X (i + 3 * n)%nat - x 0%nat i))).
    { pose proof (load3 X (x 0%nat) sx 3 (3 * n) 0 ltac:(lia) ltac:(lia)) as HL. revert HL. unroll. intros HL. exact HL. }
    rewrite HL'. cbn [obind]. clear HL'.
    destruct (bary_step wsz n psi (fun i => X (i + 3 * n)%nat - x 0%nat i) W 1 0 ltac:(lia) ltac:(lia) eq_refl) as (W' & E' & H1 & H2 & H3); [intros k Hk; apply Hz; lia|].
    exists W'. split; [exact E'|].
    assert (H1' : forall i, (i < 3)%nat -> W' (4 * n + S i)%nat = Rsum 3 (fun j => psi (i + 3 * j)%nat * (X (j + 3 * n)%nat - x 0%nat j))).
    { intros i Hi. rewrite <- (H1 i Hi). f_equal. lia. }
    split.
    + intros m Hm. destruct (Nat.eq_dec m n) as [->|].
      * apply (bary_alg0 x _ (edge_matrix x) (fun i j => psi (i + 3 * j)%nat)); [reflexivity|exact Hinv|exact H1'|].
        rewrite H2. f_equal. apply Rsum_ext. intros i Hi. now rewrite H1' by assumption.
      * destruct (HW m ltac:(lia)) as [A B]. split; [cbn [Rsum] in *; rewrite !H3 by lia; exact A|]. intros i Hi. specialize (B i Hi). cbn [Rsum] in *. rewrite !H3 by lia. exact B.
    + intros p Hp. rewrite H3 by lia. apply Hz. lia.
  - exists W. split; [exact EW|exact HW].
Qed.

Lemma for_range_ext : forall {S} n lo (b b' : nat -> S -> option S) s, (forall i s, (lo <= i < lo + n)%nat -> b i s = b' i s) -> for_range lo n b s = for_range lo n b' s.
Proof.
  induction n as [|n IH]; intros lo b b' s H; [reflexivity|]. cbn [for_range]. rewrite H by lia. destruct (b' lo s) as [s'|]; [|reflexivity]. cbn [obind]. apply IH. intros i t Hi. apply H. lia.
Qed.
Lemma for_ext : forall {S} n (b b' : nat -> S -> option S) s, (forall i s, (i < n)%nat -> b i s = b' i s) -> for_ n b s = for_ n b' s.
Proof. intros S n b b' s H. unfold for_. apply for_range_ext. intros i t Hi. apply H. lia. Qed.
(** Write three cells. *)
Lemma put3 : forall sz (f : nat -> R) o (v : nat -> R), (o + 3 <= sz)%nat -> exists f', for_ 3 (fun i a => wr a (i + o) (v i)) (arr sz f) = Some (arr sz f') /\
  (forall i, (i < 3)%nat -> f' (i + o)%nat = v i) /\ (forall p, (p < o \/ o + 3 <= p)%nat -> f' p = f p).
Proof.
  intros sz f o v H. unroll. repeat mem_step. eexists. split; [reflexivity|]. split.
  - intros i Hi. destruct i as [|[|[|i]]]; [| | |lia]; upds; reflexivity.
  - intros p Hp. upds. reflexivity.
Qed.

(** Vertex coordinates of tetrahedron r. *)
Definition tet_of (XY0 XY1 XY2 XY3 : nat -> nat -> R) (r k i : nat) : R :=
  match k with 0 => XY0 i r | 1 => XY1 i r | 2 => XY2 i r | _ => XY3 i r end.
Definition geom_done (x : nat -> nat -> R) (xyp psi det mes : nat -> R) (r : nat) : Prop :=
  (forall k i, (k < 4)%nat -> (i < 3)%nat -> xyp (i + 3 * k + 12 * r)%nat = x k i - x 0%nat i) /\
  det r = det3 (edge_matrix x) /\ mes r = Rabs (det3 (edge_matrix x)) / 6 /\
  (nondegenerate x -> inverse_of (edge_matrix x) (fun i j => psi (9 * r + (i + 3 * j))%nat)).
Theorem geom_init_tet_ok : forall f XY0 XY1 XY2 XY3 s1 s2 s3 s4 a b c d, (12 * f <= s1)%nat -> (9 * f <= s2)%nat -> (f <= s3)%nat -> (f <= s4)%nat ->
  exists xyp psi det mes, geom_init_tet f XY0 XY1 XY2 XY3 (Geom (arr s1 a) (arr s2 b) (arr s3 c) (arr s4 d)) = Some (Geom (arr s1 xyp) (arr s2 psi) (arr s3 det) (arr s4 mes)) /\
    forall r, (r < f)%nat -> geom_done (tet_of XY0 XY1 XY2 XY3 r) xyp psi det mes r.
Proof.
  intros f XY0 XY1 XY2 XY3 s1 s2 s3 s4 a b c d Hs1 Hs2 Hs3 Hs4. unfold geom_init_tet.
  set (rep := fun t : (nat -> R) * (nat -> R) * (nat -> R) * (nat -> R) => let '(a, b, c, d) := t in Geom (arr s1 a) (arr s2 b) (arr s3 c) (arr s4 d)).
  change (Geom (arr s1 a) (arr s2 b) (arr s3 c) (arr s4 d)) with (rep (a, b, c, d)).
  match goal with |- exists _ _ _ _, for_ _ ?bd _ = _ /\ _ => destruct (for_rep0 rep (fun n t => let '(xyp, psi, det, mes) := t in forall r, (r < n)%nat -> geom_done (tet_of XY0 XY1 XY2 XY3 r) xyp psi det mes r) f bd (a, b, c, d)) as ([[[xyp psi] det] mes] & E & H) end.
  - intros; lia.
  - intros r [[[xyp psi] det] mes] Hr H. cbn [rep g_xyp g_psi g_det g_mes].
    destruct (put3 s1 xyp (12 * r) (fun _ => 0) ltac:(lia)) as (f1 & E1 & A1 & B1). rewrite E1. cbn [obind].
    destruct (put3 s1 f1 (3 + 12 * r) (fun i => XY1 i r - XY0 i r) ltac:(lia)) as (f2 & E2 & A2 & B2).
    destruct (put3 s1 f2 (6 + 12 * r) (fun i => XY2 i r - XY0 i r) ltac:(lia)) as (f3 & E3 & A3 & B3).
    destruct (put3 s1 f3 (9 + 12 * r) (fun i => XY3 i r - XY0 i r) ltac:(lia)) as (f4 & E4 & A4 & B4).
    assert (E2' : for_ 3 (fun i xyp => wr xyp (i + 3 + 12 * r) (XY1 i r - XY0 i r)) (arr s1 f1) = Some (arr s1 f2)) by (revert E2; unroll; intros E2; exact E2).
    assert (E3' : for_ 3 (fun i xyp => wr xyp (i + 6 + 12 * r) (XY2 i r - XY0 i r)) (arr s1 f2) = Some (arr s1 f3)) by (revert E3; unroll; intros E3; exact E3).
    assert (E4' : for_ 3 (fun i xyp => wr xyp (i + 9 + 12 * r) (XY3 i r - XY0 i r)) (arr s1 f3) = Some (arr s1 f4)) by (revert E4; unroll; intros E4; exact E4).
    rewrite E2'. cbn [obind]. rewrite E3'. cbn [obind]. rewrite E4'. cbn [obind].
    destruct (inverse3x3_ok s1 f4 (3 + 12 * r) s2 psi (9 * r)) as (psi' & E5 & A5 & B5); [lia|lia|]. rewrite E5. cbn [obind fst snd].
    rewrite wr_arr by lia. cbn [obind]. rewrite wr_arr by lia. cbn [obind].
    exists (f4, psi', upd det r (det3 (fun i j => f4 (3 + 12 * r + (i + 3 * j))%nat)), upd mes r (Rabs (det3 (fun i j => f4 (3 + 12 * r + (i + 3 * j))%nat)) / 6)). split; [reflexivity|].
    assert (Hx : forall k i, (k < 4)%nat -> (i < 3)%nat -> f4 (i + 3 * k + 12 * r)%nat = tet_of XY0 XY1 XY2 XY3 r k i - tet_of XY0 XY1 XY2 XY3 r 0 i).
    { intros k i Hk Hi. destruct k as [|[|[|[|k]]]]; try lia; cbn [tet_of].
      - rewrite B4, B3, B2 by lia. replace (i + 3 * 0 + 12 * r)%nat with (i + 12 * r)%nat by lia. rewrite A1 by assumption. ring.
      - rewrite B4, B3 by lia. replace (i + 3 * 1 + 12 * r)%nat with (i + (3 + 12 * r))%nat by lia. now rewrite A2.
      - rewrite B4 by lia. replace (i + 3 * 2 + 12 * r)%nat with (i + (6 + 12 * r))%nat by lia. now rewrite A3.
      - replace (i + 3 * 3 + 12 * r)%nat with (i + (9 + 12 * r))%nat by lia. now rewrite A4. }
    assert (Hm : forall i j, (i < 3)%nat -> (j < 3)%nat -> f4 (3 + 12 * r + (i + 3 * j))%nat = edge_matrix (tet_of XY0 XY1 XY2 XY3 r) i j).
    { intros i j Hi Hj. unfold edge_matrix. rewrite <- Hx by lia. f_equal. lia. }
    intros m Hmr. destruct (Nat.eq_dec m r) as [->|].
    + split; [exact Hx|]. rewrite !upd_eq by reflexivity. rewrite (det3_ext _ _ Hm). split; [reflexivity|]. split; [reflexivity|].
      intros Hnd. apply (inverse_ext (fun i j => f4 (3 + 12 * r + (i + 3 * j))%nat)); [exact Hm|]. apply cof_inverse; [now rewrite (det3_ext _ _ Hm)|exact A5].
    + destruct (H m ltac:(lia)) as (C1 & C2 & C3 & C4). split; [intros k i Hk Hi; rewrite B4, B3, B2, B1 by lia; now apply C1|].
      rewrite !upd_ne by lia. split; [exact C2|]. split; [exact C3|]. intros Hnd i j Hi Hj. cbn [Rsum]. rewrite !B5 by lia. exact (C4 Hnd i j Hi Hj).
  - exists xyp, psi, det, mes. split; [exact E|exact H].
Qed.

(** Loop whose iterations write different cells. *)
Lemma geom_init_xyg_ok : forall q f XY0 (x : nat -> nat -> nat -> R) s1 s2 s3 xyl xyp xyg0, (4 * q <= s1)%nat -> (12 * f <= s2)%nat -> (3 * (q * f) <= s3)%nat ->
  (forall r i, (r < f)%nat -> (i < 3)%nat -> x r 0%nat i = XY0 i r) ->
  (forall r k i, (r < f)%nat -> (k < 4)%nat -> (i < 3)%nat -> xyp (i + 3 * k + 12 * r)%nat = x r k i - x r 0%nat i) ->
  (forall n, (n < q)%nat -> Rsum 4 (fun k => xyl (k + 4 * n)%nat) = 1) ->
  exists xyg, geom_init_xyg q f XY0 (arr s1 xyl) (arr s2 xyp) (arr s3 xyg0) = Some (arr s3 xyg) /\
    forall r n i, (r < f)%nat -> (n < q)%nat -> (i < 3)%nat -> xyg (i + 3 * (n + q * r))%nat = Rsum 4 (fun k => xyl (k + 4 * n)%nat * x r k i).
Proof.
  intros q f XY0 x s1 s2 s3 xyl xyp xyg0 Hs1 Hs2 Hs3 H0 Hx Hw. unfold geom_init_xyg.
  set (val := fun r n i => Rsum 4 (fun k => xyl (k + 4 * n)%nat * x r k i)).
  match goal with |- exists _, for_ _ ?bd _ = _ /\ _ => destruct (for_rep0 (arr s3) (fun r0 g => forall r n i, (r < r0)%nat -> (n < q)%nat -> (i < 3)%nat -> g (i + 3 * (n + q * r))%nat = val r n i) f bd xyg0) as (xyg & E & H) end.
  - intros; lia.
  - intros r g Hr Hg.
    match goal with |- exists _, for_ _ ?bd _ = _ /\ _ => destruct (for_rep0 (arr s3) (fun n0 g' => (forall n i, (n < n0)%nat -> (i < 3)%nat -> g' (i + 3 * (n + q * r))%nat = val r n i) /\ forall p, (p < 3 * (q * r))%nat -> g' p = g p) q bd g) as (g1 & E1 & H1 & H2) end.
    + split; [intros; lia|reflexivity].
    + intros n g1 Hn [H1 H2].
      match goal with |- exists _, for_ _ ?bd _ = _ /\ _ => assert (Hs : forall k s, (k < 3)%nat -> bd k s = wr s (k + 3 * (n + q * r)) (val r n k)) end.
      { intros k s Hk. rewrite (for_sum 3 (fun l => xyl (l + 1 + 4 * n)%nat * xyp (k + 3 * (l + 1) + 12 * r)%nat)).
        - cbn [obind]. f_equal. unfold val. cbn [Rsum]. rewrite !Hx by lia. rewrite <- H0 by assumption. specialize (Hw n Hn). cbn [Rsum] in Hw. cbn [Nat.add Nat.mul] in *.
          rewrite <- (Rmult_1_r (x r 0%nat k)) at 1. rewrite <- Hw. ring.
        - intros l s' Hl. rewrite rd_arr by lia. cbn [obind]. rewrite rd_arr by lia. reflexivity. }
      assert (Hle : (n + q * r < q * f)%nat) by nia.
      destruct (put3 s3 g1 (3 * (n + q * r)) (val r n) ltac:(lia)) as (g2 & E2 & A2 & B2).
      exists g2. split.
      * rewrite (for_ext 3 _ _ _ Hs). exact E2.
      * split.
        -- intros m i Hm Hi. destruct (Nat.eq_dec m n) as [->|]; [now apply A2|]. rewrite B2 by lia. apply H1; lia.
        -- intros p Hp. rewrite B2 by lia. now apply H2.
    + exists g1. split; [exact E1|]. intros r' n i Hr' Hn Hi. destruct (Nat.eq_dec r' r) as [->|]; [now apply H1|]. rewrite H2 by nia. apply Hg; lia.
  - exists xyg. split; [exact E|exact H].
Qed.
