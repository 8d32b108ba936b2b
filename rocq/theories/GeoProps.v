(** C27, C28, C46: 3x3 inverse, barycentric coordinates, element geometry, normals. *)
From Verif Require Import Prelude RSum GeoModel GeoSpec GeoProofs GeoProofs2.
Local Open Scope R_scope.

(** *** C27 *)
Theorem C27_inverse : forall m mo inv io, (mo + 9 <= length m)%nat -> (io + 9 <= length inv)%nat ->
  exists det inv', inverse3x3 m mo inv io = Some (det, inv') /\ length inv' = length inv /\ det = det3 (at3 m mo) /\
    (det <> 0 -> inverse_of (at3 m mo) (at3 inv' io)) /\
    (forall p, (p < io \/ io + 9 <= p)%nat -> nth p inv' 0 = nth p inv 0).
Proof.
  intros m mo inv io Hm Hi.
  destruct (inverse3x3_ok (length m) (fun i => nth i m 0) mo (length inv) (fun i => nth i inv 0) io Hm Hi) as (b & E & H1 & H2). rewrite <- (list_arr 0 m), <- (list_arr 0 inv) in E.
  rewrite E. eexists _, _. split; [reflexivity|]. rewrite arr_length. split; [reflexivity|]. split; [reflexivity|].
  assert (Hn : forall p, nth p (arr (length inv) b) 0 = if (p <? length inv)%nat then b p else 0).
  { intros p. destruct (Nat.ltb_spec p (length inv)) as [L|L]; [|rewrite nth_overflow; [reflexivity|rewrite arr_length; lia]].
    pose proof (rd_arr (length inv) b p L) as Er. unfold rd in Er. now rewrite (nth_error_nth _ _ _ Er). }
  split.
  - intros Hd. apply cof_inverse; [exact Hd|]. intros i j Hi' Hj'. unfold at3 at 1. rewrite Hn. destruct (Nat.ltb_spec (io + (i + 3 * j)) (length inv)); [|lia]. now apply H1.
  - intros p Hp. rewrite Hn. destruct (Nat.ltb_spec p (length inv)) as [L|L]; [now apply H2|]. now rewrite nth_overflow.
Qed.
Print Assumptions C27_inverse.
Example C27_ex : det3 (at3 [2; 0; 1; 0; 3; 0; 1; 0; 1] 0) = 3 /\ exists inv, inverse3x3 [2; 0; 1; 0; 3; 0; 1; 0; 1] 0 (repeat 7 9) 0 = Some (3, inv) /\ nth 6 inv 0 = -1.
Proof.
  split; [unfold det3, at3; cbn; ring|]. unfold inverse3x3, ent3, for_. cbn -[Rmult Rplus Rminus Rdiv IZR]. eexists. split; [f_equal; f_equal; ring|]. cbn -[Rmult Rplus Rminus Rdiv IZR]. field.
Qed.

(** *** C28 *)
(** Coordinates computed from the vertices: for every point n of the list X. *)
Theorem C28_barycentric : forall x X XYL, nondegenerate x -> (length X / 3 <= length XYL / 4)%nat ->
  exists W, bary_coord (map (x 0%nat) [0; 1; 2]%nat) (map (x 1%nat) [0; 1; 2]%nat) (map (x 2%nat) [0; 1; 2]%nat) (map (x 3%nat) [0; 1; 2]%nat) X XYL = Some W /\ length W = length XYL /\
    forall n, (n < length X / 3)%nat -> barycentric x (fun i => nth (i + n * 3) X 0) (fun k => nth (4 * n + k) W 0).
Proof.
  intros x X XYL Hnd Hsz.
  destruct (bary_coord_ok x (fun i => nth i X 0) (length X) (length XYL) (fun i => nth i XYL 0) Hnd Hsz) as (W & E & H). rewrite <- (list_arr 0 X), <- (list_arr 0 XYL) in E.
  exists (arr (length XYL) W). split; [exact E|]. split; [apply arr_length|]. intros n Hn. destruct (H n Hn) as [A B].
  assert (Hl : (4 * (length XYL / 4) <= length XYL)%nat) by (apply Nat.mul_div_le; lia).
  assert (Hw : forall k, (k < 4)%nat -> nth (4 * n + k) (arr (length XYL) W) 0 = W (4 * n + k)%nat).
  { intros k Hk. pose proof (rd_arr (length XYL) W (4 * n + k) ltac:(lia)) as Er. unfold rd in Er. now rewrite (nth_error_nth _ _ _ Er). }
  split; [cbn [Rsum] in *; rewrite !Hw by lia; exact A|]. intros i Hi. specialize (B i Hi). cbn [Rsum] in *. rewrite !Hw by lia. exact B.
Qed.
Print Assumptions C28_barycentric.
(** The same with the prepared inverse of the edge matrix. *)
Theorem C28_barycentric_psi : forall x X XYL PSI, length PSI = 9%nat -> inverse_of (edge_matrix x) (at3 PSI 0) -> (length X / 3 <= length XYL / 4)%nat ->
  exists W, bary_coord_psi (map (x 0%nat) [0; 1; 2]%nat) X XYL PSI = Some W /\ length W = length XYL /\
    forall n, (n < length X / 3)%nat -> barycentric x (fun i => nth (i + 3 * n) X 0) (fun k => nth (4 * n + k) W 0).
Proof.
  intros x X XYL PSI Hp Hinv Hsz.
  destruct (bary_coord_psi_ok x (fun i => nth i X 0) (fun i => nth i PSI 0) (length X) (length XYL) (fun i => nth i XYL 0) Hinv Hsz) as (W & E & H). rewrite <- Hp in E. rewrite <- (list_arr 0 X), <- (list_arr 0 XYL), <- (list_arr 0 PSI) in E.
  exists (arr (length XYL) W). split; [exact E|]. split; [apply arr_length|]. intros n Hn. destruct (H n Hn) as [A B].
  assert (Hl : (4 * (length XYL / 4) <= length XYL)%nat) by (apply Nat.mul_div_le; lia).
  assert (Hw : forall k, (k < 4)%nat -> nth (4 * n + k) (arr (length XYL) W) 0 = W (4 * n + k)%nat).
  { intros k Hk. pose proof (rd_arr (length XYL) W (4 * n + k) ltac:(lia)) as Er. unfold rd in Er. now rewrite (nth_error_nth _ _ _ Er). }
  split; [cbn [Rsum] in *; rewrite !Hw by lia; exact A|]. intros i Hi. specialize (B i Hi). cbn [Rsum] in *. rewrite !Hw by lia. exact B.
Qed.
Print Assumptions C28_barycentric_psi.

(** Geometric data of f elements: edges, determinant, volume, inverse of the edge matrix, and
    the quadrature points. *)
Lemma nth_arr : forall n (f : nat -> R) i, (i < n)%nat -> nth i (arr n f) 0 = f i.
Proof. intros n f i H. pose proof (rd_arr n f i H) as E. unfold rd in E. now rewrite (nth_error_nth _ _ _ E). Qed.
Theorem C28_element : forall f XY0 XY1 XY2 XY3 g, (12 * f <= length (g_xyp g))%nat -> (9 * f <= length (g_psi g))%nat -> (f <= length (g_det g))%nat -> (f <= length (g_mes g))%nat ->
  exists g', geom_init_tet f XY0 XY1 XY2 XY3 g = Some g' /\ length (g_xyp g') = length (g_xyp g) /\ length (g_psi g') = length (g_psi g) /\ length (g_det g') = length (g_det g) /\ length (g_mes g') = length (g_mes g) /\
    forall r, (r < f)%nat -> let x := tet_of XY0 XY1 XY2 XY3 r in
      (forall k i, (k < 4)%nat -> (i < 3)%nat -> nth (i + 3 * k + 12 * r) (g_xyp g') 0 = x k i - x 0%nat i) /\
      nth r (g_det g') 0 = det3 (edge_matrix x) /\ nth r (g_mes g') 0 = Rabs (det3 (edge_matrix x)) / 6 /\
      (nondegenerate x -> inverse_of (edge_matrix x) (at3 (g_psi g') (9 * r))).
Proof.
  intros f XY0 XY1 XY2 XY3 [a b c d] H1 H2 H3 H4. cbn [g_xyp g_psi g_det g_mes] in *.
  destruct (geom_init_tet_ok f XY0 XY1 XY2 XY3 _ _ _ _ (fun i => nth i a 0) (fun i => nth i b 0) (fun i => nth i c 0) (fun i => nth i d 0) H1 H2 H3 H4) as (xyp & psi & det & mes & E & H). rewrite <- (list_arr 0 a), <- (list_arr 0 b), <- (list_arr 0 c), <- (list_arr 0 d) in E.
  eexists. split; [exact E|]. cbn [g_xyp g_psi g_det g_mes]. rewrite !arr_length.
 do 4 (split; [reflexivity|]). intros r Hr. set (x := tet_of XY0 XY1 XY2 XY3 r). destruct (H r Hr) as (A & B & C & D). fold x in A, B, C, D.
  split; [|split; [|split]].
  - intros k i Hk Hi. rewrite nth_arr by lia. now apply A.
  - rewrite nth_arr by lia. exact B.
  - rewrite nth_arr by lia. exact C.
  - intros Hnd i j Hi Hj. unfold at3. cbn [Rsum]. rewrite !nth_arr by lia. exact (D Hnd i j Hi Hj).
Qed.
Print Assumptions C28_element.
Theorem C28_points : forall q f XY0 (x : nat -> nat -> nat -> R) xyl xyp xyg, (4 * q <= length xyl)%nat -> (12 * f <= length xyp)%nat -> (3 * (q * f) <= length xyg)%nat ->
  (forall r i, (r < f)%nat -> (i < 3)%nat -> x r 0%nat i = XY0 i r) ->
  (forall r k i, (r < f)%nat -> (k < 4)%nat -> (i < 3)%nat -> nth (i + 3 * k + 12 * r) xyp 0 = x r k i - x r 0%nat i) ->
  (forall n, (n < q)%nat -> Rsum 4 (fun k => nth (k + 4 * n) xyl 0) = 1) ->
  exists xyg', geom_init_xyg q f XY0 xyl xyp xyg = Some xyg' /\ length xyg' = length xyg /\
    forall r n i, (r < f)%nat -> (n < q)%nat -> (i < 3)%nat -> nth (i + 3 * (n + q * r)) xyg' 0 = Rsum 4 (fun k => nth (k + 4 * n) xyl 0 * x r k i).
Proof.
  intros q f XY0 x xyl xyp xyg H1 H2 H3 H4 H5 H6.
  destruct (geom_init_xyg_ok q f XY0 x _ _ _ (fun i => nth i xyl 0) (fun i => nth i xyp 0) (fun i => nth i xyg 0) H1 H2 H3 H4 H5 H6) as (g & E & H). rewrite <- (list_arr 0 xyl), <- (list_arr 0 xyp), <- (list_arr 0 xyg) in E.
  exists (arr (length xyg) g). split; [exact E|]. split; [apply arr_length|]. intros r n i Hr Hn Hi. rewrite nth_arr by nia. now apply H.
Qed.
Print Assumptions C28_points.
(* reference tetrahedron and the point (1/2, 1/4, 1/8) *)
Example C28_ex : nondegenerate (fun k i => if (k =? S i)%nat then 1 else 0) /\
  barycentric (fun k i => if (k =? S i)%nat then 1 else 0) (fun i => nth i [1/2; 1/4; 1/8] 0) (fun k => nth k [1/8; 1/2; 1/4; 1/8] 0).
Proof.
  split; [unfold nondegenerate, det3, edge_matrix; cbn; lra|]. split; [cbn; lra|]. intros i Hi. destruct i as [|[|[|i]]]; [| | |lia]; cbn; lra.
Qed.

(** *** C46 *)
Lemma sqrt_pos' : forall x, 0 < x -> 0 < sqrt x.
Proof. intros. now apply sqrt_lt_R0. Qed.
(** Outward unit normal and area of the face p0 p1 p2 of a tetrahedron with fourth vertex p3. *)
Theorem C46_face_normal : forall p0 p1 p2 p3 area n, face_normal p0 p1 p2 p3 = (area, n) -> gram2 p0 p1 p2 <> 0 ->
  area = sqrt (gram2 p0 p1 p2) / 2 /\ 0 < area /\ dot (co n) (co n) = 1 /\ dot (co n) (diff p1 p0) = 0 /\ dot (co n) (diff p2 p0) = 0 /\
  2 * area * dot (co n) (diff p3 p0) = - Rabs (tetdet p0 p1 p2 p3).
Proof.
  intros [[a0 a1] a2] [[b0 b1] b2] [[c0 c1] c2] [[d0 d1] d2] area n H Hg. unfold face_normal in H. cbn [vsub cross vdot] in H.
  set (n0 := (b1 - a1) * (c2 - a2) - (b2 - a2) * (c1 - a1)) in H. set (n1 := - (b0 - a0) * (c2 - a2) + (b2 - a2) * (c0 - a0)) in H. set (n2 := (b0 - a0) * (c1 - a1) - (b1 - a1) * (c0 - a0)) in H.
  assert (Hgr : gram2 (a0, a1, a2) (b0, b1, b2) (c0, c1, c2) = n0 * n0 + n1 * n1 + n2 * n2) by (unfold gram2, dot, diff, co, n0, n1, n2; cbn; ring).
  rewrite Hgr in *. set (S := n0 * n0 + n1 * n1 + n2 * n2) in *. assert (HS : 0 < S) by (assert (0 <= S) by (unfold S; nra); lra).
  pose proof (sqrt_pos' S HS) as Hl. pose proof (sqrt_sqrt S ltac:(lra)) as Hq. set (len := sqrt S) in *.
  assert (Hdet : tetdet (a0, a1, a2) (b0, b1, b2) (c0, c1, c2) (d0, d1, d2) = n0 * (d0 - a0) + n1 * (d1 - a1) + n2 * (d2 - a2)) by (unfold tetdet, det3, diff, co, n0, n1, n2; cbn; ring).
  rewrite Hdet. assert (O1 : n0 * (b0 - a0) + n1 * (b1 - a1) + n2 * (b2 - a2) = 0) by (unfold n0, n1, n2; ring). assert (O2 : n0 * (c0 - a0) + n1 * (c1 - a1) + n2 * (c2 - a2) = 0) by (unfold n0, n1, n2; ring).
  assert (E1 : forall s, s * s = 1 -> (n0 / (s * len)) * (n0 / (s * len)) + (n1 / (s * len)) * (n1 / (s * len)) + (n2 / (s * len)) * (n2 / (s * len)) = 1).
  { intros s Hs. assert (s <> 0) by (intros ->; lra). replace _ with (S / ((s * s) * (len * len))) by (unfold S; field; split; lra). rewrite Hs, Hq. field. lra. }
  assert (E2 : forall s x y z, s <> 0 -> (n0 / (s * len)) * x + (n1 / (s * len)) * y + (n2 / (s * len)) * z = (n0 * x + n1 * y + n2 * z) / (s * len)) by (intros; field; split; lra).
  destruct (Rlt_dec 0 (n0 * (d0 - a0) + n1 * (d1 - a1) + n2 * (d2 - a2))) as [L|L]; injection H as <- <-; (split; [reflexivity|]); (split; [lra|]); unfold dot, diff, co; cbn [Rsum fst snd]; rewrite !Rplus_0_l.
  - replace (- len) with ((-1) * len) by ring. rewrite E1 by ring. rewrite !E2 by lra. rewrite O1, O2. split; [reflexivity|]. split; [field; lra|]. split; [field; lra|]. rewrite Rabs_right by lra. field. lra.
  - rewrite <- (Rmult_1_l len). rewrite E1 by ring. rewrite !E2 by lra. rewrite O1, O2. split; [reflexivity|]. split; [field; lra|]. split; [field; lra|]. rewrite Rabs_left1 by lra. field. lra.
Qed.
Print Assumptions C46_face_normal.
Theorem C46_area : forall p0 p1 p2, tri_area p0 p1 p2 = sqrt (gram2 p0 p1 p2) / 2.
Proof.
  intros [[a0 a1] a2] [[b0 b1] b2] [[c0 c1] c2]. unfold tri_area. f_equal. f_equal. unfold gram2, dot, diff, co, cross3, cross, vsub, sqlen. cbn. ring.
Qed.
Print Assumptions C46_area.
Lemma gram_zero : forall a b c d, gram2 a b c = 0 -> tetdet a b c d = 0.
Proof.
  intros [[a0 a1] a2] [[b0 b1] b2] [[c0 c1] c2] [[d0 d1] d2] H.
  assert (Hgr : gram2 (a0, a1, a2) (b0, b1, b2) (c0, c1, c2) =
     Rsqr ((b1 - a1) * (c2 - a2) - (b2 - a2) * (c1 - a1)) + (Rsqr ((b2 - a2) * (c0 - a0) - (b0 - a0) * (c2 - a2)) + Rsqr ((b0 - a0) * (c1 - a1) - (b1 - a1) * (c0 - a0)))) by (unfold gram2, dot, diff, co, Rsqr; cbn; ring).
  rewrite H in Hgr. symmetry in Hgr. destruct (Rplus_eq_R0 _ _ (Rle_0_sqr _) (Rplus_le_le_0_compat _ _ (Rle_0_sqr _) (Rle_0_sqr _)) Hgr) as [Z0 Z].
  destruct (Rplus_eq_R0 _ _ (Rle_0_sqr _) (Rle_0_sqr _) Z) as [Z1 Z2]. apply Rsqr_0_uniq in Z0, Z1, Z2.
  transitivity ((d0 - a0) * ((b1 - a1) * (c2 - a2) - (b2 - a2) * (c1 - a1)) + (d1 - a1) * ((b2 - a2) * (c0 - a0) - (b0 - a0) * (c2 - a2)) + (d2 - a2) * ((b0 - a0) * (c1 - a1) - (b1 - a1) * (c0 - a0))).
  - unfold tetdet, det3, diff, co. cbn. ring.
  - rewrite Z0, Z1, Z2. ring.
Qed.
(** The direction is a positive multiple of the unit normal; both take the face opposite to vertex i. *)
Theorem C46_direction : forall x i, (i < 4)%nat -> tetdet (x 0%nat) (x 1%nat) (x 2%nat) (x 3%nat) <> 0 ->
  exists c, 0 < c /\ forall k, (k < 3)%nat -> co (normal_direction x i) k = c * co (normal x i) k.
Proof.
  intros x i Hi Hd. unfold normal_direction, normal, face_normal.
  assert (Hg : gram2 (x ((i + 1) mod 4)%nat) (x ((i + 2) mod 4)%nat) (x ((i + 3) mod 4)%nat) <> 0).
  { intros Hg. apply Hd. pose proof (gram_zero _ _ _ (x (i mod 4)%nat) Hg) as Q. destruct i as [|[|[|[|i]]]]; [| | | |lia]; cbn [Nat.modulo Nat.divmod fst snd Nat.sub Nat.add] in Q; revert Q;
    destruct (x 0%nat) as [[a0 a1] a2], (x 1%nat) as [[b0 b1] b2], (x 2%nat) as [[c0 c1] c2], (x 3%nat) as [[d0 d1] d2]; unfold tetdet, det3, diff, co; cbn [fst snd]; intros Q; lra. }
  revert Hg. generalize (x ((i + 1) mod 4)%nat) (x ((i + 2) mod 4)%nat) (x ((i + 3) mod 4)%nat) (x (i mod 4)%nat). clear.
  intros [[a0 a1] a2] [[b0 b1] b2] [[c0 c1] c2] [[d0 d1] d2] Hg. cbn [vsub cross vdot].
  set (n0 := (b1 - a1) * (c2 - a2) - (b2 - a2) * (c1 - a1)) in *. set (n1 := - (b0 - a0) * (c2 - a2) + (b2 - a2) * (c0 - a0)) in *. set (n2 := (b0 - a0) * (c1 - a1) - (b1 - a1) * (c0 - a0)) in *.
  assert (Hgr : gram2 (a0, a1, a2) (b0, b1, b2) (c0, c1, c2) = n0 * n0 + n1 * n1 + n2 * n2) by (unfold gram2, dot, diff, co, n0, n1, n2; cbn; ring).
  rewrite Hgr in *. set (S := n0 * n0 + n1 * n1 + n2 * n2) in *. assert (HS : 0 < S) by (assert (0 <= S) by (unfold S; nra); lra).
  pose proof (sqrt_pos' S HS) as Hl. exists (sqrt S). split; [exact Hl|]. intros k Hk.
  destruct (Rlt_dec 0 _) as [L|L]; destruct k as [|[|[|k]]]; try lia; cbn [co fst snd]; field; lra.
Qed.
Print Assumptions C46_direction.
(** The area-weighted outward normals of the four faces sum to zero. *)
Theorem C46_closed : forall x k, (k < 3)%nat -> tetdet (x 0%nat) (x 1%nat) (x 2%nat) (x 3%nat) <> 0 ->
  Rsum 4 (fun i => co (normal_direction x i) k) = 0.
Proof.
  intros x k Hk Hd. cbn [Rsum]. unfold normal_direction. cbn [Nat.modulo Nat.divmod fst snd Nat.sub Nat.add].
  destruct (x 0%nat) as [[a0 a1] a2], (x 1%nat) as [[b0 b1] b2], (x 2%nat) as [[c0 c1] c2], (x 3%nat) as [[d0 d1] d2]. unfold tetdet, det3, diff, co in Hd. cbn [fst snd] in Hd.
  match type of Hd with ?e <> 0 => set (D := e) in Hd end. cbn [vsub cross vdot].
  repeat match goal with |- context [Rlt_dec 0 ?v] => lazymatch v with D => fail | - D => fail | _ =>
    first [assert (Ev : v = D) by (unfold D; ring) | assert (Ev : v = - D) by (unfold D; ring)]; destruct (Rlt_dec 0 v); rewrite Ev in *; clear Ev end end;
  try lra; destruct k as [|[|[|k]]]; try lia; cbn [co fst snd]; ring.
Qed.
Print Assumptions C46_closed.
Theorem C46_centroid : forall x i, (i < 3)%nat -> co (centroid x) i = combine (fun _ => 1 / 4) x i.
Proof. intros x i Hi. unfold centroid, combine. destruct i as [|[|[|i]]]; [| | |lia]; cbn; field. Qed.
Print Assumptions C46_centroid.

(** The diameter bounds the distance of any two points of the tetrahedron and is attained at
    two vertices. *)
Lemma jensen : forall w a c, weights w -> (Rsum 4 (fun k => w k * a k) - c) * (Rsum 4 (fun k => w k * a k) - c) <= Rsum 4 (fun k => w k * ((a k - c) * (a k - c))).
Proof.
  intros w a c [Hs Hp]. set (m := Rsum 4 (fun k => w k * a k)).
  assert (H : Rsum 4 (fun k => w k * ((a k - c) * (a k - c))) - (m - c) * (m - c) = Rsum 4 (fun k => w k * ((a k - m) * (a k - m)))).
  { unfold m. cbn [Rsum] in *. replace (w 3%nat) with (1 - (0 + w 0%nat + w 1%nat + w 2%nat)) by lra. ring. }
  assert (Hn : 0 <= Rsum 4 (fun k => w k * ((a k - m) * (a k - m)))).
  { assert (Q : forall k, (k < 4)%nat -> 0 <= w k * ((a k - m) * (a k - m))) by (intros k Hk; apply Rmult_le_pos; [now apply Hp|exact (Rle_0_sqr (a k - m))]). cbn [Rsum]. clearbody m. pose proof (Q 0%nat ltac:(lia)). pose proof (Q 1%nat ltac:(lia)). pose proof (Q 2%nat ltac:(lia)). pose proof (Q 3%nat ltac:(lia)). lra. }
  rewrite <- H in Hn. apply Rge_le, Rminus_ge, Rle_ge. exact Hn.
Qed.
Lemma wavg : forall w b D, weights w -> (forall k, (k < 4)%nat -> b k <= D) -> Rsum 4 (fun k => w k * b k) <= D.
Proof.
  intros w b D [Hs Hp] H. assert (Q : forall k, (k < 4)%nat -> w k * b k <= w k * D) by (intros k Hk; apply Rmult_le_compat_l; auto).
  cbn [Rsum] in *. pose proof (Q 0%nat ltac:(lia)). pose proof (Q 1%nat ltac:(lia)). pose proof (Q 2%nat ltac:(lia)). pose proof (Q 3%nat ltac:(lia)). nra.
Qed.
Lemma fold_max : forall l a, (forall x, In x (a :: l) -> x <= fold_left Rmax l a) /\ In (fold_left Rmax l a) (a :: l).
Proof.
  induction l as [|b l IH]; intros a; cbn [fold_left].
  - split; [intros x [<-|[]]; lra|now left].
  - destruct (IH (Rmax a b)) as [H1 H2]. split.
    + intros x [<-|[<-|H]]; [| |apply H1; now right].
      * apply Rle_trans with (Rmax a b); [apply Rmax_l|apply H1; now left].
      * apply Rle_trans with (Rmax a b); [apply Rmax_r|apply H1; now left].
    + destruct H2 as [H2|H2]; [|right; now right]. rewrite <- H2. unfold Rmax. destruct (Rle_dec a b); [right; now left|now left].
Qed.
Lemma len2_pos : forall p q, 0 <= len2 p q.
Proof.
  intros [[a b] c] [[x y] z]. unfold len2, sqlen, vsub. pose proof (Rle_0_sqr (x - a)) as H1. pose proof (Rle_0_sqr (y - b)) as H2. pose proof (Rle_0_sqr (z - c)) as H3.
  unfold Rsqr in *. lra.
Qed.
Theorem C46_diameter : forall x u v, weights u -> weights v ->
  sqrt (Rsum 3 (fun i => (combine u x i - combine v x i) * (combine u x i - combine v x i))) <= diameter x.
Proof.
  intros x u v Hu Hv. unfold diameter. apply sqrt_le_1_alt.
  set (l := [len2 (x 0%nat) (x 2%nat); len2 (x 0%nat) (x 3%nat); len2 (x 1%nat) (x 2%nat); len2 (x 1%nat) (x 3%nat); len2 (x 2%nat) (x 3%nat)]). set (a := len2 (x 0%nat) (x 1%nat)).
  destruct (fold_max l a) as [Hm _]. set (D := fold_left Rmax l a) in *.
  assert (Hd : forall j k, (j < 4)%nat -> (k < 4)%nat -> Rsum 3 (fun i => (co (x j) i - co (x k) i) * (co (x j) i - co (x k) i)) <= D).
  { assert (Hsym : forall j k, Rsum 3 (fun i => (co (x j) i - co (x k) i) * (co (x j) i - co (x k) i)) = len2 (x j) (x k)) by (intros j k; unfold len2, sqlen, vsub; destruct (x j) as [[? ?] ?], (x k) as [[? ?] ?]; cbn; ring).
    assert (Hsym2 : forall j k, len2 (x j) (x k) = len2 (x k) (x j)) by (intros j k; unfold len2, sqlen, vsub; destruct (x j) as [[? ?] ?], (x k) as [[? ?] ?]; cbn; ring).
    assert (H0 : forall j, len2 (x j) (x j) <= D) by (intros j; replace (len2 (x j) (x j)) with 0 by (unfold len2, sqlen, vsub; destruct (x j) as [[? ?] ?]; cbn; ring); apply Rle_trans with a; [apply len2_pos|apply Hm; now left]).
    intros j k Hj Hk. rewrite Hsym. destruct j as [|[|[|[|j]]]]; try lia; (destruct k as [|[|[|[|k]]]]; try lia); try apply H0; first [apply Hm; unfold l, a; cbn [In]; tauto | rewrite Hsym2; apply Hm; unfold l, a; cbn [In]; tauto]. }
  apply Rle_trans with (Rsum 4 (fun j => u j * Rsum 3 (fun i => (co (x j) i - combine v x i) * (co (x j) i - combine v x i)))).
  - rewrite (Rsum_ext 4 _ (fun j => Rsum 3 (fun i => u j * ((co (x j) i - combine v x i) * (co (x j) i - combine v x i))))) by (intros j Hj; symmetry; apply Rsum_scal).
    rewrite Rsum_swap. assert (Q : forall i, (combine u x i - combine v x i) * (combine u x i - combine v x i) <= Rsum 4 (fun j => u j * ((co (x j) i - combine v x i) * (co (x j) i - combine v x i)))) by (intros i; apply jensen; exact Hu).
    pose proof (Q 0%nat). pose proof (Q 1%nat). pose proof (Q 2%nat). unfold Rsum at 1 2. fold (Rsum 4). lra.
  - apply wavg; [exact Hu|]. intros j Hj.
    apply Rle_trans with (Rsum 4 (fun k => v k * Rsum 3 (fun i => (co (x k) i - co (x j) i) * (co (x k) i - co (x j) i)))).
    + rewrite (Rsum_ext 4 _ (fun k => Rsum 3 (fun i => v k * ((co (x k) i - co (x j) i) * (co (x k) i - co (x j) i))))) by (intros k Hk; symmetry; apply Rsum_scal).
      rewrite Rsum_swap. assert (Q : forall i, (co (x j) i - combine v x i) * (co (x j) i - combine v x i) <= Rsum 4 (fun k => v k * ((co (x k) i - co (x j) i) * (co (x k) i - co (x j) i)))).
      { intros i. pose proof (jensen v (fun k => co (x k) i) (co (x j) i) Hv) as J. fold (combine v x i) in J. replace ((co (x j) i - combine v x i) * (co (x j) i - combine v x i)) with ((combine v x i - co (x j) i) * (combine v x i - co (x j) i)) by ring. exact J. }
      pose proof (Q 0%nat). pose proof (Q 1%nat). pose proof (Q 2%nat). unfold Rsum at 1 2. fold (Rsum 4). lra.
    + apply wavg; [exact Hv|]. intros k Hk. now apply Hd.
Qed.
Print Assumptions C46_diameter.
Theorem C46_diameter_attained : forall x, exists j k, (j < 4)%nat /\ (k < 4)%nat /\ diameter x = sqrt (dot (diff (x j) (x k)) (diff (x j) (x k))).
Proof.
  intros x. unfold diameter. match goal with |- context [fold_left Rmax ?l ?a] => destruct (fold_max l a) as [_ H]; set (D := fold_left Rmax l a) in * end.
  assert (Hs : forall j k, len2 (x j) (x k) = dot (diff (x k) (x j)) (diff (x k) (x j))) by (intros j k; unfold len2, sqlen, vsub, dot, diff; destruct (x j) as [[? ?] ?], (x k) as [[? ?] ?]; cbn; ring).
  cbn [In] in H. destruct H as [H|[H|[H|[H|[H|[H|[]]]]]]]; rewrite <- H, Hs; eexists _, _; (split; [|split; [|reflexivity]]); lia.
Qed.
Print Assumptions C46_diameter_attained.
Example C46_ex : tetdet (0, 0, 0) (1, 0, 0) (0, 1, 0) (0, 0, 1) <> 0 /\ gram2 (0, 0, 0) (1, 0, 0) (0, 1, 0) = 1 /\ weights (fun k => if (k <? 2)%nat then 1 / 2 else 0).
Proof.
  split; [unfold tetdet, det3, diff, co; cbn; lra|]. split; [unfold gram2, dot, diff, co; cbn; lra|]. split; [cbn; lra|]. intros k Hk. destruct (k <? 2)%nat; lra.
Qed.
