From Verif Require Import Prelude MeshModel MeshSpec MeshProofs MeshProofs2.
From Coq Require Import Reals ZArith Lia Lra Permutation.
Open Scope R_scope.

(** *** The piecewise linear function that is one at a node of the grid and zero at the
    others, in units of the grid *)
Definition hat (x y z : R) : R := Rmax 0 (1 - Rmax 0 (Rmax x (Rmax (x - y) z)) + Rmin 0 (Rmin x (Rmin (x - y) z))).

Lemma hat_val : forall x y z M m, 0 <= 1 - M + m ->
  0 <= M -> x <= M -> x - y <= M -> z <= M -> (M = 0 \/ M = x \/ M = x - y \/ M = z) ->
  m <= 0 -> m <= x -> m <= x - y -> m <= z -> (m = 0 \/ m = x \/ m = x - y \/ m = z) -> hat x y z = 1 - M + m.
Proof.
  intros x y z M m H0 H1 H2 H3 H4 HM G1 G2 G3 G4 Hm.
  assert (EM : Rmax 0 (Rmax x (Rmax (x - y) z)) = M).
  { apply Rle_antisym; [repeat apply Rmax_lub; assumption|].
    destruct HM as [-> | [-> | [-> | ->]]]; [apply Rmax_l|..]; (eapply Rle_trans; [|apply Rmax_r]); [apply Rmax_l|..]; (eapply Rle_trans; [|apply Rmax_r]); [apply Rmax_l|apply Rmax_r]. }
  assert (Em : Rmin 0 (Rmin x (Rmin (x - y) z)) = m).
  { apply Rle_antisym; [|repeat apply Rmin_glb; assumption].
    destruct Hm as [-> | [-> | [-> | ->]]]; [apply Rmin_l|..]; (eapply Rle_trans; [apply Rmin_r|]); [apply Rmin_l|..]; (eapply Rle_trans; [apply Rmin_r|]); [apply Rmin_l|apply Rmin_r]. }
  unfold hat. rewrite EM, Em. apply Rmax_right. exact H0.
Qed.
Lemma hat_pos : forall x y z, 0 < hat x y z -> forall a b, In a [0; x; x - y; z] -> In b [0; x; x - y; z] -> a - b < 1.
Proof.
  intros x y z H a b Ha Hb. unfold hat in H.
  remember (Rmax 0 (Rmax x (Rmax (x - y) z))) as M. remember (Rmin 0 (Rmin x (Rmin (x - y) z))) as m.
  assert (HM : a <= M).
  { rewrite HeqM. cbn in Ha. destruct Ha as [<-|[<-|[<-|[<-|[]]]]]; [apply Rmax_l|..]; (eapply Rle_trans; [|apply Rmax_r]); [apply Rmax_l|..]; (eapply Rle_trans; [|apply Rmax_r]); [apply Rmax_l|apply Rmax_r]. }
  assert (Hm : m <= b).
  { rewrite Heqm. cbn in Hb. destruct Hb as [<-|[<-|[<-|[<-|[]]]]]; [apply Rmin_l|..]; (eapply Rle_trans; [apply Rmin_r|]); [apply Rmin_l|..]; (eapply Rle_trans; [apply Rmin_r|]); [apply Rmin_l|apply Rmin_r]. }
  unfold Rmax in H. destruct (Rle_dec 0 (1 - M + m)); lra.
Qed.
Lemma hat_nonneg : forall x y z, 0 <= hat x y z.
Proof. intros. apply Rmax_l. Qed.

(** Weights of the vertices of one of the six *)
Definition lsum (f : nat -> R) (v : list nat) (w : list R) : R := fold_right (fun q s => snd q * f (fst q) + s) 0 (List.combine v w).
Definition fx (n : nat) : R := IZR (cx n).
Definition fy (n : nat) : R := IZR (cy n).
Definition fz (n : nat) : R := IZR (cz n).

Ltac four w Lw := destruct w as [|w0 [|w1 [|w2 [|w3 [|w4 w]]]]]; cbn in Lw; try discriminate Lw.
Ltac tet6 Hv := cbn in Hv; destruct Hv as [<-|[<-|[<-|[<-|[<-|[<-|[]]]]]]].
Ltac side := first [lra | left; lra | right; left; lra | right; right; left; lra | right; right; right; lra].

Lemma hat_vertex : forall v w x y z, In v tets -> length w = 4%nat -> (forall a, In a w -> 0 <= a) ->
  lsum (fun _ => 1) v w = 1 -> x = lsum fx v w -> y = lsum fy v w -> z = lsum fz v w ->
  forall n a, In (n, a) (List.combine v w) -> hat (x - fx n) (y - fy n) (z - fz n) = a.
Proof.
  intros v w x y z Hv Lw Hw H1 Hx Hy Hz n a Hn. four w Lw.
  assert (W0 : 0 <= w0) by (apply Hw; cbn; auto). assert (W1 : 0 <= w1) by (apply Hw; cbn; auto).
  assert (W2 : 0 <= w2) by (apply Hw; cbn; auto). assert (W3 : 0 <= w3) by (apply Hw; cbn; auto).
  tet6 Hv; unfold lsum, fx, fy, fz, cx, cy, cz in *; cbn in H1, Hx, Hy, Hz, Hn;
  repeat (destruct Hn as [Hn|Hn]; [injection Hn as <- <-|]); try contradiction; cbn;
  match goal with |- hat ?a ?b ?c = ?r =>
    first [ solve [rewrite (hat_val a b c 0 (r - 1)); side] | solve [rewrite (hat_val a b c a (r - 1 + a)); side]
          | solve [rewrite (hat_val a b c (a - b) (r - 1 + (a - b))); side] | solve [rewrite (hat_val a b c c (r - 1 + c)); side] ] end.
Qed.
Lemma unit_int : forall m x, 0 <= x <= 1 -> x - IZR m < 1 -> IZR m - x < 1 -> m = 0%Z \/ m = 1%Z.
Proof.
  intros m x Hx H1 H2. assert (A : IZR (-1) < IZR m) by (change (IZR (-1)) with (-1); lra). assert (B : IZR m < IZR 2) by (change (IZR 2) with 2; lra).
  apply lt_IZR in A, B. lia.
Qed.
Lemma hat_other : forall v w x y z m1 m2 m3, In v tets -> length w = 4%nat -> (forall a, In a w -> 0 <= a) ->
  lsum (fun _ => 1) v w = 1 -> x = lsum fx v w -> y = lsum fy v w -> z = lsum fz v w ->
  0 < hat (x - IZR m1) (y - IZR m2) (z - IZR m3) -> exists n, In n v /\ m1 = cx n /\ m2 = cy n /\ m3 = cz n.
Proof.
  intros v w x y z m1 m2 m3 Hv Lw Hw H1 Hx Hy Hz H. four w Lw.
  assert (W0 : 0 <= w0) by (apply Hw; cbn; auto). assert (W1 : 0 <= w1) by (apply Hw; cbn; auto).
  assert (W2 : 0 <= w2) by (apply Hw; cbn; auto). assert (W3 : 0 <= w3) by (apply Hw; cbn; auto).
  pose proof (hat_pos _ _ _ H) as D. set (du := x - IZR m1) in *. set (dv := x - IZR m1 - (y - IZR m2)) in *. set (dw := z - IZR m3) in *.
  pose proof (D 0 du ltac:(cbn; auto) ltac:(cbn; auto)). pose proof (D du 0 ltac:(cbn; auto) ltac:(cbn; auto)).
  pose proof (D 0 dw ltac:(cbn; auto) ltac:(cbn; auto)). pose proof (D dw 0 ltac:(cbn; auto) ltac:(cbn; auto)).
  pose proof (D 0 dv ltac:(cbn; auto) ltac:(cbn; auto)). pose proof (D dv 0 ltac:(cbn; auto) ltac:(cbn; auto)).
  pose proof (D du dv ltac:(cbn; auto) ltac:(cbn; auto)). pose proof (D dv du ltac:(cbn; auto) ltac:(cbn; auto)).
  pose proof (D dw dv ltac:(cbn; auto) ltac:(cbn; auto)). pose proof (D dv dw ltac:(cbn; auto) ltac:(cbn; auto)).
  pose proof (D du dw ltac:(cbn; auto) ltac:(cbn; auto)). pose proof (D dw du ltac:(cbn; auto) ltac:(cbn; auto)).
  clear D H. unfold du, dv, dw in *. clear du dv dw.
  assert (B : 0 <= x <= 1 /\ 0 <= y <= 1 /\ 0 <= z <= 1).
  { clear - Hv W0 W1 W2 W3 H1 Hx Hy Hz. tet6 Hv; unfold lsum, fx, fy, fz, cx, cy, cz in *; cbn in H1, Hx, Hy, Hz; lra. }
  destruct B as (Bx & By & Bz).
  assert (M1 : m1 = 0%Z \/ m1 = 1%Z) by (apply (unit_int m1 x); lra).
  assert (M2 : m2 = 0%Z \/ m2 = 1%Z) by (apply (unit_int m2 y); lra).
  assert (M3 : m3 = 0%Z \/ m3 = 1%Z) by (apply (unit_int m3 z); lra).
  tet6 Hv; unfold lsum, fx, fy, fz, cx, cy, cz in *; cbn in H1, Hx, Hy, Hz;
  destruct M1 as [-> | ->], M2 as [-> | ->], M3 as [-> | ->];
  first [ exfalso; lra
        | exists 0%nat; split; [cbn; tauto|cbn; auto; fail] | exists 1%nat; split; [cbn; tauto|cbn; auto; fail]
        | exists 2%nat; split; [cbn; tauto|cbn; auto; fail] | exists 3%nat; split; [cbn; tauto|cbn; auto; fail]
        | exists 4%nat; split; [cbn; tauto|cbn; auto; fail] | exists 5%nat; split; [cbn; tauto|cbn; auto; fail]
        | exists 6%nat; split; [cbn; tauto|cbn; auto; fail] | exists 7%nat; split; [cbn; tauto|cbn; auto; fail] ].
Qed.
Lemma cover_unit : forall x y z, 0 <= x <= 1 -> 0 <= y <= 1 -> 0 <= z <= 1 ->
  exists v w, In v tets /\ length w = 4%nat /\ (forall a, In a w -> 0 <= a) /\ lsum (fun _ => 1) v w = 1 /\ x = lsum fx v w /\ y = lsum fy v w /\ z = lsum fz v w.
Proof.
  intros x y z Hx Hy Hz.
  assert (K : forall v w0 w1 w2 w3, In v tets -> 0 <= w0 -> 0 <= w1 -> 0 <= w2 -> 0 <= w3 -> lsum (fun _ => 1) v [w0; w1; w2; w3] = 1 ->
    x = lsum fx v [w0; w1; w2; w3] -> y = lsum fy v [w0; w1; w2; w3] -> z = lsum fz v [w0; w1; w2; w3] ->
    exists v w, In v tets /\ length w = 4%nat /\ (forall a, In a w -> 0 <= a) /\ lsum (fun _ => 1) v w = 1 /\ x = lsum fx v w /\ y = lsum fy v w /\ z = lsum fz v w).
  { intros v w0 w1 w2 w3 Hv A0 A1 A2 A3 E1 E2 E3 E4. exists v, [w0; w1; w2; w3]. split; [exact Hv|]. split; [reflexivity|].
    split; [intros a; cbn; intros [<-|[<-|[<-|[<-|[]]]]]; assumption|]. auto. }
  Local Ltac fin := first [cbn; tauto | lra | unfold lsum, fx, fy, fz, cx, cy, cz; cbn; lra].
  destruct (Rle_dec y x) as [Yx|Yx].
  - destruct (Rle_dec z x) as [Zx|Zx].
    + destruct (Rle_dec (y + z) x).
      * apply (K [0; 1; 3; 5]%nat (1 - x) (x - y - z) y z); fin.
      * apply (K [0; 3; 5; 7]%nat (1 - x) (x - z) (x - y) (y + z - x)); fin.
    + apply (K [0; 4; 5; 7]%nat (1 - z) (z - x) (x - y) y); fin.
  - destruct (Rle_dec z x) as [Zx|Zx].
    + apply (K [0; 2; 3; 7]%nat (1 - y) (y - x) (x - z) z); fin.
    + destruct (Rle_dec (y + z) (1 + x)).
      * apply (K [0; 2; 4; 7]%nat (1 + x - y - z) (y - x) (z - x) x); fin.
      * apply (K [2; 4; 6; 7]%nat (1 - z) (1 - y) (y + z - x - 1) x); fin.
Qed.

(** *** From the grid to the box *)
Definition grid (s : nat) (A O p : R) : R := (p - O) * IZR (Z.of_nat s) / (A - O).
Lemma grid_node : forall s A O i, (0 < s)%nat -> O < A -> grid s A O (node_coord s A O i) = IZR i.
Proof. intros s A O i Hs HA. assert (IZR (Z.of_nat s) <> 0) by (apply not_0_IZR; lia). unfold grid, node_coord. field. split; lra. Qed.
Lemma grid_inj : forall s A O p q, (0 < s)%nat -> O < A -> grid s A O p = grid s A O q -> p = q.
Proof.
  intros s A O p q Hs HA H. assert (IZR (Z.of_nat s) <> 0) by (apply not_0_IZR; lia). unfold grid in H.
  assert (E : forall t, t = (t - O) * IZR (Z.of_nat s) / (A - O) * (A - O) / IZR (Z.of_nat s) + O) by (intros; field; split; lra).
  rewrite (E p), (E q), H. reflexivity.
Qed.
Section Box.
Variables (sizes : axes) (A O : point).
Hypothesis Hp : proper sizes A O.
Definition gp (d : nat) (p : point) : R := grid (axis d sizes) (axis d A) (axis d O) (axis d p).
Lemma wsum_lin : forall (f : point -> R) a b l, wsum (fun p => a * f p + b) l = a * wsum f l + b * wsum (fun _ => 1) l.
Proof using. intros f a b l. unfold wsum. induction l as [|(v, w) l IH]; [cbn; ring|]. cbn [fold_right fst snd]. rewrite IH. ring. Qed.
Lemma wsum_ext : forall f g l, (forall v w, In (v, w) l -> f v = g v) -> wsum f l = wsum g l.
Proof using. intros f g l H. unfold wsum. induction l as [|(v, w) l IH]; [reflexivity|]. cbn [fold_right fst snd]. rewrite (H v w) by now left. rewrite IH; [reflexivity|]. intros. eapply H. right. eassumption. Qed.
Lemma gp_comb : forall l p d, (d < 3)%nat -> combination l p -> gp d p = wsum (gp d) l.
Proof using Hp.
  intros l p d Hd (_ & H1 & E). destruct (Hp d Hd) as (Hs & HA).
  assert (Q : axis d p = wsum (axis d) l) by (rewrite E; do 3 (destruct d as [|d]; [reflexivity|]); lia).
  unfold gp. rewrite (wsum_ext _ (fun v => IZR (Z.of_nat (axis d sizes)) / (axis d A - axis d O) * axis d v + - (axis d O * IZR (Z.of_nat (axis d sizes)) / (axis d A - axis d O)))).
  - rewrite wsum_lin, H1, <- Q. unfold grid. field. lra.
  - intros v w _. unfold grid. field. lra.
Qed.
Lemma comb_gp : forall l p, (forall v w, In (v, w) l -> 0 <= w) -> wsum (fun _ => 1) l = 1 -> (forall d, (d < 3)%nat -> gp d p = wsum (gp d) l) -> combination l p.
Proof using Hp.
  intros l p H0 H1 H. split; [exact H0|]. split; [exact H1|].
  set (q := (wsum (axis 0) l, wsum (axis 1) l, wsum (axis 2) l)). assert (C : combination l q) by (split; [exact H0|]; split; [exact H1|reflexivity]).
  assert (Q : forall d, (d < 3)%nat -> axis d p = axis d q).
  { intros d Hd. destruct (Hp d Hd) as (Hs & HA). apply (grid_inj (axis d sizes) (axis d A) (axis d O)); [exact Hs|exact HA|]. fold (gp d p) (gp d q). rewrite H by exact Hd. symmetry. now apply gp_comb. }
  pose proof (Q 0%nat ltac:(lia)). pose proof (Q 1%nat ltac:(lia)). pose proof (Q 2%nat ltac:(lia)). destruct p as ((a, b), c). cbn [axis fst snd] in *. unfold q in *. cbn [fst snd] in *. congruence.
Qed.
Lemma gp_node : forall i j k, gp 0 (node_at sizes A O i j k) = IZR i /\ gp 1 (node_at sizes A O i j k) = IZR j /\ gp 2 (node_at sizes A O i j k) = IZR k.
Proof using Hp.
  intros i j k. destruct (Hp 0%nat ltac:(lia)). destruct (Hp 1%nat ltac:(lia)). destruct (Hp 2%nat ltac:(lia)).
  unfold gp, node_at. cbn [axis fst snd]. fold (@axis R 0 A) (@axis R 0 O) (@axis R 1 A) (@axis R 1 O) (@axis R 2 A) (@axis R 2 O). split; [|split]; apply grid_node; assumption.
Qed.
Lemma node_inj : forall i j k i' j' k', node_at sizes A O i j k = node_at sizes A O i' j' k' -> i = i' /\ j = j' /\ k = k'.
Proof using Hp.
  intros i j k i' j' k' E. destruct (gp_node i j k) as (A0 & A1 & A2). destruct (gp_node i' j' k') as (B0 & B1 & B2). rewrite E in A0, A1, A2.
  split; [|split]; apply eq_IZR; congruence.
Qed.
Lemma gp_vp : forall i j k n, gp 0 (vp sizes A O i j k n) = IZR (i - 1) + fx n /\ gp 1 (vp sizes A O i j k n) = IZR (j - 1) + fy n /\ gp 2 (vp sizes A O i j k n) = IZR (k - 1) + fz n.
Proof using Hp.
  intros i j k n. unfold vp. destruct (gp_node (i - 1 + cx n) (j - 1 + cy n) (k - 1 + cz n)) as (-> & -> & ->). rewrite !plus_IZR. auto.
Qed.
Lemma wsum_map : forall (f : point -> R) (g : nat -> point) v w, wsum f (List.combine (map g v) w) = lsum (fun n => f (g n)) v w.
Proof using.
  intros f g. unfold wsum, lsum. induction v as [|n v IH]; intros [|a w]; try reflexivity. cbn [map List.combine fold_right fst snd]. now rewrite IH.
Qed.
Lemma lsum_shift : forall (f : nat -> R) c v w, lsum (fun n => c + f n) v w = c * lsum (fun _ => 1) v w + lsum f v w.
Proof using.
  intros f c. unfold lsum. induction v as [|n v IH]; intros [|a w]; cbn [List.combine fold_right fst snd]; try ring. rewrite IH. ring.
Qed.
Lemma lsum_ext : forall f g v w, (forall n, f n = g n) -> lsum f v w = lsum g v w.
Proof using. intros f g v w H. unfold lsum. induction (List.combine v w) as [|(n, a) l IH]; [reflexivity|]. cbn. now rewrite H, IH. Qed.
(** Points of a cell in units of the cube *)
Lemma in_cell : forall i j k v w p, length w = length v -> combination (List.combine (map (vp sizes A O i j k) v) w) p ->
  lsum (fun _ => 1) v w = 1 /\ gp 0 p - IZR (i - 1) = lsum fx v w /\ gp 1 p - IZR (j - 1) = lsum fy v w /\ gp 2 p - IZR (k - 1) = lsum fz v w.
Proof using Hp.
  intros i j k v w p L C. pose proof C as (_ & H1 & _). rewrite wsum_map in H1. split; [exact H1|].
  rewrite (gp_comb _ p 0 ltac:(lia) C), (gp_comb _ p 1 ltac:(lia) C), (gp_comb _ p 2 ltac:(lia) C), !wsum_map.
  rewrite (lsum_ext _ (fun n => IZR (i - 1) + fx n)) by (intros; apply gp_vp). rewrite (lsum_ext (fun n => gp 1 _) (fun n => IZR (j - 1) + fy n)) by (intros; apply gp_vp).
  rewrite (lsum_ext (fun n => gp 2 _) (fun n => IZR (k - 1) + fz n)) by (intros; apply gp_vp).
  rewrite !lsum_shift, H1. split; [ring|]. split; ring.
Qed.
Lemma cell_in : forall i j k v w p, (forall a, In a w -> 0 <= a) -> lsum (fun _ => 1) v w = 1 ->
  gp 0 p - IZR (i - 1) = lsum fx v w -> gp 1 p - IZR (j - 1) = lsum fy v w -> gp 2 p - IZR (k - 1) = lsum fz v w ->
  combination (List.combine (map (vp sizes A O i j k) v) w) p.
Proof using Hp.
  intros i j k v w p H0 H1 Hx Hy Hz. apply comb_gp.
  - intros q a H. apply in_combine_r in H. now apply H0.
  - now rewrite wsum_map.
  - intros d Hd. rewrite wsum_map. destruct d as [|[|[|d]]]; [..|lia].
    + rewrite (lsum_ext _ (fun n => IZR (i - 1) + fx n)) by (intros; apply gp_vp). rewrite lsum_shift, H1. lra.
    + rewrite (lsum_ext _ (fun n => IZR (j - 1) + fy n)) by (intros; apply gp_vp). rewrite lsum_shift, H1. lra.
    + rewrite (lsum_ext _ (fun n => IZR (k - 1) + fz n)) by (intros; apply gp_vp). rewrite lsum_shift, H1. lra.
Qed.
(** Weight of a node at a point *)
Definition phi (n p : point) : R := hat (gp 0 p - gp 0 n) (gp 1 p - gp 1 n) (gp 2 p - gp 2 n).
Lemma cell_weights : forall i j k v w p, In v tets -> length w = 4%nat -> combination (List.combine (map (vp sizes A O i j k) v) w) p ->
  (forall q a, In (q, a) (List.combine (map (vp sizes A O i j k) v) w) -> phi q p = a) /\
  (forall i' j' k', 0 < phi (node_at sizes A O i' j' k') p -> In (node_at sizes A O i' j' k') (map (vp sizes A O i j k) v)).
Proof using Hp.
  intros i j k v w p Hv Lw C. assert (Lv : length v = 4%nat) by (clear - Hv; tet6 Hv; reflexivity).
  destruct (in_cell i j k v w p ltac:(lia) C) as (H1 & Hx & Hy & Hz). destruct C as (H0 & _).
  assert (W : forall a, In a w -> 0 <= a).
  { intros a Ha. assert (K : exists q, In (q, a) (List.combine (map (vp sizes A O i j k) v) w)).
    { assert (L : length (map (vp sizes A O i j k) v) = length w) by (rewrite map_length; lia). clear - Ha L. revert L. generalize (map (vp sizes A O i j k) v). intros m. revert m.
      induction w as [|b w IH]; intros [|q m] L; cbn in *; try contradiction; try discriminate. destruct Ha as [<-|Ha]; [exists q; auto|]. destruct (IH Ha m ltac:(lia)) as (r & Hr). exists r. auto. }
    destruct K as (q & Hq). eapply H0. exact Hq. }
  split.
  - intros q a Hq. assert (K : exists n, q = vp sizes A O i j k n /\ In (n, a) (List.combine v w)).
    { clear - Hq. revert w Hq. induction v as [|n v IH]; intros [|b w] Hq; cbn in *; try contradiction. destruct Hq as [E|Hq]; [injection E as <- <-; exists n; auto|]. destruct (IH w Hq) as (m & Em & Hm). exists m. auto. }
    destruct K as (n & -> & Hn). unfold phi. destruct (gp_vp i j k n) as (-> & -> & ->).
    rewrite <- (hat_vertex v w _ _ _ Hv Lw W H1 Hx Hy Hz n a Hn). f_equal; ring.
  - intros i' j' k' H. unfold phi in H. destruct (gp_node i' j' k') as (E0 & E1 & E2). rewrite E0, E1, E2 in H.
    destruct (hat_other v w (gp 0 p - IZR (i - 1)) (gp 1 p - IZR (j - 1)) (gp 2 p - IZR (k - 1)) (i' - (i - 1)) (j' - (j - 1)) (k' - (k - 1)) Hv Lw W H1 Hx Hy Hz) as (n & Hn & Ex & Ey & Ez).
    + rewrite !(minus_IZR i'), !(minus_IZR j'), !(minus_IZR k').
      replace (gp 0 p - IZR (i - 1) - (IZR i' - IZR (i - 1))) with (gp 0 p - IZR i') by ring. replace (gp 1 p - IZR (j - 1) - (IZR j' - IZR (j - 1))) with (gp 1 p - IZR j') by ring.
      replace (gp 2 p - IZR (k - 1) - (IZR k' - IZR (k - 1))) with (gp 2 p - IZR k') by ring. exact H.
    + apply in_map_iff. exists n. split; [|exact Hn]. unfold vp. rewrite <- Ex, <- Ey, <- Ez. f_equal; lia.
Qed.
(** Permuted vertices *)
Lemma wsum_perm : forall f l l', Permutation l l' -> wsum f l = wsum f l'.
Proof using. intros f l l' P. unfold wsum. induction P; cbn; lra. Qed.
Lemma comb_perm : forall l l' p, Permutation l l' -> combination l p -> combination l' p.
Proof using.
  intros l l' p P (H0 & H1 & E). split; [|split].
  - intros v w H. apply (H0 v w). eapply Permutation_in; [apply Permutation_sym; exact P|exact H].
  - now rewrite <- (wsum_perm _ _ _ P).
  - now rewrite <- !(wsum_perm _ _ _ P).
Qed.
Lemma to_canonical : forall vs v i j k l p, Permutation vs (map (vp sizes A O i j k) v) -> lies_in vs l p ->
  exists w, length w = length v /\ Permutation l (List.combine (map (vp sizes A O i j k) v) w) /\ combination (List.combine (map (vp sizes A O i j k) v) w) p.
Proof using.
  intros vs v i j k l p P (E & C). rewrite <- E in P. apply Permutation_sym, Permutation_map_inv in P as (l' & El & P).
  exists (map snd l'). assert (Q : List.combine (map (vp sizes A O i j k) v) (map snd l') = l').
  { rewrite El. clear. induction l' as [|(a, b) l' IH]; [reflexivity|]. cbn. now rewrite IH. }
  rewrite Q. split; [rewrite map_length; rewrite <- (map_length fst l'), <- El; apply map_length|]. split; [exact P|]. eapply comb_perm; eassumption.
Qed.
End Box.
