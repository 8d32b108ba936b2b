(** From the checked tables to the formulas of the library *)
From Coq Require Import ZArith Reals List Bool Lia Lra Permutation.
From Coquelicot Require Import Coquelicot.
From Verif Require Import Prelude RSum BasModel BasSpec QuadModel QuadTables QuadRules QuadSpec QuadProofs QuadCheck QuadPoly QuadSym QuadProofs2.
Import ListNotations.
Open Scope R_scope.

Lemma Forall2_length : forall X Y (P : X -> Y -> Prop) a b, Forall2 P a b -> length a = length b.
Proof. induction 1; cbn; congruence. Qed.

(** *** Perturbation of a formula *)
Definition unit_coords (F : formula) : Prop := forall p w, In (p, w) F -> forall x, In x p -> -1 <= x <= 1.
Definition differ (dc dw : R) (F G : formula) : Prop :=
  Forall2 (fun a b => Forall2 (fun x y => Rabs (x - y) <= dc) (fst a) (fst b) /\ Rabs (snd a - snd b) <= dw) F G.
Definition wsum (F : formula) : R := fold_right (fun pw s => Rabs (snd pw) + s) 0 F.

Lemma pow_unit : forall x n, -1 <= x <= 1 -> Rabs (x ^ n) <= 1.
Proof.
  intros x n H. assert (Hx : Rabs x <= 1) by (apply Rabs_le; lra). induction n as [|n IH]; [cbn; rewrite Rabs_R1; lra|]. cbn [pow]. rewrite Rabs_mult.
  pose proof (Rabs_pos x). pose proof (Rabs_pos (x ^ n)). nra.
Qed.
Lemma mono_unit : forall es p, (forall x, In x p -> -1 <= x <= 1) -> Rabs (mono es p) <= 1.
Proof.
  induction es as [|e es IH]; intros [|x p] H; cbn [mono]; try (rewrite Rabs_R1; lra). rewrite Rabs_mult.
  pose proof (pow_unit x e (H x (or_introl eq_refl))). specialize (IH p (fun y Hy => H y (or_intror Hy))).
  pose proof (Rabs_pos (x ^ e)). pose proof (Rabs_pos (mono es p)). nra.
Qed.
Lemma pow_pert : forall x y d n, -1 <= x <= 1 -> -1 <= y <= 1 -> Rabs (x - y) <= d -> Rabs (x ^ n - y ^ n) <= INR n * d.
Proof.
  intros x y d n Hx Hy Hd. induction n as [|n IH]; [cbn; rewrite Rminus_diag_eq, Rabs_R0 by reflexivity; lra|].
  rewrite S_INR. cbn [pow]. replace (x * x ^ n - y * y ^ n) with (x * (x ^ n - y ^ n) + (x - y) * y ^ n) by ring.
  eapply Rle_trans; [apply Rabs_triang|]. rewrite !Rabs_mult. pose proof (pow_unit y n Hy). assert (Rabs x <= 1) by (apply Rabs_le; lra).
  pose proof (Rabs_pos (x ^ n - y ^ n)). pose proof (Rabs_pos (x - y)). pose proof (Rabs_pos x). pose proof (Rabs_pos (y ^ n)). nra.
Qed.
Lemma mono_pert : forall es p q d, 0 <= d -> Forall2 (fun x y => Rabs (x - y) <= d) p q -> (forall x, In x p -> -1 <= x <= 1) -> (forall x, In x q -> -1 <= x <= 1) ->
  Rabs (mono es p - mono es q) <= INR (list_sum es) * d.
Proof.
  induction es as [|e es IH]; intros p q d Hd H Hp Hq.
  - rewrite list_sum_nil. destruct p, q; cbn; rewrite Rminus_diag_eq, Rabs_R0 by reflexivity; lra.
  - rewrite list_sum_cons, plus_INR. destruct H as [|x y p q Hxy H].
    + cbn [mono]. rewrite Rminus_diag_eq, Rabs_R0 by reflexivity. pose proof (pos_INR e). pose proof (pos_INR (list_sum es)). nra.
    + cbn [mono]. replace (x ^ e * mono es p - y ^ e * mono es q) with ((x ^ e - y ^ e) * mono es p + y ^ e * (mono es p - mono es q)) by ring.
      eapply Rle_trans; [apply Rabs_triang|]. rewrite !Rabs_mult.
      pose proof (pow_pert x y d e (Hp x (or_introl eq_refl)) (Hq y (or_introl eq_refl)) Hxy) as A.
      pose proof (mono_unit es p (fun z Hz => Hp z (or_intror Hz))) as B. pose proof (pow_unit y e (Hq y (or_introl eq_refl))) as C.
      specialize (IH p q d Hd H (fun z Hz => Hp z (or_intror Hz)) (fun z Hz => Hq z (or_intror Hz))).
      pose proof (Rabs_pos (x ^ e - y ^ e)). pose proof (Rabs_pos (mono es p)). pose proof (Rabs_pos (y ^ e)). pose proof (Rabs_pos (mono es p - mono es q)). nra.
Qed.
Lemma qsum_pert : forall F G dc dw es, 0 <= dc -> differ dc dw F G -> unit_coords F -> unit_coords G ->
  Rabs (qsum F (mono es) - qsum G (mono es)) <= INR (length F) * dw + wsum G * (INR (list_sum es) * dc).
Proof.
  intros F G dc dw es Hd H. induction H as [|[p w] [q v] F G [Hp Hw] _ IH]; intros UF UG.
  - cbn. rewrite Rminus_0_r, Rabs_R0. lra.
  - specialize (IH (fun a b Hi => UF a b (or_intror Hi)) (fun a b Hi => UG a b (or_intror Hi))). cbn [fst snd] in *.
    unfold qsum. cbn [fold_right fst snd]. fold (qsum F (mono es)). fold (qsum G (mono es)). cbn [length]. rewrite S_INR.
    unfold wsum. cbn [fold_right snd]. fold (wsum G).
    pose proof (mono_pert es p q dc Hd Hp (UF p w (or_introl eq_refl)) (UG q v (or_introl eq_refl))) as A.
    pose proof (mono_unit es p (UF p w (or_introl eq_refl))) as B.
    replace (w * mono es p + qsum F (mono es) - (v * mono es q + qsum G (mono es)))
      with ((w - v) * mono es p + v * (mono es p - mono es q) + (qsum F (mono es) - qsum G (mono es))) by ring.
    eapply Rle_trans; [apply Rabs_triang|]. eapply Rle_trans; [apply Rplus_le_compat_r, Rabs_triang|]. rewrite !Rabs_mult.
    pose proof (Rabs_pos (w - v)). pose proof (Rabs_pos v). pose proof (Rabs_pos (mono es p)).
    assert (Rabs (w - v) * Rabs (mono es p) <= dw) by nra.
    assert (Rabs v * Rabs (mono es p - mono es q) <= Rabs v * (INR (list_sum es) * dc)) by (apply Rmult_le_compat_l; lra).
    lra.
Qed.

(** *** Polynomials *)
Lemma qsum_beval : forall F P, qsum F (beval P) = bsum (fun es => qsum F (mono es)) P.
Proof.
  intros F P. induction P as [|[c es] P IH].
  - unfold bsum. cbn [fold_right]. unfold qsum. induction F as [|[p w] F IHF]; cbn [fold_right fst snd]; [reflexivity|]. rewrite IHF. unfold beval. cbn [fold_right]. ring.
  - rewrite bsum_cons, <- IH. cbn [fst snd]. clear IH. unfold qsum. induction F as [|[p w] F IHF]; cbn [fold_right fst snd]; [ring|].
    rewrite IHF, beval_cons. cbn [fst snd]. ring.
Qed.
Lemma bsum_err : forall f g P e, (forall c es, In (c, es) P -> Rabs (f es - g es) <= e) -> Rabs (bsum f P - bsum g P) <= e * bnorm P.
Proof.
  intros f g P e. induction P as [|[c es] P IH]; intros H.
  - cbn. rewrite Rminus_0_r, Rabs_R0. lra.
  - rewrite !bsum_cons. unfold bnorm. cbn [fold_right fst snd]. fold (bnorm P). specialize (IH (fun a b Hi => H a b (or_intror Hi))).
    specialize (H c es (or_introl eq_refl)). replace (c * f es + bsum f P - (c * g es + bsum g P)) with (c * (f es - g es) + (bsum f P - bsum g P)) by ring.
    eapply Rle_trans; [apply Rabs_triang|]. rewrite Rabs_mult. pose proof (Rabs_pos c). nra.
Qed.

(** *** The formulas as lists of points *)
Definition good (m : nat) (p : list R) : Prop := length p = S m /\ p = firstn m p ++ [fold_left Rminus (firstn m p) 1].
Definition realF {C : Type} (pr : C -> list (list R)) (f : list C) (w : list (nat * lit)) : formula :=
  flat_map (fun cw => map (fun p => (p, lit_val (snd (snd cw)))) (pr (fst cw))) (List.combine f w).

Lemma half : lit_val (Dec 5 1) = / 2.
Proof. cbn. lra. Qed.
Lemma quarter : lit_val (Dec 25 2) = / 4.
Proof. cbn. lra. Qed.
Ltac good_tac := repeat match goal with |- good _ _ => split; [reflexivity|cbn [firstn app fold_left]; repeat f_equal; try ring] end.
Lemma good_seg : forall c p, In p (seg_points Rarith c) -> good 1 p.
Proof.
  intros c p H. destruct c; cbn [seg_points In Rarith num one add sub] in H; rewrite ?half in H;
  repeat (destruct H as [<-|H]); try contradiction; (split; [reflexivity|cbn [firstn app fold_left]; repeat f_equal; lra]).
Qed.
Lemma good_push2 : forall a b, good 2 (push2 Rarith a b).
Proof. intros. split; reflexivity. Qed.
Lemma good_push3 : forall a b c, good 3 (push3 Rarith a b c).
Proof. intros. split; reflexivity. Qed.
Lemma good_tri : forall c p, In p (tri_points Rarith c) -> good 2 p.
Proof. intros c p H. destruct c; cbn [tri_points In] in H; repeat (destruct H as [<-|H]); try contradiction; apply good_push2. Qed.
Lemma good_tet : forall c p, In p (tet_points Rarith c) -> good 3 p.
Proof.
  intros c p H. destruct c; cbn [tet_points] in H; unfold twist4, twist6, twist12, twist24 in H; cbn [In] in H;
  repeat (destruct H as [<-|H]); try contradiction; try apply good_push3;
  cbn [num Rarith]; rewrite quarter; (split; [reflexivity|cbn [firstn app fold_left]; repeat f_equal; lra]).
Qed.

Lemma rd_concat : forall m pts i k, (forall p, In p pts -> length p = S m) -> (i < length pts)%nat -> (k < S m)%nat ->
  rd (concat pts) (S m * i + k) = Some (nth k (nth i pts []) 0).
Proof.
  intros m; induction pts as [|p pts IH]; intros i k H Hi Hk; [cbn in Hi; lia|]. cbn [concat]. unfold rd. pose proof (H p (or_introl eq_refl)) as Lp.
  destruct i as [|i].
  - rewrite Nat.mul_0_r. cbn [nth]. change (0 + k)%nat with k. rewrite nth_error_app1 by lia. apply nth_error_nth'. lia.
  - rewrite nth_error_app2 by lia. cbn [nth]. replace (S m * S i + k - length p)%nat with (S m * i + k)%nat by lia.
    apply IH; trivial; [intros; apply H; now right|cbn in Hi; lia].
Qed.
Lemma omap_list_ok : forall X Y (f : X -> option Y) g l, (forall x, In x l -> f x = Some (g x)) -> omap_list f l = Some (map g l).
Proof. intros X Y f g; induction l as [|x l IH]; intros H; [reflexivity|]. cbn. rewrite (H x) by now left. cbn. rewrite IH by (intros; apply H; now right). reflexivity. Qed.
Lemma concat_length : forall m (pts : list (list R)), (forall p, In p pts -> length p = S m) -> length (concat pts) = (S m * length pts)%nat.
Proof. intros m; induction pts as [|p pts IH]; intros H; [cbn; lia|]. cbn [concat length]. rewrite app_length, IH, (H p) by (first [now left|intros; apply H; now right]). lia. Qed.
Lemma combine_seq : forall (pts : list (list R)) (ws : list R), length ws = length pts ->
  map (fun i => (nth i pts [], nth i ws 0)) (seq 0 (length pts)) = List.combine pts ws.
Proof.
  induction pts as [|p pts IH]; intros [|w ws] H; try discriminate; [reflexivity|]. cbn [length seq map List.combine nth]. f_equal.
  rewrite <- seq_shift, map_map. cbn in H. apply IH. lia.
Qed.
Lemma all_points_ok : forall m sym pts ws, (forall p, In p pts -> good m p) -> length ws = length pts ->
  all_points m (Quad (length (concat pts) / S m) sym (concat pts) ws) = Some (List.combine pts ws).
Proof.
  intros m sym pts ws H Hw. assert (Hl : forall p, In p pts -> length p = S m) by (intros p Hp; apply (H p Hp)).
  unfold all_points. cbn [q_num]. rewrite (concat_length m) by trivial. rewrite Nat.mul_comm, Nat.div_mul by lia.
  rewrite (omap_list_ok _ _ _ (fun i => (nth i pts [], nth i ws 0))); [now rewrite combine_seq|].
  intros i Hi. apply in_seq in Hi. unfold get_point_weight. cbn [q_num q_p q_w].
  destruct (i <? length pts)%nat eqn:E; [|apply Nat.ltb_ge in E; lia].
  rewrite (omap_list_ok _ _ _ (fun k => nth k (nth i pts []) 0)).
  - assert (Hr : rd ws i = Some (nth i ws 0)) by (apply nth_error_nth'; lia). rewrite Hr. cbn [obind].
    assert (Hi' : (i < length pts)%nat) by lia. destruct (H (nth i pts []) (nth_In pts [] Hi')) as [L G].
    replace (map (fun k => nth k (nth i pts []) 0) (seq 0 m)) with (firstn m (nth i pts [])); [now rewrite <- G|].
    apply (nth_ext _ _ 0 0); [rewrite firstn_length, map_length, seq_length; lia|].
    intros k Hk. rewrite firstn_length in Hk.
    assert (Ek : nth k (map (fun k => nth k (nth i pts []) 0) (seq 0 m)) 0 = nth k (nth i pts []) 0).
    { rewrite (nth_indep _ 0 (nth 0 (nth i pts []) 0)) by (rewrite map_length, seq_length; lia).
      rewrite (map_nth (fun k => nth k (nth i pts []) 0) (seq 0 m) 0%nat k), seq_nth by lia. reflexivity. }
    rewrite Ek. clear -Hk. revert Hk. generalize (nth i pts []). intros l. revert m k. induction l as [|x l IH]; intros [|m] [|k] Hk'; cbn in *; try lia; trivial. apply IH. lia.
  - intros k Hk. apply in_seq in Hk. apply rd_concat; trivial; lia.
Qed.

(** *** Elementary symmetric polynomials of close points *)
Lemma lsum_err : forall X (f g : X -> R) l e, (forall x, In x l -> Rabs (f x - g x) <= e) -> Rabs (lsum f l - lsum g l) <= INR (length l) * e.
Proof.
  intros X f g l e H. induction l as [|x l IH]; [cbn; rewrite Rminus_0_r, Rabs_R0; lra|]. rewrite !lsum_cons. cbn [length]. rewrite S_INR.
  specialize (IH (fun y Hy => H y (or_intror Hy))). specialize (H x (or_introl eq_refl)).
  replace (f x + lsum f l - (g x + lsum g l)) with ((f x - g x) + (lsum f l - lsum g l)) by ring. eapply Rle_trans; [apply Rabs_triang|]. lra.
Qed.
Lemma esyms_close : forall m p q d, (1 <= m <= 3)%nat -> length p = S m -> 0 <= d -> Forall2 (fun x y => Rabs (x - y) <= d) p q ->
  (forall x, In x p -> -1 <= x <= 1) -> (forall x, In x q -> -1 <= x <= 1) -> Forall2 (fun x y => Rabs (x - y) <= 12 * d) (esyms p) (esyms q).
Proof.
  intros m p q d Hm Hp Hd H Up Uq. assert (Hq : length q = S m) by (rewrite <- Hp; symmetry; exact (Forall2_length _ _ _ _ _ H)).
  rewrite <- (elem_esyms m p Hm Hp), <- (elem_esyms m q Hm Hq).
  assert (G : forall k, In k (degrees m) -> Rabs (elem (S m) k p - elem (S m) k q) <= 12 * d).
  { intros k Hk. unfold elem. eapply Rle_trans; [apply (lsum_err _ _ _ _ (INR k * d))|].
    - intros v Hv. destruct (subsets_ok _ _ _ Hv) as [_ <-]. now apply mono_pert.
    - rewrite <- Rmult_assoc. apply Rmult_le_compat_r; trivial. rewrite <- mult_INR. replace 12 with (INR 12) by (rewrite INR_IZR_INZ; reflexivity). apply le_INR.
      unfold degrees in Hk. destruct m as [|[|[|[|m]]]]; try lia; cbn [seq In] in Hk; repeat (destruct Hk as [<-|Hk]); try contradiction; apply Nat.leb_le; reflexivity. }
  induction (degrees m) as [|k l IH]; cbn [map]; constructor; [apply G; now left|apply IH; intros; apply G; now right].
Qed.
Lemma esyms_perm : forall m p q, (1 <= m <= 3)%nat -> length p = S m -> Permutation p q -> esyms p = esyms q.
Proof.
  intros m p q Hm Hp HP. symmetry. refine (proj2 (adjacent _ (fun l => length l = S m /\ esyms l = esyms p) _ p q HP (conj Hp eq_refl))).
  intros j l Hj [Ll E]. split; [now rewrite swap_at_length|]. rewrite <- E. clear -Hm Ll Hj.
  destruct m as [|[|[|[|m]]]]; try lia; destruct l as [|x [|y [|z [|t [|u l]]]]]; try discriminate; destruct j as [|[|[|j]]]; cbn in Hj; try lia;
  cbn [swap_at esyms]; repeat (apply f_equal2; [ring|]); reflexivity.
Qed.
Lemma zsym_ok : forall m z, (1 <= m <= 3)%nat -> length z = S m -> (forall x, In x z -> (0 <= x <= unit)%Z) -> Forall2 (rel 8) (zsym z) (esyms (map val z)).
Proof.
  intros m z Hm Hl Hz.
  assert (M : forall a b x y e1 e2, approx e1 a x -> approx e2 b y -> approx (e1 + e2 + 1) (mulK a b) (x * y)) by (intros; now apply approx_mul).
  destruct m as [|[|[|[|m]]]]; try lia; destruct z as [|a [|b [|c [|d [|? ?]]]]]; try discriminate; cbn [map zsym esyms]; cbv zeta;
  pose proof (approx_val a (Hz a ltac:(cbn; tauto))) as Ha; pose proof (approx_val b (Hz b ltac:(cbn; tauto))) as Hb; try pose proof (approx_val c (Hz c ltac:(cbn; tauto))) as Hc; try pose proof (approx_val d (Hz d ltac:(cbn; tauto))) as Hd;
  pose proof (M _ _ _ _ _ _ Ha Hb) as Hab.
  - repeat apply Forall2_cons; try apply Forall2_nil. eapply rel_weaken; [apply Hab|lra].
  - repeat apply Forall2_cons; try apply Forall2_nil.
    + replace (val a * val b + val a * val c + val b * val c) with (val a * val b + val c * val a + val c * val b) by ring.
      eapply rel_weaken; [apply rel_add; [apply rel_add; [apply Hab|apply (M _ _ _ _ _ _ Hc Ha)]|apply (M _ _ _ _ _ _ Hc Hb)]|lra].
    + eapply rel_weaken; [apply (M _ _ _ _ _ _ Hab Hc)|lra].
  - pose proof (M _ _ _ _ _ _ Hc Hd) as Hcd. repeat apply Forall2_cons; try apply Forall2_nil.
    + replace (val a * val b + val a * val c + val a * val d + val b * val c + val b * val d + val c * val d) with (val a * val b + val c * val d + val a * val c + val a * val d + val b * val c + val b * val d) by ring.
      eapply rel_weaken; [repeat apply rel_add; first [apply Hab|apply Hcd|apply (M _ _ _ _ _ _ Ha Hc)|apply (M _ _ _ _ _ _ Ha Hd)|apply (M _ _ _ _ _ _ Hb Hc)|apply (M _ _ _ _ _ _ Hb Hd)]|lra].
    + replace (val a * val b * val c + val a * val b * val d + val a * val c * val d + val b * val c * val d) with (val a * val b * val c + val a * val b * val d + (val c * val d * val a + val c * val d * val b)) by ring.
      eapply rel_weaken; [repeat apply rel_add; first [apply (M _ _ _ _ _ _ Hab Hc)|apply (M _ _ _ _ _ _ Hab Hd)|apply (M _ _ _ _ _ _ Hcd Ha)|apply (M _ _ _ _ _ _ Hcd Hb)]|lra].
    + replace (val a * val b * val c * val d) with (val a * val b * (val c * val d)) by ring. eapply rel_weaken; [apply (M _ _ _ _ _ _ Hab Hcd)|lra].
Qed.
Lemma esyms_unit : forall m p, (1 <= m <= 3)%nat -> length p = S m -> fold_right Rplus 0 p = 1 -> (forall x, In x p -> 0 < x < 1) -> forall e, In e (esyms p) -> -1 <= e <= 1.
Proof.
  intros m p Hm Hl Hs Hp e He.
  destruct m as [|[|[|[|m]]]]; try lia; destruct p as [|a [|b [|c [|d [|? ?]]]]]; try discriminate; cbn [esyms In fold_right] in *;
  pose proof (Hp a ltac:(tauto)) as Ha; pose proof (Hp b ltac:(tauto)) as Hb; try pose proof (Hp c ltac:(tauto)) as Hc; try pose proof (Hp d ltac:(tauto)) as Hd; clear Hp.
  - destruct He as [<-|[]]. nra.
  - assert (0 < a * b) by nra. assert (0 < a * c) by nra. assert (0 < b * c) by nra.
    assert (Q : (a + b + c) * (a + b + c) = 1) by (replace (a + b + c) with 1 by lra; ring).
    destruct He as [<-|[<-|[]]]; [nra|]. assert (0 < a * b * c) by nra. assert (a * b * c <= a * b) by nra. nra.
  - assert (0 < a * b) by nra. assert (0 < a * c) by nra. assert (0 < a * d) by nra. assert (0 < b * c) by nra. assert (0 < b * d) by nra. assert (0 < c * d) by nra.
    assert (Q : (a + b + c + d) * (a + b + c + d) = 1) by (replace (a + b + c + d) with 1 by lra; ring).
    assert (S2 : a * b + a * c + a * d + b * c + b * d + c * d <= 1) by nra.
    destruct He as [<-|[<-|[<-|[]]]]; [nra| |].
    + assert (0 < a * b * c <= a * b) by nra. assert (0 < a * b * d <= b * d) by nra. assert (0 < a * c * d <= a * c) by nra. assert (0 < b * c * d <= c * d) by nra. nra.
    + assert (0 < a * b * c <= a * b) by nra. assert (0 < a * b * c * d <= a * b * c) by nra. nra.
Qed.
Lemma Rsum_fold : forall p, Rsum (length p) (fun k => nth k p 0) = fold_right Rplus 0 p.
Proof.
  assert (Sh : forall n g, Rsum (S n) g = g 0%nat + Rsum n (fun k => g (S k))).
  { induction n as [|n IH]; intros g; [cbn; ring|]. rewrite Rsum_S, IH, Rsum_S. ring. }
  induction p as [|x p IH]; [reflexivity|]. cbn [length]. rewrite Sh. cbn [nth fold_right]. now rewrite <- IH.
Qed.

(** *** What the check says about the formula *)
Section Table.
Context {C : Type} (s : shape) (o mx : nat) (pz : C -> list (list Z)) (pr : C -> list (list R)) (f : list C) (w : list (nat * lit)).
Let m := dim s.
Hypothesis Hrel : forall c, Forall2 (Forall2 (rel 16)) (pz c) (pr c).
Hypothesis Hgood : forall c p, In p (pr c) -> good m p.
Hypothesis Hcheck : checkb m o (means m mx) pz f w = true.
Let F := realF pr f w.
Let orb := orbits pz f w.
Lemma dim_small : (1 <= m <= 3)%nat.
Proof. subst m. destruct s; cbn; lia. Qed.

Lemma zform_count : forall orb0 : list orbit, length (zform orb0) = length (concat (map fst orb0)).
Proof. clear. induction orb0 as [|ow r IH]; [reflexivity|]. unfold zform. cbn [flat_map map concat]. fold (zform r). now rewrite !app_length, map_length, IH. Qed.
Lemma check_parts :
  (forall c n l, In (c, (n, l)) (List.combine f w) -> n = length (pr c)) /\ length f = length w /\ (forall ow, In ow orb -> sym_orbit m ow /\ one_orbit ow) /\
  (forall ow, In ow orb -> in_unit (S m) ow) /\ (length (zform orb) <= 552)%nat /\ (forall ow, In ow (reduced orb) -> in_unit m ow) /\
  forallb (momentb m o (Z.of_nat (length (tables (Nat.div2 o) (reduced orb)))) (tables (Nat.div2 o) (reduced orb))) (means m mx) = true.
Proof.
  unfold checkb in Hcheck. fold orb in Hcheck. apply andb_prop in Hcheck. destruct Hcheck as [H1 Hm]. apply andb_prop in H1. destruct H1 as [H1 Hr]. apply andb_prop in H1. destruct H1 as [H1 Hn].
  apply andb_prop in H1. destruct H1 as [H1 Hi]. apply andb_prop in H1. destruct H1 as [H1 Hs]. apply andb_prop in H1. destruct H1 as [H1 Hl].
  rewrite forallb_forall in H1, Hi, Hs, Hr.
  split; [|split; [|split; [|split; [|split; [|split]]]]]; trivial.
  - intros c n l Hc. specialize (H1 _ Hc). cbn [fst snd] in H1. apply Nat.eqb_eq in H1. rewrite H1. exact (Forall2_length _ _ _ _ _ (Hrel c)).
  - now apply Nat.eqb_eq.
  - intros ow Ho. apply symmetricb_ok. auto.
  - intros ow Ho. apply insideb_ok. auto.
  - rewrite zform_count. apply Z.leb_le in Hn. lia.
  - intros ow Ho. apply insideb_ok. auto.
Qed.

Lemma rel_val : forall e z x, rel e z x -> Rabs (x - val z) <= e / U.
Proof.
  intros e z x H. unfold rel in H. pose proof U_pos as HU. unfold val.
  replace (x - IZR z / U) with (- ((IZR z - x * U) * / U)) by (field; lra). rewrite Rabs_Ropp, Rabs_mult, (Rabs_pos_eq (/ U)) by (left; now apply Rinv_0_lt_compat).
  apply Rmult_le_compat_r; [left; now apply Rinv_0_lt_compat|exact H].
Qed.
Lemma real_close : differ (24 / U) (2 / U) F (zform orb).
Proof.
  subst F orb. unfold differ, realF, orbits. induction (List.combine f w) as [|[c [n l]] r IH]; [constructor|].
  cbn [flat_map map]. unfold zform. cbn [flat_map]. apply Forall2_app; [|exact IH]. cbn [fst snd].
  pose proof (rel_snap_orbit _ _ (Hrel c)) as R. induction R as [|a b x y Hab _ IHR]; cbn [map]; constructor; trivial. cbn [fst snd]. split.
  - clear -Hab. induction Hab; cbn [map]; constructor; trivial. now apply rel_val.
  - apply rel_val. eapply rel_weaken; [apply rel_lit|lra].
Qed.

Lemma Forall2_in : forall X Y (P : X -> Y -> Prop) a b, Forall2 P a b -> forall x, In x a -> exists y, In y b /\ P x y.
Proof. intros X Y P a b H. induction H as [|x y a b Hxy _ IH]; intros u Hu; [destruct Hu|]. destruct Hu as [<-|Hu]; [exists y; split; [now left|trivial]|]. destruct (IH u Hu) as (v & Hv & Hp). exists v. split; [now right|trivial]. Qed.
Lemma zform_unit : forall ow, In ow orb -> forall q z, In q (fst ow) -> In z q -> 100 / U < val z < 1 - 100 / U.
Proof.
  destruct check_parts as (_ & _ & _ & Hin & _). intros ow Ho q z Hq Hz. destruct (Hin ow Ho) as [Hp _]. destruct (Hp q Hq) as [_ Hz']. specialize (Hz' z Hz).
  pose proof U_pos. destruct Hz' as [A B]. apply IZR_lt in A, B. rewrite minus_IZR in B. change (IZR unit) with U in B. unfold val.
  split; apply (Rmult_lt_reg_r U); trivial; field_simplify; lra.
Qed.
Lemma real_inside : forall p v, In (p, v) F -> (forall x, In x p -> 0 < x < 1) /\ 0 < v.
Proof.
  intros p v Hi. destruct (Forall2_in _ _ _ _ _ real_close _ Hi) as ([q u] & Hj & Hc & Hw). cbn [fst snd] in *.
  apply zform_points in Hj. destruct Hj as (ow & z & Ho & Hq & -> & ->). pose proof U_pos as HU.
  assert (E24 : 24 / U < 100 / U) by (apply Rmult_lt_compat_r; [now apply Rinv_0_lt_compat|lra]).
  split.
  - intros x Hx. destruct (Forall2_in _ _ _ _ _ Hc x Hx) as (y & Hy & D). apply in_map_iff in Hy. destruct Hy as (k & <- & Hk).
    pose proof (zform_unit ow Ho z k Hq Hk) as B. apply Rabs_le_between in D. lra.
  - destruct check_parts as (_ & _ & _ & Hin & _). destruct (Hin ow Ho) as [_ [W _]]. apply IZR_lt in W.
    assert (100 / U < val (snd ow)) by (unfold val; apply Rmult_lt_compat_r; [now apply Rinv_0_lt_compat|trivial]).
    assert (2 / U < 100 / U) by (apply Rmult_lt_compat_r; [now apply Rinv_0_lt_compat|lra]).
    apply Rabs_le_between in Hw. lra.
Qed.
Lemma real_points : forall p v, In (p, v) F -> good m p.
Proof. intros p v H. subst F. unfold realF in H. apply in_flat_map in H. destruct H as (cw & _ & H). apply in_map_iff in H. destruct H as (q & E & Hq). inversion E; subst. eapply Hgood; eassumption. Qed.
Lemma good_sum : forall p, good m p -> Rsum (S m) (fun k => nth k p 0) = 1.
Proof.
  intros p [L E]. rewrite Rsum_S.
  assert (A : forall l, Rsum (length l) (fun k => nth k l 0) + fold_left Rminus l 1 = 1).
  { assert (G : forall l a, fold_left Rminus l a = a - Rsum (length l) (fun k => nth k l 0)).
    { induction l as [|x l IH]; intros a; [cbn; ring|]. cbn [fold_left length]. rewrite IH.
      rewrite (Rsum_ext (S (length l)) (fun k => nth k (x :: l) 0) (fun k => match k with O => x | S k => nth k l 0 end)) by (intros [|k] _; reflexivity).
      assert (Sh : forall n g, Rsum (S n) g = g 0%nat + Rsum n (fun k => g (S k))).
      { clear. induction n as [|n IH]; intros g; [cbn; ring|]. rewrite Rsum_S, IH, Rsum_S. ring. }
      rewrite Sh. ring. }
    intros l. rewrite G. ring. }
  specialize (A (firstn m p)). assert (Lf : length (firstn m p) = m) by (rewrite firstn_length; lia). rewrite Lf in A.
  rewrite <- A at 1. f_equal.
  - apply Rsum_ext. intros k Hk. rewrite E at 1. rewrite app_nth1 by lia. reflexivity.
  - rewrite E at 1. rewrite app_nth2 by lia. rewrite Lf, Nat.sub_diag. reflexivity.
Qed.
Lemma real_simplex : on_simplex m F.
Proof. intros p v H. pose proof (real_points p v H) as G. split; [apply G|now apply good_sum]. Qed.

Lemma real_combine : List.combine (flat_map pr f) (weight_array w) = F /\ length (weight_array w) = length (flat_map pr f).
Proof.
  destruct check_parts as (Hn & Hlen & _). subst F. unfold realF, weight_array. clear Hcheck orb. revert w Hn Hlen.
  induction f as [|c f' IH]; intros [|[n l] w'] Hn Hlen; try discriminate; [split; reflexivity|].
  cbn [List.combine flat_map fst snd]. cbn in Hlen. destruct (IH w' (fun a b d Hi => Hn a b d (or_intror Hi)) ltac:(lia)) as [I1 I2].
  pose proof (Hn c n l (or_introl eq_refl)) as En. unfold weights at 1 3. cbn [fst snd num Rarith].
  assert (Lw : length (repeat (lit_val l) n) = length (pr c)) by (rewrite repeat_length; exact En).
  split; [|rewrite !app_length, Lw, I2; reflexivity]. rewrite <- I1. clear -En. subst n.
  induction (pr c) as [|p ps IHp]; [reflexivity|]. cbn. f_equal. exact IHp.
Qed.
Lemma real_all_points : forall sym, all_points m (Quad (length (concat (flat_map pr f)) / S m) sym (concat (flat_map pr f)) (weight_array w)) = Some F.
Proof.
  intros sym. destruct real_combine as [E L]. rewrite <- E. apply all_points_ok; trivial. intros p Hp. apply in_flat_map in Hp. destruct Hp as (c & _ & Hp). eapply Hgood; eassumption.
Qed.

Lemma unit_F : unit_coords F.
Proof. intros p v Hi x Hx. pose proof (proj1 (real_inside p v Hi) x Hx). lra. Qed.
Lemma unit_Z : unit_coords (zform orb).
Proof.
  intros p v Hi x Hx. apply zform_points in Hi. destruct Hi as (ow & q & Ho & Hq & -> & _). apply in_map_iff in Hx. destruct Hx as (z & <- & Hz).
  pose proof (zform_unit ow Ho q z Hq Hz). pose proof U_pos. assert (0 < 100 / U) by (apply Rdiv_lt_0_compat; lra). lra.
Qed.
Lemma wsum_Z : wsum (zform orb) <= INR (length (zform orb)).
Proof.
  destruct check_parts as (_ & _ & _ & Hin & _).
  assert (G : forall F0 : formula, (forall p v, In (p, v) F0 -> Rabs v <= 1) -> wsum F0 <= INR (length F0)).
  { induction F0 as [|[p v] F0 IH]; intros H; [cbn; lra|]. cbn [length]. rewrite S_INR. unfold wsum. cbn [fold_right snd]. fold (wsum F0).
    pose proof (H p v (or_introl eq_refl)). specialize (IH (fun a b Hi => H a b (or_intror Hi))). lra. }
  apply G. intros p v Hi. apply zform_points in Hi. destruct Hi as (ow & q & Ho & _ & _ & ->). destruct (Hin ow Ho) as [_ W].
  destruct (approx_val (snd ow) ltac:(lia)) as (_ & B & _). apply Rabs_le. lra.
Qed.
Lemma real_length : length F = length (zform orb).
Proof. exact (Forall2_length _ _ _ _ _ real_close). Qed.

(** One point per orbit *)
Definition spread (orb0 : list orbit) : formula := flat_map (fun ow => map (fun _ => (map val (zsym (hd [] (fst ow))), val (snd ow))) (fst ow)) orb0.
Lemma spread_sum : forall orb0 h, qsum (spread orb0) h = qsum (zform (reduced orb0)) h.
Proof.
  clear. intros orb0 h. pose proof U_pos as HU. induction orb0 as [|[ps v] r IH]; [reflexivity|]. unfold spread, zform, reduced. cbn [flat_map map fst snd]. fold (spread r). fold (reduced r). fold (zform (reduced r)).
  rewrite !qsum_app, IH. f_equal. generalize (map val (zsym (hd [] ps))). intros e. unfold qsum at 2. cbn [fold_right fst snd]. unfold val at 2. rewrite mult_IZR, <- INR_IZR_INZ.
  induction ps as [|p ps IHp]; [cbn; unfold Rdiv; ring|]. cbn [map length]. unfold qsum. cbn [fold_right fst snd]. fold (qsum (map (fun _ : list Z => (e, val v)) ps) h). rewrite IHp, S_INR. unfold val. field. lra.
Qed.
Lemma spread_close : differ (300 / U) (2 / U) (map (fun pw => (esyms (fst pw), snd pw)) F) (spread orb).
Proof.
  destruct check_parts as (_ & _ & Hsym & Hin & _). pose proof real_inside as RI. pose proof U_pos as HU. pose proof dim_small as Hm.
  assert (P0 : 0 < / U) by now apply Rinv_0_lt_compat. revert Hsym Hin RI. subst F orb. unfold realF, orbits.
  induction (List.combine f w) as [|[c [n l]] r IH]; intros Hsym Hin RI; [constructor|]. cbn [flat_map map fst snd]. rewrite map_app. unfold spread. cbn [flat_map fst snd].
  apply Forall2_app; [|apply IH; intros; [apply Hsym|apply Hin|eapply RI; apply in_or_app]; right; eassumption]. rewrite map_map. cbn [fst snd].
  destruct (Hsym _ (or_introl eq_refl)) as [_ HO]. destruct (Hin _ (or_introl eq_refl)) as [HI _]. unfold one_orbit in HO. cbn [fst snd] in *. set (h := hd [] (snap_orbit (pz c))) in *. clearbody h.
  assert (RI' : forall p, In p (pr c) -> forall x, In x p -> 0 < x < 1).
  { intros p Hp. apply (RI p (lit_val l)). apply in_or_app. left. apply in_map_iff. exists p. split; trivial. }
  clear IH RI Hsym Hin. pose proof (rel_snap_orbit _ _ (Hrel c)) as R. induction R as [|a b x y Hab _ IHR]; cbn [map]; constructor.
  - cbn [fst snd]. split; [|apply rel_val; eapply rel_weaken; [apply rel_lit|lra]].
    destruct (HI a (or_introl eq_refl)) as [La Ua]. pose proof (HO a (or_introl eq_refl)) as Pa.
    assert (Va : forall x0, In x0 (map val a) -> -1 <= x0 <= 1).
    { intros x0 Hx. apply in_map_iff in Hx. destruct Hx as (z & <- & Hz). specialize (Ua z Hz). destruct (approx_val z ltac:(lia)) as (_ & B & _). lra. }
    assert (D1 : Forall2 (fun x0 y0 => Rabs (x0 - y0) <= 12 * (24 / U)) (esyms b) (esyms (map val a))).
    { apply (esyms_close m); trivial.
      - rewrite <- La. symmetry. exact (Forall2_length _ _ _ _ _ Hab).
      - unfold Rdiv. nra.
      - clear -Hab. induction Hab; cbn [map]; constructor; trivial. now apply rel_val.
      - intros x0 Hx. pose proof (RI' b (or_introl eq_refl) x0 Hx). lra. }
    assert (Lh : length h = S m) by (rewrite (Permutation_length Pa); exact La).
    rewrite <- (esyms_perm m (map val h) (map val a)) in D1; [|exact Hm|now rewrite map_length|now apply Permutation_map].
    assert (D2 : Forall2 (rel 8) (zsym h) (esyms (map val h))).
    { apply (zsym_ok m); trivial. intros z Hz. assert (Hz' : In z a) by (eapply Permutation_in; eassumption). specialize (Ua z Hz'). lia. }
    revert D1 D2. generalize (esyms b) (esyms (map val h)) (zsym h). clear -P0. intros A B Z D1. revert Z. induction D1 as [|u v A B Huv _ IHA]; intros Z D2; inversion D2; subst; cbn [map]; constructor; [|now apply IHA].
    match goal with H : rel 8 _ _ |- _ => apply rel_val in H; apply Rabs_le_between in H end. apply Rabs_le_between in Huv. apply Rabs_le_between. unfold Rdiv in *. lra.
  - apply IHR; intros; [apply HO|apply HI|eapply RI'; [right|]]; try (right; eassumption); eassumption.
Qed.
Lemma reduced_length : (length (zform (reduced orb)) <= length (zform orb))%nat.
Proof.
  destruct check_parts as (_ & _ & _ & _ & _ & Hr & _). pose proof dim_small as Hm. revert Hr. generalize orb. clear -Hm. intros l. induction l as [|[ps v] r IH]; intros Hr; [cbn; lia|].
  unfold zform, reduced. cbn [flat_map map fst snd]. fold (reduced r). fold (zform (reduced r)). fold (zform r). rewrite !app_length, !map_length. cbn [length].
  specialize (IH (fun ow Ho => Hr ow (or_intror Ho))). destruct ps as [|p ps]; [|cbn [length]; lia].
  destruct (Hr _ (or_introl eq_refl)) as [Hp _]. cbn [fst hd] in Hp. destruct (Hp _ (or_introl eq_refl)) as [L _]. cbn in L. lia.
Qed.
Lemma wsum_le : forall G : formula, (forall p v, In (p, v) G -> Rabs v <= 1) -> wsum G <= INR (length G).
Proof.
  clear. induction G as [|[p v] F0 IH]; intros H; [cbn; lra|]. cbn [length]. rewrite S_INR. unfold wsum. cbn [fold_right snd]. fold (wsum F0).
  pose proof (H p v (or_introl eq_refl)). specialize (IH (fun a b Hi => H a b (or_intror Hi))). lra.
Qed.
Lemma wsum_pos : forall G : formula, 0 <= wsum G.
Proof. clear. induction G as [|[p v] r IH]; [cbn; lra|]. unfold wsum. cbn [fold_right snd]. fold (wsum r). pose proof (Rabs_pos v). lra. Qed.
Lemma spread_points : forall e v, In (e, v) (spread orb) -> (forall x, In x e -> -1 <= x <= 1) /\ Rabs v <= 1.
Proof.
  destruct check_parts as (_ & _ & _ & Hin & _ & Hr & _). intros e v Hi. unfold spread in Hi. apply in_flat_map in Hi. destruct Hi as (ow & Ho & Hi). apply in_map_iff in Hi. destruct Hi as (p & E & Hp). inversion E; subst.
  assert (Hz : In ([zsym (hd [] (fst ow))], (Z.of_nat (length (fst ow)) * snd ow)%Z) (reduced orb)) by (unfold reduced; apply in_map_iff; exists ow; split; trivial).
  destruct (Hr _ Hz) as [A _]. destruct (A _ (or_introl eq_refl)) as [_ B]. destruct (Hin _ Ho) as [_ W]. split.
  - intros x Hx. apply in_map_iff in Hx. destruct Hx as (z & <- & Hz'). specialize (B z Hz'). destruct (approx_val z ltac:(lia)) as (_ & V & _). lra.
  - destruct (approx_val (snd ow) ltac:(lia)) as (_ & V & _). apply Rabs_le. lra.
Qed.
Lemma real_fold : forall p v, In (p, v) F -> fold_right Rplus 0 p = 1 /\ length p = S m.
Proof. intros p v Hi. pose proof (real_points p v Hi) as G. rewrite <- Rsum_fold. destruct G as [L E]. rewrite L. split; [|reflexivity]. apply good_sum. split; trivial. Qed.

Hypothesis Hmx : (o <= mx <= 21)%nat.
Lemma real_moment : forall a, length a = m -> (weight a <= o)%nat -> Rabs (qsum F (fun p => mono a (esyms p)) - emean s a) <= 552 * 6430 / U.
Proof.
  intros a Hl Hw. destruct check_parts as (_ & _ & Hsym & Hin & Hn & Hr & Hm). pose proof U_pos as HU. pose proof dim_small as Hd.
  assert (P0 : 0 < / U) by now apply Rinv_0_lt_compat.
  pose proof (momentb_ok s o mx (reduced orb) a Hl Hw Hmx Hr Hm) as E1.
  assert (UE : unit_coords (map (fun pw => (esyms (fst pw), snd pw)) F)).
  { intros e v Hi x Hx. apply in_map_iff in Hi. destruct Hi as ([p u] & E & Hi). inversion E; subst. cbn [fst] in Hx. destruct (real_fold p v Hi) as [S1 L1].
    apply (esyms_unit m p Hd L1 S1 (proj1 (real_inside p v Hi)) x Hx). }
  assert (US : unit_coords (spread orb)) by (intros e v Hi; apply (proj1 (spread_points e v Hi))).
  pose proof (qsum_pert _ (spread orb) (300 / U) (2 / U) a ltac:(unfold Rdiv; nra) spread_close UE US) as E2.
  rewrite (qsum_map F esyms (mono a)), spread_sum, map_length, real_length in E2.
  pose proof (wsum_le (spread orb) (fun e v Hi => proj2 (spread_points e v Hi))) as W. pose proof (wsum_pos (spread orb)) as W0.
  assert (LS : length (spread orb) = length (zform orb)) by (rewrite <- real_length, <- (map_length (fun pw => (esyms (fst pw), snd pw)) F); symmetry; exact (Forall2_length _ _ _ _ _ spread_close)).
  rewrite LS in W. pose proof reduced_length as Lr. apply le_INR in Hn, Lr. replace (INR 552) with 552 in Hn by (rewrite INR_IZR_INZ; reflexivity).
  assert (Ha : INR (list_sum a) <= 21).
  { apply Rle_trans with (INR 21); [apply le_INR|rewrite INR_IZR_INZ; apply IZR_le; reflexivity]. pose proof (weight_sum a o Hw). pose proof (Nat.div2_div o). pose proof (Nat.div_le_upper_bound o 2 o). lia. }
  assert (Ho : INR (o + dim s) + 100 <= 124).
  { assert (INR (o + dim s) <= INR 24) by (apply le_INR; subst m; lia). replace (INR 24) with 24 in * by (rewrite INR_IZR_INZ; reflexivity). lra. }
  pose proof (pos_INR (list_sum a)) as A0. pose proof (pos_INR (o + dim s)) as O0. pose proof (pos_INR (length (zform (reduced orb)))) as R0.
  replace (qsum F (fun p => mono a (esyms p)) - emean s a) with ((qsum F (fun p => mono a (esyms p)) - qsum (zform (reduced orb)) (mono a)) + (qsum (zform (reduced orb)) (mono a) - emean s a)) by ring.
  eapply Rle_trans; [apply Rabs_triang|]. eapply Rle_trans; [apply Rplus_le_compat; [exact E2|exact E1]|]. unfold Rdiv. set (u := / U) in *.
  assert (T1 : INR (length (zform orb)) * (2 * u) <= 552 * (2 * u)) by (apply Rmult_le_compat_r; lra).
  assert (T2 : wsum (spread orb) * (INR (list_sum a) * (300 * u)) <= 552 * (21 * (300 * u))).
  { apply Rmult_le_compat; try lra; [apply Rmult_le_pos; lra|apply Rmult_le_compat_r; lra]. }
  assert (T3 : INR (length (zform (reduced orb))) * (INR (o + dim s) + 100) * u <= 552 * 124 * u).
  { apply Rmult_le_compat_r; [lra|]. apply Rmult_le_compat; lra. }
  lra.
Qed.
Lemma real_pert : forall es, (list_sum es <= o)%nat -> Rabs (qsum F (mono es) - qsum (zform orb) (mono es)) <= 552 * 506 / U.
Proof.
  intros es Hs. destruct check_parts as (_ & _ & _ & _ & Hn & _). pose proof U_pos as HU. assert (P0 : 0 < / U) by now apply Rinv_0_lt_compat.
  eapply Rle_trans; [apply (qsum_pert F (zform orb) (24 / U) (2 / U) es ltac:(unfold Rdiv; nra) real_close unit_F unit_Z)|]. rewrite real_length.
  pose proof wsum_Z as W. pose proof (wsum_pos (zform orb)) as W0. apply le_INR in Hn. replace (INR 552) with 552 in Hn by (rewrite INR_IZR_INZ; reflexivity).
  assert (Ha : INR (list_sum es) <= 21) by (apply Rle_trans with (INR 21); [apply le_INR; lia|rewrite INR_IZR_INZ; apply IZR_le; reflexivity]). pose proof (pos_INR (list_sum es)) as A0.
  unfold Rdiv. set (u := / U) in *.
  assert (T1 : INR (length (zform orb)) * (2 * u) <= 552 * (2 * u)) by (apply Rmult_le_compat_r; lra).
  assert (T2 : wsum (zform orb) * (INR (list_sum es) * (24 * u)) <= 552 * (21 * (24 * u))).
  { apply Rmult_le_compat; try lra; [apply Rmult_le_pos; lra|apply Rmult_le_compat_r; lra]. }
  lra.
Qed.
(** Exactness for all monomials of degree at most o *)
Lemma real_exact : forall es, length es = S m -> (list_sum es <= o)%nat -> Rabs (qsum F (mono es) - exact m es) <= / 10 ^ 18.
Proof.
  intros es Hl Hs. destruct check_parts as (_ & _ & Hsym & Hin & _). pose proof U_pos as HU. pose proof dim_small as Hd. assert (P0 : 0 < / U) by now apply Rinv_0_lt_compat.
  destruct (sym_rep m es Hd Hl) as (T & T1 & T2 & T3).
  pose proof (exact_emean s es T Hl (exact_perm (dim s)) T1 T3) as EX.
  assert (QS : lsum (fun q => qsum F (mono q)) (perms es) = bsum (fun a => qsum F (fun p => mono a (esyms p))) T).
  { transitivity (qsum F (fun p => beval T (esyms p))).
    - rewrite (qsum_ext F (fun p => beval T (esyms p)) (fun p => lsum (fun q => mono q p) (perms es))).
      + generalize (perms es). intros l. clear. unfold qsum. induction F as [|[p v] G IH]; cbn [fold_right fst snd].
        * induction l as [|q l IHl]; [reflexivity|]. rewrite lsum_cons, IHl. ring.
        * rewrite lsum_plus, IH, lsum_scal. reflexivity.
      + intros p v Hi. destruct (real_fold p v Hi) as [S1 L1]. rewrite <- T3 by trivial. apply sym_perms. lia.
    - rewrite <- (qsum_map F esyms (beval T)), qsum_beval. apply bsum_ext. intros c a _. apply (qsum_map F esyms (mono a)). }
  set (N := INR (fact (S m))). assert (HN : 1 <= N) by (subst N; replace 1 with (INR 1) by reflexivity; apply le_INR; apply lt_O_fact).
  assert (D1 : Rabs (N * qsum F (mono es) - lsum (fun q => qsum F (mono q)) (perms es)) <= N * (2 * (552 * 506 / U))).
  { subst N. rewrite <- Hl, <- perms_count, <- lsum_const. apply lsum_err. intros q Hq. apply perms_in in Hq.
    pose proof (real_pert es Hs) as A. pose proof (real_pert q ltac:(rewrite (list_sum_perm _ _ Hq); exact Hs)) as B.
    rewrite (qsum_any m orb es q Hl (Permutation_sym Hq) Hin (fun ow Ho => proj1 (Hsym ow Ho))) in B. apply Rabs_le_between in A, B. apply Rabs_le_between. lra. }
  assert (D2 : Rabs (lsum (fun q => qsum F (mono q)) (perms es) - N * exact m es) <= 552 * 6430 / U * (840 * 2 ^ 21)).
  { change (N * exact m es) with (INR (fact (S (dim s))) * exact (dim s) es). rewrite QS, EX. eapply Rle_trans; [apply (bsum_err _ _ _ (552 * 6430 / U))|].
    - intros c a Hi. destruct (T1 c a Hi) as [La Wa]. apply real_moment; [exact La|lia].
    - apply Rmult_le_compat_l; [unfold Rdiv; nra|]. eapply Rle_trans; [exact T2|]. apply Rmult_le_compat_l; [lra|]. apply Rle_pow; [lra|lia]. }
  assert (D3 : N * Rabs (qsum F (mono es) - exact m es) <= N * (2 * (552 * 506 / U)) + 552 * 6430 / U * (840 * 2 ^ 21)).
  { rewrite <- (Rabs_pos_eq N) at 1 by lra. rewrite <- Rabs_mult. apply Rabs_le_between in D1, D2. apply Rabs_le_between.
    replace (N * (qsum F (mono es) - exact m es)) with (N * qsum F (mono es) - N * exact m es) by ring. lra. }
  assert (B : 2 * (552 * 506 / U) + 552 * 6430 / U * (840 * 2 ^ 21) <= / 10 ^ 18).
  { apply (Rmult_le_reg_r U); trivial. apply (Rmult_le_reg_l (10 ^ 18)); [apply pow_lt; lra|].
    replace (10 ^ 18 * (/ 10 ^ 18 * U)) with U by (field; apply pow_nonzero; lra).
    replace (10 ^ 18 * ((2 * (552 * 506 / U) + 552 * 6430 / U * (840 * 2 ^ 21)) * U)) with (10 ^ 18 * (2 * 552 * 506 + 552 * 6430 * (840 * 2 ^ 21))) by (field; lra).
    unfold U. replace (10 ^ 18) with (IZR (10 ^ 18)) by (rewrite (pow_IZR 10 18); reflexivity).
    replace (2 ^ 21) with (IZR (2 ^ 21)) by (rewrite (pow_IZR 2 21); reflexivity). rewrite <- !mult_IZR, <- plus_IZR, <- mult_IZR. apply IZR_le. vm_compute. discriminate. }
  apply (Rmult_le_reg_l N); [lra|]. eapply Rle_trans; [exact D3|].
  set (X := 552 * 6430 / U * (840 * 2 ^ 21)) in *. assert (0 <= X) by (subst X; unfold Rdiv; pose proof (two_pos 21); nra).
  assert (N * (2 * (552 * 506 / U) + X) <= N * / 10 ^ 18) by (apply Rmult_le_compat_l; lra). nra.
Qed.

(** The orbits *)
Definition real_orbits : list (list (list R) * R) := map (fun cw => (map (map val) (snap_orbit (pz (fst cw))), lit_val (snd (snd cw)))) (List.combine f w).
Lemma real_orbits_close : Forall2 (fun a b => Forall2 (fun x y => Rabs (x - y) <= 24 / U) (fst a) (fst b) /\ snd a = snd b) F
  (flat_map (fun ow => map (fun p => (p, snd ow)) (fst ow)) real_orbits).
Proof.
  subst F. unfold realF, real_orbits. clear -Hrel. induction (List.combine f w) as [|[c [n l]] r IH]; [constructor|].
  cbn [flat_map map]. apply Forall2_app; [|exact IH]. cbn [fst snd].
  pose proof (rel_snap_orbit _ _ (Hrel c)) as R. induction R as [|a b x y Hab _ IHR]; cbn [map]; constructor; trivial. cbn [fst snd]. split; trivial.
  clear -Hab. induction Hab; cbn [map]; constructor; trivial. now apply rel_val.
Qed.
Lemma permuted_id : forall n (l : list R), length l = n -> permuted (seq 0 n) l = l.
Proof. intros n l H. subst n. unfold permuted. induction l as [|x l IH]; [reflexivity|]. cbn [length seq map nth]. f_equal. rewrite <- seq_shift, map_map. exact IH. Qed.
Lemma real_orbits_closed : forall ow, In ow real_orbits -> closed_orbit m (fst ow).
Proof.
  intros ow Ho. destruct check_parts as (_ & _ & Hsym & Hin & _). unfold real_orbits in Ho. apply in_map_iff in Ho. destruct Ho as (cw & <- & Hc). cbn [fst].
  set (oz := (snap_orbit (pz (fst cw)), zlit (snd (snd cw)))). assert (Hz : In oz orb) by (subst orb; unfold orbits; apply in_map_iff; exists cw; split; trivial).
  destruct (Hsym oz Hz) as [Hsym' _]. clear Hsym. rename Hsym' into Hsym. destruct (Hin oz Hz) as [Hp _]. subst oz. cbn [fst] in *. intros q Hq.
  assert (Lq : length q = S m) by (rewrite (Permutation_length Hq), seq_length; reflexivity).
  set (O := map (map val) (snap_orbit (pz (fst cw)))).
  assert (HO : forall p, In p O -> length p = S m) by (intros p Hi; apply in_map_iff in Hi; destruct Hi as (z & <- & Hi); rewrite map_length; now apply Hp).
  assert (SO : forall j, (j < m)%nat -> Permutation O (map (swap_at j) O)).
  { intros j Hj. pose proof (Permutation_map (map val) (Hsym j Hj)) as P. rewrite map_map in P. subst O. rewrite map_map.
    etransitivity; [exact P|]. erewrite map_ext; [apply Permutation_refl|]. intros a. apply swap_at_map. }
  refine (proj2 (adjacent _ (fun l => length l = S m /\ Permutation (map (permuted l) O) O) _ (seq 0 (S m)) q (Permutation_sym Hq) _)).
  - intros j l Hj [Ll Pl]. split; [now rewrite swap_at_length|].
    assert (E : map (permuted (swap_at j l)) O = map (swap_at j) (map (permuted l) O)).
    { rewrite map_map. apply map_ext. intros a. unfold permuted. apply swap_at_map. }
    rewrite E. etransitivity; [apply Permutation_map; exact Pl|]. symmetry. apply SO. lia.
  - split; [apply seq_length|]. erewrite map_ext_in; [rewrite map_id; apply Permutation_refl|]. intros p Hi. apply permuted_id. now apply HO.
Qed.
Lemma real_orbits_sizes : map (fun ow => length (fst ow)) real_orbits = map (fun cw => length (pz (fst cw))) (List.combine f w).
Proof. unfold real_orbits. rewrite map_map. apply map_ext. intros cw. cbn [fst]. unfold snap_orbit. now rewrite !map_length. Qed.
End Table.
