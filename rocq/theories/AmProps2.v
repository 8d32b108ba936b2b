From Coq Require Import Lra Lia.
From Verif Require Import Prelude RSum GeoModel DenseSpec QrSpec SvdModel SvdSpec AmModel AmSpec AmSpec2 AmSpec3 AmProofs AmProofs2 AmProofs3 AmProofs4 AmProofs6 AmProofs7 AmProofs8 AmProps.
Local Open Scope R_scope.

(** What the traits do to a matrix: its eigenvectors are kept, its eigenvalues become the limited ones; the metric of a cell is
    that, times its determinant to the power -1/5. *)
Theorem C60_limits : forall eps sweeps ke tr a, 0 <= eps -> sane ke tr -> symmetric 3 a -> exists l q ch M, analysed eps sweeps a l q /\
  clamp_spectrum eps sweeps ke tr (store 3 3 a) = Some (ch, store 3 3 (factors 3 q (limited tr l) q)) /\ absH_to_M eps sweeps ke tr (store 3 3 a) = Some (store 3 3 M) /\
  ((ke < limited tr l 0%nat * limited tr l 1%nat * limited tr l 2%nat -> forall i j, (i < 3)%nat -> (j < 3)%nat -> M i j = factors 3 q (scaled (limited tr l)) q i j) /\
   (limited tr l 0%nat * limited tr l 1%nat * limited tr l 2%nat <= ke -> forall i j, (i < 3)%nat -> (j < 3)%nat -> M i j = iso tr * identity i j)).
Proof.
  intros eps sweeps ke tr a He Hs Sy. destruct (analysed_ok eps sweeps He a Sy) as (l & q & E & B & An). assert (A : ascending l) by apply An. destruct (clamp_exact eps sweeps ke tr a l q Hs E B A) as [ch Ec]. pose proof (absH_exact eps sweeps ke tr a l q Hs E B A) as Em.
  unfold det3 in Em. destruct (Rlt_dec ke _) as [L|L]; [exists l, q, ch, (factors 3 q (scaled (limited tr l)) q)|exists l, q, ch, (fun i j => iso tr * identity i j)];
    (split; [exact An|]; split; [exact Ec|]; split; [exact Em|]; split; intros Q i j Hi Hj; try reflexivity; lra).
Qed.
Print Assumptions C60_limits.

(** A node without a regular cell, where some eigenvalue exceeds M_lambda_min: the cell with the most such eigenvalues, and among those
    with the largest product of them, counts; its other eigenvalues become the smallest of those. *)
Theorem C60_lifted : forall eps sweeps ke tr any patch m, 0 <= eps -> sane ke tr -> Forall wf patch -> existsb usable patch = false -> (forall v, In v patch -> exists A, absH v = store 3 3 A /\ symmetric 3 A) ->
  (exists v, In v patch /\ (0 < rank (lam_min tr) v)%nat) -> (6 <= length m)%nat ->
  exists v A l q B M ch N m', In v patch /\ (forall w, In w patch -> (rank (lam_min tr) w < rank (lam_min tr) v)%nat \/ rank (lam_min tr) w = rank (lam_min tr) v /\ weight (lam_min tr) w <= weight (lam_min tr) v) /\
    absH v = store 3 3 A /\ analysed eps sweeps A l q /\
    ((exists j, (j < 3)%nat /\ lam_min tr < l j) -> exists l', lifted (lam_min tr) l l' /\ forall i j, (i < 3)%nat -> (j < 3)%nat -> B i j = factors 3 q l' q i j) /\
    ((forall j, (j < 3)%nat -> l j <= lam_min tr) -> forall i j, (i < 3)%nat -> (j < 3)%nat -> B i j = A i j) /\
    absH_to_M eps sweeps ke tr (store 3 3 B) = Some (store 3 3 M) /\ clamp_spectrum eps sweeps ke tr (store 3 3 M) = Some (ch, store 3 3 N) /\
    node_metric eps sweeps ke tr any patch m = Some m' /\ kept m m' /\ forall i j, (i < 3)%nat -> (j < 3)%nat -> metric_of m' i j = N i j.
Proof.
  intros eps sweeps ke tr any patch m He Hs Hw Hx HA (v0 & Hv0 & Rv0) Hm. set (t := lam_min tr) in *.
  destruct (pick_rank_best t patch None) as (v & Ev & Hv & Mv); [discriminate|left; intros ->; destruct Hv0|]. destruct Hv as [Hv|(? & ? & [=])].
  assert (Rv : (0 < rank t v)%nat) by (destruct (Mv v0 (or_introl Hv0)) as [|[? _]]; lia).
  destruct (HA v Hv) as (A & EA & Sy). destruct (analysed_ok eps sweeps He A Sy) as (l & q & E & B & An). assert (As : ascending l) by apply An.
  assert (Lf : exists Bm, lift_zero eps sweeps t (m9 A) = Some (m9 Bm) /\ ((exists j, (j < 3)%nat /\ t < l j) -> exists l', lifted t l l' /\ forall i j, (i < 3)%nat -> (j < 3)%nat -> Bm i j = factors 3 q l' q i j) /\ ((forall j, (j < 3)%nat -> l j <= t) -> forall i j, (i < 3)%nat -> (j < 3)%nat -> Bm i j = A i j)).
  { destruct (Rlt_dec t (l 2%nat)) as [L|L].
    - destruct (lift_exact eps sweeps t A l q E B As) as (l' & El & Ll & _); [exists 2%nat; split; [lia|exact L]|]. exists (factors 3 q l' q). split; [exact El|]. split; [intros _; exists l'; auto|]. intros N. specialize (N 2%nat ltac:(lia)). lra.
    - exists A. split; [|split; [intros (j & Hj & Lj)|reflexivity]].
      + unfold lift_zero. rewrite E. cbn [obind]. unfold min_above, above, gt, e3. cbn [filter]. destruct As as [A1 A2]. destruct (Rlt_dec t (l 0%nat)), (Rlt_dec t (l 1%nat)), (Rlt_dec t (l 2%nat)); try lra. reflexivity.
      + destruct As as [A1 A2]. destruct j as [|[|[|]]]; try lia; lra. }
  destruct Lf as (Bm & El & L1 & L2). destruct (absH_to_M_ok eps sweeps ke He tr Bm Hs) as [M EM]. destruct (clamp_spectrum_ok eps sweeps ke He tr M Hs) as (ch & e & q' & Ec & _ & _).
  destruct (to_voigt_ok (factors 3 q' e q') m (factors_sym e q') Hm) as (m' & Em & K & Hm').
  exists v, A, l, q, Bm, M, ch, (factors 3 q' e q'), m'. split; [exact Hv|]. split.
  { intros w Hin. destruct (Mv w (or_introl Hin)) as [Q|[Q P]]; [now left|]. right. split; [exact Q|]. rewrite <- !prod_weight by lia. exact P. }
  split; [exact EA|]. split; [exact An|]. split; [exact L1|]. split; [exact L2|]. split; [exact EM|]. split; [exact Ec|]. split; [|split; [exact K|exact Hm']].
  unfold node_metric, raw_metric. fold usable. change (fun v : view => negb (degen v)) with usable. rewrite Hx. unfold all_degenerate. fold t. rewrite Ev. destruct (rank t v) eqn:Er; [lia|]. rewrite EA. change (store 3 3 A) with (m9 A). rewrite El. cbn [obind].
  destruct patch as [|p0 pl]; [destruct Hv|]. rewrite EM. cbn [obind]. rewrite Ec. cbn [obind]. exact Em.
Qed.
Print Assumptions C60_lifted.

(** Strategy 1, metrics of all cells diagonal: the geometric mean in each direction. *)
Theorem C60_mean_diagonal : forall eps sweeps ke tr any patch ds m, 0 <= eps -> sane ke tr -> strategy tr <> 0%nat -> patch <> [] ->
  Forall2 (fun v d => absH v = store 3 3 (diag d) /\ length (sv v) = 3%nat /\ degen v = false /\ inside tr d /\ ke < d 0%nat * d 1%nat * d 2%nat /\ inside tr (scaled d)) patch ds -> (6 <= length m)%nat ->
  exists m', node_metric eps sweeps ke tr any patch m = Some m' /\ kept m m' /\ forall i j, (i < 3)%nat -> (j < 3)%nat -> metric_of m' i j = diag (geometric (map scaled ds)) i j.
Proof. intros. now apply mean_diag. Qed.
Print Assumptions C60_mean_diagonal.

(** Non-vacuity. *)
Definition lift_traits : traits := {| heur := false; strategy := 1; lam_min := 1 / 100; lam_max := 100; lam_rel := 100; h_rel := 1000; boost := 1; iso := 1 |}.
Definition flat (a b : R) : view := {| absH := store 3 3 (diag (fun i => match i with O => 0 | 1%nat => a | _ => b end)); sv := [0; a; b]; degen := true; vvol := 1 |}.
Example lifted_ex : sane (1 / 1000) lift_traits /\ Forall wf [flat 0 5; flat 2 3] /\ existsb usable [flat 0 5; flat 2 3] = false /\ (forall v, In v [flat 0 5; flat 2 3] -> exists A, absH v = store 3 3 A /\ symmetric 3 A) /\ rank (1 / 100) (flat 0 5) = 1%nat /\ rank (1 / 100) (flat 2 3) = 2%nat /\ weight (1 / 100) (flat 2 3) = 6.
Proof.
  split; [unfold sane; cbn; lra|]. split; [repeat constructor|]. split; [reflexivity|]. split; [intros v [<-|[<-|[]]]; eexists; (split; [reflexivity|apply diag_sym])|].
  unfold rank, weight, exceeding, flat. cbn [sv filter]. repeat destruct (Rlt_dec _ _); try lra. cbn. repeat split; ring.
Qed.
Example limited_ex : limited lift_traits (fun k => match k with O => 0 | 1%nat => 1 | _ => 1000 end) 0%nat = 1 / 10 /\ limited lift_traits (fun k => match k with O => 0 | 1%nat => 1 | _ => 1000 end) 2%nat = 10.
Proof.
  unfold limited. cbn [lam_min lam_max lam_rel lift_traits]. rewrite (Rmax_left 100 1) by lra. replace (nearest (1 / 100) 100 0) with (1 / 100) by (unfold nearest; rewrite Rmax_left, Rmin_right; lra).
  replace (nearest (1 / 100) 100 1000) with 100 by (unfold nearest; rewrite Rmax_right, Rmin_left; lra). replace (nearest (1 / 100) 100 1) with 1 by (unfold nearest; rewrite Rmax_right, Rmin_right; lra).
  replace (1 / 100 * 1 * 100) with 1 by field. assert (P : Rpower 1 (1 / 3) = 1) by (unfold Rpower; now rewrite ln_1, Rmult_0_r, exp_0). rewrite P.
  assert (S10 : sqrt 100 = 10) by (replace 100 with (10 * 10) by ring; apply sqrt_square; lra). rewrite S10. destruct (Rlt_dec _ _); [|lra]. unfold nearest, Rmin, Rmax. split; repeat destruct (Rle_dec _ _); lra.
Qed.
Example mean_diagonal_ex : Forall2 (fun v d => absH v = store 3 3 (diag d) /\ length (sv v) = 3%nat /\ degen v = false /\ inside mean_traits d /\ 1 / 1000 < d 0%nat * d 1%nat * d 2%nat /\ inside mean_traits (scaled d)) [tie_view tie_a; tie_view tie_b] [tie_a; tie_b].
Proof.
  assert (G : forall d, d = tie_a \/ d = tie_b -> inside mean_traits d /\ 1 / 1000 < d 0%nat * d 1%nat * d 2%nat /\ inside mean_traits (scaled d)); [|constructor; [|constructor; [|constructor]]; repeat split; apply G; auto].
  intros d Hd. pose proof tie_scale as Hs. assert (P : d 0%nat * d 1%nat * d 2%nat = 8) by (destruct Hd as [-> | ->]; cbn; lra). assert (Rg : forall i, 1 <= d i <= 4) by (intros i; destruct Hd as [-> | ->]; destruct i as [|[|i]]; cbn; lra).
  assert (Mx : Rmax (lam_rel mean_traits) 1 = 100) by (cbn; rewrite Rmax_left; lra). rewrite P. split; [|split; [lra|]].
  - split; [intros i _; specialize (Rg i); cbn [lam_min lam_max mean_traits]; lra|]. intros i j _ _. rewrite Mx. pose proof (Rg i). pose proof (Rg j). lra.
  - unfold scaled. rewrite P. split; [intros i _; specialize (Rg i); cbn [lam_min lam_max mean_traits]; nra|]. intros i j _ _. rewrite Mx. pose proof (Rg i). pose proof (Rg j). nra.
Qed.
