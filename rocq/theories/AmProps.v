From Coq Require Import Lra Lia Permutation.
From Verif Require Import Prelude RSum GeoModel GeoSpec DenseSpec QrSpec SvdModel SvdSpec SvdProofs2 AmModel AmSpec AmSpec2 AmProofs AmProofs2 AmProofs3 AmProofs4 AmProofs5 AmProofs6 AmProofs7.
Local Open Scope R_scope.

(** Every node gets a metric within the bounds of the traits, whatever the field, the mesh, the strategy and the outcome of the
    eigensolver; numbers of the array beyond the sixth are kept. *)
Theorem C60_bounds : forall eps sweeps ke tr nfa cells nodes, 0 <= eps -> sane ke tr -> wf_mesh nfa cells nodes ->
  exists res, construct eps sweeps ke tr nfa cells nodes = Some res /\
    Forall2 (fun n m => kept (snd n) m /\ between (lam_min tr) (lam_max tr) (metric_of m) /\ anisotropy (Rmax (lam_rel tr) 1) (metric_of m)) nodes res.
Proof.
  intros eps sweeps ke tr nfa cells nodes He Hs Hw. destruct (construct_ok eps sweeps ke He tr nfa cells nodes Hs Hw) as (any & res & E & H & _). exists res. split; [exact E|]. destruct Hw as (_ & _ & Hn). clear E.
  induction H as [|n m nodes res (patch & Hp & En) H IH]; constructor; [|apply IH; intros; apply Hn; now right].
  destruct (node_ok eps sweeps ke He tr any patch (snd n) Hs (seen_wf _ _ _ _ _ _ _ _ Hp) ltac:(apply Hn; now left)) as (m' & e & q & E' & K & B & (A & I1 & I2) & Hm).
  assert (m' = m) as -> by congruence. split; [exact K|]. destruct Hs as (? & ? & ?). destruct A as [A1 A2].
  assert (Bt : between (e 0%nat) (e 2%nat) (metric_of m)).
  { intros x. rewrite (form_ext _ _ x Hm). apply (factors_between (e 0%nat) (e 2%nat) e q B). intros i Hi. destruct i as [|[|[|i]]]; try lia; lra. }
  destruct (I1 0%nat ltac:(lia)), (I1 2%nat ltac:(lia)). split.
  - intros x. rewrite (form_ext _ _ x Hm). now apply (factors_between (lam_min tr) (lam_max tr) e q B).
  - assert (1 <= Rmax (lam_rel tr) 1) by apply Rmax_r. eapply between_aniso; [| | |exact Bt]; lra.
Qed.
Print Assumptions C60_bounds.

(** The array of a node depends on |H| of its own cells, in their order, and on whether some cell of the whole mesh has a
    nonzero |H|; on nothing else of the mesh, hence not on the schedule or the distribution. *)
Theorem C60_nodes : forall eps sweeps ke tr nfa cells nodes, 0 <= eps -> sane ke tr -> wf_mesh nfa cells nodes -> exists any res, construct eps sweeps ke tr nfa cells nodes = Some res /\
  Forall2 (fun n m => exists patch, node_metric eps sweeps ke tr any patch (snd n) = Some m /\
    Forall2 (fun i v => exists c A s dg, nth_error cells i = Some c /\ cell_H eps sweeps ke tr nfa c = Some (A, s, dg) /\ v = {| absH := A; sv := s; degen := dg; vvol := c_vol c |}) (fst n) patch) nodes res /\
  (any = true <-> exists c A s dg, In c cells /\ cell_H eps sweeps ke tr nfa c = Some (A, s, dg) /\ ke < nth 2 s 0).
Proof.
  intros eps sweeps ke tr nfa cells nodes He Hs Hw. destruct (construct_ok eps sweeps ke He tr nfa cells nodes Hs Hw) as (any & res & E & H & Ha). exists any, res. split; [exact E|]. split.
  - clear - H. induction H as [|n m nodes res (patch & Hp & En) H IH]; constructor; [|exact IH]. exists patch. split; [exact En|]. clear - Hp. induction Hp as [|i v idx patch (c & Ec & A & s & dg & Eh & -> & _) Hp IH]; constructor; [|exact IH]. exists c, (m9 A), (e3 s), dg. auto.
  - rewrite Ha. assert (Hk : 0 <= ke) by (destruct Hs; lra). destruct Hw as (Hn & Hc & _). split.
    + intros (c & A & s & dg & Hin & Ec & L). exists c, (m9 A), (e3 s), dg. auto.
    + intros (c & A & s & dg & Hin & Ec & L). destruct (cell_H_ok eps sweeps ke He tr nfa c Hk Hn (Hc c Hin)) as (A' & s' & dg' & E' & _). exists c, A', s', dg'. split; [exact Hin|]. split; [exact E'|]. rewrite Ec in E'. injection E' as -> -> ->. exact L.
Qed.
Print Assumptions C60_nodes.

(** A zero field gives the fallback, brought into the bounds, at every node. *)
Theorem C60_zero : forall eps sweeps ke tr nfa cells nodes, 0 <= eps -> sane ke tr -> wf_mesh nfa cells nodes -> (forall c x, In c cells -> In x (c_d c) -> x = 0) ->
  exists res, construct eps sweeps ke tr nfa cells nodes = Some res /\ Forall2 (fun n m => kept (snd n) m /\ scalar_metric (nearest (lam_min tr) (lam_max tr) (iso tr)) m) nodes res.
Proof.
  intros eps sweeps ke tr nfa cells nodes He Hs Hw Hz. destruct (construct_ok eps sweeps ke He tr nfa cells nodes Hs Hw) as (any & res & E & H & Hany). exists res. split; [exact E|]. destruct Hw as (_ & Hc & Hn). clear E.
  assert (Z : forall c, In c cells -> cell_H eps sweeps ke tr nfa c = Some (m9 (fun _ _ => 0), e3 (fun _ => 0), true)).
  { intros c Hin. unfold cell_H. rewrite sum_abs_ok. replace (total (map Rabs (c_d c))) with 0; [destruct (Rlt_dec 0 0); [lra|]; now rewrite zero9_ok|].
    specialize (Hz c). induction (c_d c) as [|x d IH]; [reflexivity|]. cbn [map total fold_right]. rewrite (Hz x Hin ltac:(now left)), Rabs_R0. unfold total in IH. rewrite <- IH; [ring|]. intros y Hy1 Hy. apply Hz; [assumption|now right]. }
  assert (Na : any = false).
  { destruct any; [|reflexivity]. destruct Hany as [Hany _]. destruct (Hany eq_refl) as (c & A & s & dg & Hin & Ec & L). rewrite (Z c Hin) in Ec. injection Ec as _ _ _ _ _ _ _ _ _ _ _ Q _. destruct Hs as (? & _). lra. }
  subst any. induction H as [|n m nodes res (patch & Hp & En) H IH]; constructor; [|apply IH; intros; apply Hn; now right].
  assert (Hr : raw_metric eps sweeps ke tr false patch = Some (eye9 (iso tr))).
  { destruct patch as [|v0 l0]; [reflexivity|]. assert (Wp := seen_wf _ _ _ _ _ _ _ _ Hp). set (l := v0 :: l0) in *.
    assert (V : forall v, In v l -> sv v = [0; 0; 0] /\ degen v = true).
    { clear - Hp Z. induction Hp as [|i v idx patch (c & Ec & A & s & dg & Eh & -> & _) Hp IH]; [intros v []|]. intros w [<-|Hw]; [|auto]. cbn [sv degen cell_view]. rewrite (Z c) in Eh by (eapply nth_error_In; exact Ec). assert (Qs : e3 (fun _ => 0) = e3 s) by congruence. split; [symmetry; exact Qs|congruence]. }
    rewrite (raw_small eps sweeps ke tr false l); [reflexivity|discriminate|exact Wp| |].
    - destruct (existsb usable l) eqn:Q; [|reflexivity]. apply existsb_exists in Q. destruct Q as (v & Hv & U). unfold usable in U. destruct (V v Hv) as [_ Dv]. rewrite Dv in U. discriminate.
    - apply Forall_forall. intros v Hv x. destruct (V v Hv) as [-> _]. destruct Hs as (? & ? & _). intros [<-|[<-|[<-|[]]]]; lra. }
  destruct (node_scalar eps sweeps ke He tr false patch (snd n) (iso tr) Hs ltac:(apply Hn; now left) Hr) as (m' & E' & K & Sc). assert (m' = m) as -> by congruence. auto.
Qed.
Print Assumptions C60_zero.

(** The node loop. Cells with degenerate second derivatives do not influence the node as long as there is another one. *)
Theorem C60_degenerate_ignored : forall eps sweeps ke tr any patch m, existsb usable patch = true ->
  node_metric eps sweeps ke tr any (filter usable patch) m = node_metric eps sweeps ke tr any patch m.
Proof. intros. unfold node_metric. now rewrite raw_filter. Qed.
Print Assumptions C60_degenerate_ignored.

(** Strategy 0: the metric is that of one cell, nondegenerate and with the largest determinant. *)
Theorem C60_max_det : forall eps sweeps ke tr any patch m, strategy tr = 0%nat -> Forall wf patch -> existsb usable patch = true ->
  exists v, In v patch /\ degen v = false /\ (forall w, In w patch -> degen w = false -> det_of w <= det_of v) /\ node_metric eps sweeps ke tr any patch m = node_metric eps sweeps ke tr any [v] m.
Proof.
  intros eps sweeps ke tr any patch m H0 Hw Hx. destruct (raw_max eps sweeps ke tr any patch H0 Hw Hx) as (v & H1 & H2 & H3 & H4). exists v. repeat split; auto. unfold node_metric. now rewrite H4.
Qed.
Print Assumptions C60_max_det.

(** Strategy 1: neither the order of the cells nor repetitions of a single cell matter, and bounds of the metrics of all
    cells are bounds of the metric of the node. *)
Theorem C60_mean_order : forall eps sweeps ke tr any patch patch' m, 0 <= eps -> strategy tr <> 0%nat -> sane ke tr -> Forall wf patch -> existsb usable patch = true -> Permutation patch patch' ->
  node_metric eps sweeps ke tr any patch m = node_metric eps sweeps ke tr any patch' m.
Proof. intros. unfold node_metric. erewrite raw_perm; eauto. Qed.
Print Assumptions C60_mean_order.
Theorem C60_copies : forall eps sweeps ke tr any v n m, 0 <= eps -> sane ke tr -> wf v -> degen v = false ->
  node_metric eps sweeps ke tr any (repeat v (S n)) m = node_metric eps sweeps ke tr any [v] m.
Proof. intros. unfold node_metric. rewrite raw_repeat; auto. Qed.
Print Assumptions C60_copies.
Theorem C60_mean_bounds : forall eps sweeps ke tr any patch m lo hi, 0 <= eps -> strategy tr <> 0%nat -> sane ke tr -> Forall wf patch -> existsb usable patch = true -> (6 <= length m)%nat ->
  lam_min tr <= lo <= hi -> hi <= lam_max tr -> hi <= Rmax (lam_rel tr) 1 * lo ->
  (forall v M, In v patch -> degen v = false -> absH_to_M eps sweeps ke tr (absH v) = Some (store 3 3 M) -> between lo hi M) ->
  exists m', node_metric eps sweeps ke tr any patch m = Some m' /\ kept m m' /\ between lo hi (metric_of m').
Proof.
  intros eps sweeps ke tr any patch m lo hi He H1 Hs Hw Hx Hm Hlo Hh Hr HM. assert (Hk : 0 < ke <= lo) by (destruct Hs as (? & ? & ?); lra).
  destruct (mean_between eps sweeps ke He tr lo hi patch Hs Hk ltac:(lra) Hw Hx HM) as (X & EX & BX).
  assert (Rw : raw_metric eps sweeps ke tr any patch = Some (m9 X)). { unfold raw_metric. fold usable. rewrite Hx. destruct (Nat.eqb_spec (strategy tr) 0); [contradiction|]. rewrite EX. now destruct patch. }
  destruct (clamp_keeps eps sweeps ke He tr lo hi X Hs ltac:(lra) Hh Hr BX) as (ch & e & q & Ec & B & _ & Bt). unfold node_metric. rewrite Rw. cbn [obind]. rewrite Ec. cbn [obind].
  destruct (to_voigt_ok (factors 3 q e q) m (factors_sym e q) Hm) as (m' & Em & K & Hm'). exists m'. split; [exact Em|]. split; [exact K|]. intros x. rewrite (form_ext _ _ x Hm'). apply Bt.
Qed.
Print Assumptions C60_mean_bounds.

(** |H| diagonal and within the bounds, as is its multiple by det^(-1/5): that multiple is the metric, with both strategies. *)
Theorem C60_diagonal : forall eps sweeps ke tr any v m d, 0 <= eps -> sane ke tr -> inside tr d -> ke < d 0%nat * d 1%nat * d 2%nat -> inside tr (scaled d) ->
  absH v = store 3 3 (diag d) -> length (sv v) = 3%nat -> degen v = false -> (6 <= length m)%nat ->
  exists m', node_metric eps sweeps ke tr any [v] m = Some m' /\ kept m m' /\ forall i j, (i < 3)%nat -> (j < 3)%nat -> metric_of m' i j = diag (scaled d) i j.
Proof. intros. eapply node_diag; eauto. Qed.
Print Assumptions C60_diagonal.

(** The metric of a cell: |H| with admissible eigenvalues times det^(-1/5). *)
Theorem C60_scaling : forall eps sweeps ke tr a, 0 <= eps -> sane ke tr -> exists N e q M, absH_to_M eps sweeps ke tr (store 3 3 a) = Some (store 3 3 M) /\ spectrum N e q /\ ascending e /\
  (forall i, (i < 3)%nat -> lam_min tr <= e i <= lam_max tr) /\ e 2%nat <= Rmax (lam_rel tr) 1 * e 0%nat /\
  forall i j, (i < 3)%nat -> (j < 3)%nat -> M i j = if Rlt_dec ke (e 0%nat * e 1%nat * e 2%nat) then Rpower (e 0%nat * e 1%nat * e 2%nat) (- (1 / 5)) * N i j else iso tr * identity i j.
Proof.
  intros eps sweeps ke tr a He Hs. rewrite store3. unfold absH_to_M. destruct (analyze_ok eps sweeps He a) as (e & q & E & B & _). rewrite E. cbn [obind].
  destruct (clamp_evals_ok ke tr e q Hs B) as (ch & e' & q' & E' & B' & (A1 & A2 & A3) & _). rewrite E'. cbn [obind]. rewrite reconstruct_ok. cbn [obind sdet e3 rd nth_error].
  exists (factors 3 q' e' q'), e', q'. destruct (Rlt_dec ke (e' 0%nat * e' 1%nat * e' 2%nat)).
  - rewrite dense_scale_ok. eexists. split; [reflexivity|]. split; [now apply factors_spectrum|]. repeat split; try apply A1; try apply A2; auto. intros i j _ _. unfold pow_m02. ring.
  - rewrite eye9_ok. eexists. split; [reflexivity|]. split; [now apply factors_spectrum|]. repeat split; try apply A1; try apply A2; auto.
Qed.
Print Assumptions C60_scaling.

(** |H|: exact eigenvectors q with the values |e|, where H q = e q up to 90 eps when the solver succeeds.  Without success nothing
    but e = q^T H q is known. *)
Theorem C60_abs_partial : forall eps sweeps a, 0 <= eps -> symmetric 3 a -> exists A s q e, spectral_abs eps sweeps (store 3 3 a) = Some (store 3 3 A, arr 3 s) /\ spectrum A s q /\ ascending s /\
  (forall k, (k < 3)%nat -> s k = Rabs (e k) /\ e k = form a (column q k)) /\
  ((exists e0 V0, jacobi_eigen eps sweeps 3 (store 3 3 a) [0; 0; 0] (repeat 0 9) = Some (true, e0, V0)) -> eigen_pairs 3 a (10 * INR 3 * INR 3 * eps) e q).
Proof.
  intros eps sweeps a He Sy. destruct (spectral_abs_ok eps sweeps He a) as (s & q & e & E & B & A & Hs & So). exists (factors 3 q s q), s, q, e. split; [exact E|]. split; [now apply factors_spectrum|]. split; [exact A|]. split; [exact Hs|].
  intros (e0 & V0 & E0). assert (S0 : solved eps sweeps a). { unfold solved. rewrite (m9_ext (symm a) a (symm_id a Sy)). exists e0, V0. exact E0. }
  destruct (So S0) as [P1 P2]. split; [exact P1|]. intros j Hj. destruct (P2 j Hj) as [Q1 Q2].
  assert (Eq : forall i, (i < 3)%nat -> mult 3 (symm a) (column q j) i = mult 3 a (column q j) i) by (intros i Hi; apply Rsum_ext; intros k Hk; now rewrite symm_id). split.
  - rewrite <- Q1. apply Rsum_ext. intros i Hi. now rewrite Eq.
  - eapply Rle_trans; [|exact Q2]. right. unfold norm2. f_equal. apply Rsum_ext. intros i Hi. now rewrite Eq.
Qed.
Print Assumptions C60_abs_partial.

(** The second derivatives of a quadratic polynomial are found exactly from the integrals of its gradient over the faces; in
    general the result is symmetric. *)
Theorem C60_hessian : forall nfa c af v b G, tetdet (c_x c 0%nat) (c_x c 1%nat) (c_x c 2%nat) (c_x c 3%nat) <> 0 -> c_vol c = volume (c_x c) ->
  (forall f, (f < 4)%nat -> c_A c f = store 3 nfa (af f)) -> symmetric 3 G ->
  (forall f j, (f < 4)%nat -> (j < 3)%nat -> Rsum nfa (fun k => af f j k * v k) = face_flux (c_x c) b G f j) ->
  compute_H2 nfa c (arr nfa v) = Some (store 3 3 G).
Proof.
  intros nfa c af v b G Hd Hv Hc Sy H. assert (0 < c_vol c) by (rewrite Hv; unfold volume; apply Rabs_pos_lt in Hd; lra).
  rewrite (compute_H2_ok nfa c af v Hc) by assumption. f_equal. change (store 3 3 G) with (m9 G). apply m9_ext. intros i j Hi Hj. rewrite Hv, (hess_exact nfa (c_x c) af v G b Hd H) by assumption. now apply symm_id.
Qed.
Print Assumptions C60_hessian.

(** The weights of the dofs: nonnegative, proportional to |d|, their sum is |(B d, d)|. *)
Theorem C60_weights : forall nfa B d, length d = nfa -> length B = (nfa * nfa)%nat -> 0 < total (map Rabs d) ->
  exists al, fill_alpha true nfa B d (sum_abs d) = Some al /\ length al = nfa /\ total al = Rabs (product nfa B d) /\
    forall k, (k < nfa)%nat -> 0 <= nth k al 0 /\ nth k al 0 * total (map Rabs d) = Rabs (nth k d 0) * total al.
Proof.
  intros nfa B d Hd HB Ht. rewrite fill_alpha_ok, sum_abs_ok by assumption. destruct (Rlt_dec 0 (total (map Rabs d))); [|contradiction]. set (T := total (map Rabs d)) in *. eexists. split; [reflexivity|]. split; [now rewrite map_length|].
  assert (Tt : total (map (fun x => Rabs x * Rabs (product nfa B d) / T) d) = Rabs (product nfa B d)).
  { replace (map (fun x => Rabs x * Rabs (product nfa B d) / T) d) with (map (fun x => Rabs x * (Rabs (product nfa B d) / T)) d) by (apply map_ext; intros; field; lra). rewrite total_scal. fold T. field. lra. }
  split; [exact Tt|]. intros k Hk. rewrite Tt. rewrite (nth_indep _ 0 (Rabs 0 * Rabs (product nfa B d) / T)) by (rewrite map_length; lia). rewrite (map_nth (fun x => Rabs x * Rabs (product nfa B d) / T)). split.
  - apply Rmult_le_pos; [apply Rmult_le_pos; apply Rabs_pos|]. left. now apply Rinv_0_lt_compat.
  - field. lra.
Qed.
Print Assumptions C60_weights.

(** What a cell stores: |H| with nonnegative ascending values, flagged exactly if they are degenerate, whether or not the largest
    dof was raised; the node loop reads it back unchanged. *)
Theorem C60_cell : forall eps sweeps ke tr nfa c, 0 <= eps -> 0 <= ke -> (0 < nfa)%nat -> wf_cell nfa c -> exists A s dg q m, cell_H eps sweeps ke tr nfa c = Some (store 3 3 A, arr 3 s, dg) /\
  spectrum A s q /\ ascending s /\ 0 <= s 0%nat /\ (dg = true <-> flag ke tr s) /\
  stored eps sweeps ke tr nfa c = Some m /\ load ke (c_vol c) m = Some {| absH := store 3 3 A; sv := arr 3 s; degen := dg; vvol := c_vol c |}.
Proof.
  intros eps sweeps ke tr nfa c He Hk Hn Hc. destruct (stored_ok eps sweeps ke He tr nfa c Hk Hn Hc) as (A & s & dg & m & E & Eh & (G1 & G2 & q & B & Hq) & F & _ & El).
  exists A, s, dg, q, m. repeat split; auto; try apply G1; try apply F; try apply B.
  - intros i j Hi Hj. rewrite !Hq by assumption. now apply factors_sym.
  - intros i k Hi Hk'. destruct (factors_spectrum s q B) as (_ & _ & _ & Sp). rewrite <- Sp by assumption. apply Rsum_ext. intros j Hj. now rewrite Hq.
Qed.
Print Assumptions C60_cell.

(** |H| of a cell from its dofs: the dofs themselves, or their weights, are the coefficients of the function -1/2 sum_k a_k phi_k;
    if that is a quadratic polynomial with the second derivatives G then |G| is computed. *)
Theorem C60_field : forall eps sweeps tr nfa c B d al af b G, length d = nfa -> tetdet (c_x c 0%nat) (c_x c 1%nat) (c_x c 2%nat) (c_x c 3%nat) <> 0 -> c_vol c = volume (c_x c) ->
  (forall f, (f < 4)%nat -> c_A c f = store 3 nfa (af f)) -> symmetric 3 G ->
  (if heur tr then fill_alpha true nfa B d (sum_abs d) = Some al /\ length al = nfa else al = d) ->
  (forall f j, (f < 4)%nat -> (j < 3)%nat -> Rsum nfa (fun k => af f j k * (- (1 / 2) * nth k al 0)) = face_flux (c_x c) b G f j) ->
  eval_absH eps sweeps tr nfa c B d = spectral_abs eps sweeps (store 3 3 G).
Proof.
  intros eps sweeps tr nfa c B d al af b G Hd Ht Hv Hc Sy Ha H. unfold eval_absH.
  assert (E : fill_alpha (heur tr) nfa B d (sum_abs d) = Some al /\ length al = nfa) by (destruct (heur tr); [exact Ha|subst al; split; [reflexivity|exact Hd]]). destruct E as [-> La]. cbn [obind].
  replace (map (fun a => - (1 / 2) * a) al) with (arr nfa (fun k => - (1 / 2) * nth k al 0)).
  - rewrite (C60_hessian nfa c af _ b G Ht Hv Hc Sy H). reflexivity.
  - pose proof (list_arr 0 al) as Q. rewrite La in Q. transitivity (map (fun a => - (1 / 2) * a) (arr nfa (fun i => nth i al 0))); [unfold arr; now rewrite map_map|now rewrite <- Q].
Qed.
Print Assumptions C60_field.

(** A degenerate |H| is tried once more with the first of the largest dofs multiplied by alpha_boost, and kept if that does not
    help.  The products of gradients are divided by the volume. *)
Theorem C60_boost : forall eps sweeps ke tr nfa c, 0 <= eps -> 0 <= ke -> (0 < nfa)%nat -> wf_cell nfa c -> 0 < total (map Rabs (c_d c)) -> 0 < c_vol c ->
  exists B A s, length B = (nfa * nfa)%nat /\ (forall i, nth i B 0 = nth i (c_B c) 0 / c_vol c) /\ eval_absH eps sweeps tr nfa c B (c_d c) = Some (store 3 3 A, arr 3 s) /\
    (~ flag ke tr s -> cell_H eps sweeps ke tr nfa c = Some (store 3 3 A, arr 3 s, false)) /\
    (flag ke tr s -> exists im d1 A1 s1, (im < nfa)%nat /\ (forall k, (k < nfa)%nat -> Rabs (nth k (c_d c) 0) <= Rabs (nth im (c_d c) 0)) /\ (forall k, (k < im)%nat -> Rabs (nth k (c_d c) 0) < Rabs (nth im (c_d c) 0)) /\
       length d1 = nfa /\ (forall k, nth k d1 0 = if (k =? im)%nat then nth k (c_d c) 0 * boost tr else nth k (c_d c) 0) /\
       eval_absH eps sweeps tr nfa c B d1 = Some (store 3 3 A1, arr 3 s1) /\
       (flag ke tr s1 -> cell_H eps sweeps ke tr nfa c = Some (store 3 3 A, arr 3 s, true)) /\ (~ flag ke tr s1 -> cell_H eps sweeps ke tr nfa c = Some (store 3 3 A1, arr 3 s1, false))).
Proof.
  intros eps sweeps ke tr nfa c He Hk Hn Hc Ht Hv. assert (Hd : length (c_d c) = nfa) by apply Hc. set (B := map (fun b => b * (1 / c_vol c)) (c_B c)).
  assert (HB : length B = (nfa * nfa)%nat) by (unfold B; rewrite map_length; apply Hc). destruct (eval_absH_ok eps sweeps He tr nfa c B (c_d c) Hc Hd HB) as (A & s & E & _).
  exists B, A, s. split; [exact HB|]. split.
  { intros i. unfold B. replace 0 with ((fun b => b * (1 / c_vol c)) 0) at 1 by (cbv beta; ring). rewrite (map_nth (fun b => b * (1 / c_vol c))). field. lra. }
  split; [exact E|]. destruct (h2_ok ke tr s Hk) as (bb & Eb & Hb). unfold cell_H. rewrite sum_abs_ok. destruct (Rlt_dec 0 (total (map Rabs (c_d c)))); [|contradiction]. destruct (Rlt_dec 0 (c_vol c)); [|contradiction]. fold B. rewrite E. cbn [obind]. rewrite Eb. cbn [obind]. split.
  { intros Nf. destruct bb; [|reflexivity]. exfalso. apply Nf. now apply Hb. }
  intros Fl. apply Hb in Fl. subst bb. destruct (c_d c) as [|d0 d] eqn:Ed; [cbn in Hd; lia|]. cbn [rd nth_error obind tl]. set (im := arg_max d 1 0 (Rabs d0)).
  destruct (arg_max_ok (d0 :: d) ltac:(discriminate)) as (M1 & M2 & M3). cbn [hd tl] in M1, M2, M3. fold im in M1, M2, M3. rewrite Hd in M1, M2.
  fold (rd (d0 :: d) im). rewrite nth_rd by lia. cbn [obind]. destruct (wr_some (d0 :: d) im (nth im (d0 :: d) 0 * boost tr) ltac:(lia)) as (d1 & E1 & L1 & H1). rewrite E1. cbn [obind].
  destruct (eval_absH_ok eps sweeps He tr nfa c B d1 Hc ltac:(lia) HB) as (A1 & s1 & E' & _). exists im, d1, A1, s1. split; [lia|]. split; [exact M2|]. split; [exact M3|]. split; [lia|]. split.
  { intros k. rewrite (nth_of_rd d1), H1. destruct (Nat.eqb_spec k im) as [->|Nk]; [reflexivity|symmetry; apply nth_of_rd]. }
  split; [exact E'|]. rewrite E'. cbn [obind]. destruct (h2_ok ke tr s1 Hk) as (b1 & Eb1 & Hb1). rewrite Eb1. cbn [obind]. split.
  - intros F1. apply Hb1 in F1. now subst b1.
  - intros F1. destruct b1; [exfalso; apply F1; now apply Hb1|reflexivity].
Qed.
Print Assumptions C60_boost.

(** A patch of degenerate cells without values above M_lambda_min, in a mesh with a nonzero value: the mean value of the largest
    values weighted by volumes cannot exceed M_lambda_min, so the metric is M_lambda_min I whatever the values are; only if all are
    zero it is the fallback. *)
Theorem C60_small_patch : forall eps sweeps ke tr patch m, 0 <= eps -> sane ke tr -> patch <> [] -> Forall wf patch -> existsb usable patch = false -> Forall (small (lam_min tr)) patch -> (forall v, In v patch -> 0 < vvol v) -> (6 <= length m)%nat ->
  exists m', node_metric eps sweeps ke tr true patch m = Some m' /\ kept m m' /\
    ((exists v, In v patch /\ ke < nth 2 (sv v) 0) -> scalar_metric (lam_min tr) m') /\
    ((forall v, In v patch -> nth 2 (sv v) 0 <= ke) -> scalar_metric (nearest (lam_min tr) (lam_max tr) (iso tr)) m').
Proof.
  intros eps sweeps ke tr patch m He Hs Hn Hw Hx Hsm Hv Hm. pose proof (raw_small eps sweeps ke tr true patch Hn Hw Hx Hsm) as Hr. cbn iota in Hr.
  destruct (node_scalar eps sweeps ke He tr true patch m _ Hs Hm Hr) as (m' & E & K & Sc). exists m'. split; [exact E|]. split; [exact K|].
  assert (Nn : forall l, (forall v, In v l -> 0 < vvol v) -> 0 <= total (map vvol (filter (heavy ke) l))).
  { induction l as [|u l IH]; intros Hl; cbn [filter]; [cbn; lra|]. specialize (IH ltac:(intros; apply Hl; now right)). destruct (heavy ke u); cbn [map total fold_right]; [|exact IH]. specialize (Hl u ltac:(now left)). unfold total in IH. lra. }
  split.
  - intros (v & Hin & Hk). assert (Pw : 0 < snd (mean_value ke patch)).
    { unfold mean_value. cbn [snd]. clear - Hin Hk Hv Nn. induction patch as [|u l IH]; [destruct Hin|]. cbn [filter]. specialize (Nn l ltac:(intros; apply Hv; now right)). destruct Hin as [->|Hin].
      - unfold heavy at 1. destruct (Rlt_dec ke (nth 2 (sv v) 0)); [|contradiction]. cbn [map total fold_right]. specialize (Hv v ltac:(now left)). unfold total in Nn. lra.
      - specialize (IH ltac:(intros; apply Hv; now right) Hin). destruct (heavy ke u); [|exact IH]. cbn [map total fold_right]. specialize (Hv u ltac:(now left)). unfold total in IH. lra. }
    destruct (Rlt_dec 0 (snd (mean_value ke patch))); [|contradiction].
    pose proof (mean_small ke (lam_min tr) patch Hw Hsm ltac:(intros; left; auto)) as Hle.
    replace (lam_min tr) with (nearest (lam_min tr) (lam_max tr) (fst (mean_value ke patch) / snd (mean_value ke patch))) at 1; [exact Sc|].
    assert (fst (mean_value ke patch) / snd (mean_value ke patch) <= lam_min tr). { apply Rmult_le_reg_r with (snd (mean_value ke patch)); [assumption|]. unfold Rdiv. rewrite Rmult_assoc, Rinv_l by lra. lra. }
    destruct Hs as (? & ? & ?). unfold nearest, Rmin, Rmax. repeat destruct (Rle_dec _ _); lra.
  - intros Hk. assert (Z : snd (mean_value ke patch) = 0).
    { unfold mean_value. cbn [snd]. clear - Hk. induction patch as [|u l IH]; [reflexivity|]. cbn [filter]. unfold heavy at 1. destruct (Rlt_dec ke (nth 2 (sv u) 0)); [exfalso; specialize (Hk u ltac:(now left)); lra|]. apply IH. intros; apply Hk; now right. }
    rewrite Z in Sc. destruct (Rlt_dec 0 0); [lra|exact Sc].
Qed.
Print Assumptions C60_small_patch.

(** Strategy 0 with equal determinants: the order of the cells decides. *)
Definition tie_traits : traits := {| heur := true; strategy := 0; lam_min := 1 / 100; lam_max := 100; lam_rel := 100; h_rel := 1000; boost := 1; iso := 1 |}.
Definition tie_a (i : nat) : R := match i with O => 1 | 1%nat => 2 | _ => 4 end.
Definition tie_b (i : nat) : R := match i with O => 4 | 1%nat => 2 | _ => 1 end.
Definition tie_view (d : nat -> R) : view := {| absH := store 3 3 (diag d); sv := [1; 2; 4]; degen := false; vvol := 1 |}.
Lemma tie_scale : 1 / 2 < Rpower 8 (- (1 / 5)) < 1.
Proof.
  assert (H2 : 8 = Rpower 2 3) by (replace 3 with (INR 3) by (cbn; lra); rewrite Rpower_pow by lra; cbn; lra). rewrite H2, Rpower_mult. split.
  - replace (1 / 2) with (Rpower 2 (- (1))) by (rewrite Rpower_Ropp, Rpower_1 by lra; lra). apply Rpower_lt; lra.
  - apply Rlt_le_trans with (Rpower 2 0); [apply Rpower_lt; lra|right; apply Rpower_O; lra].
Qed.
Lemma tie_metric : forall eps sweeps ke d m, 0 <= eps -> 0 < ke < 1 / 100 -> d = tie_a \/ d = tie_b -> (6 <= length m)%nat -> exists m', node_metric eps sweeps ke tie_traits true [tie_view d] m = Some m' /\ metric_of m' 0%nat 0%nat = d 0%nat * Rpower 8 (- (1 / 5)).
Proof.
  intros eps sweeps ke d m He Hk Hd Hm. pose proof tie_scale as Hs. assert (P : d 0%nat * d 1%nat * d 2%nat = 8) by (destruct Hd as [-> | ->]; cbn; lra).
  assert (Rg : forall i, 1 <= d i <= 4) by (intros i; destruct Hd as [-> | ->]; destruct i as [|[|i]]; cbn; lra).
  assert (Mx : Rmax (lam_rel tie_traits) 1 = 100) by (cbn; rewrite Rmax_left; lra).
  destruct (C60_diagonal eps sweeps ke tie_traits true (tie_view d) m d) as (m' & E & _ & H); auto.
  - cbn. unfold sane. cbn. lra.
  - split; [intros i _; specialize (Rg i); cbn [lam_min lam_max tie_traits]; lra|]. intros i j _ _. rewrite Mx. pose proof (Rg i). pose proof (Rg j). lra.
  - rewrite P. lra.
  - unfold scaled. split; [intros i _; rewrite P; specialize (Rg i); cbn [lam_min lam_max tie_traits]; nra|]. intros i j _ _. rewrite Mx, P. pose proof (Rg i). pose proof (Rg j). nra.
  - exists m'. split; [exact E|]. rewrite H by lia. unfold diag, scaled. cbn [Nat.eqb]. now rewrite P.
Qed.
Theorem C60_max_det_order_refuted : forall eps sweeps ke m, 0 <= eps -> 0 < ke < 1 / 100 -> (6 <= length m)%nat -> exists patch patch' m1 m2, Permutation patch patch' /\ Forall wf patch /\
  node_metric eps sweeps ke tie_traits true patch m = Some m1 /\ node_metric eps sweeps ke tie_traits true patch' m = Some m2 /\ m1 <> m2.
Proof.
  intros eps sweeps ke m He Hk Hm. exists [tie_view tie_a; tie_view tie_b], [tie_view tie_b; tie_view tie_a].
  assert (Q : forall d d', node_metric eps sweeps ke tie_traits true [tie_view d; tie_view d'] m = node_metric eps sweeps ke tie_traits true [tie_view d] m).
  { intros d d'. unfold node_metric, raw_metric. cbn [existsb tie_view degen negb orb strategy tie_traits Nat.eqb]. unfold pick_max_det. cbn [pick_from degen tie_view vdet sdet sv rd nth_error obind]. destruct (Rlt_dec _ _); [lra|reflexivity]. }
  destruct (tie_metric eps sweeps ke tie_a m He Hk ltac:(now left) Hm) as (m1 & E1 & H1), (tie_metric eps sweeps ke tie_b m He Hk ltac:(now right) Hm) as (m2 & E2 & H2).
  exists m1, m2. split; [apply perm_swap|]. split; [repeat constructor|]. rewrite !Q. split; [exact E1|]. split; [exact E2|]. intros ->. rewrite H1 in H2. pose proof tie_scale. cbn [tie_a tie_b] in H2. lra.
Qed.
Print Assumptions C60_max_det_order_refuted.

(** Six numbers hold a symmetric matrix. *)
Theorem C60_voigt : forall a m, symmetric 3 a -> (6 <= length m)%nat ->
  exists m', dense_to_voigt (store 3 3 a) m = Some m' /\ kept m m' /\ voigt_to_dense m' = Some (store 3 3 a) /\ forall i j, (i < 3)%nat -> (j < 3)%nat -> metric_of m' i j = a i j.
Proof.
  intros a m Sy Hm. destruct (to_voigt_ok a m Sy Hm) as (m' & E & K & H). exists m'. split; [exact E|]. split; [exact K|]. split; [|exact H].
  change (store 3 3 a) with (m9 a). rewrite <- (m9_ext _ _ H). destruct K as [L _]. destruct m' as [|x0 [|x1 [|x2 [|x3 [|x4 [|x5 m']]]]]]; try (cbn in L; lia). reflexivity.
Qed.
Print Assumptions C60_voigt.

(** Non-vacuity. *)
Example default_sane : sane (1 / 10 ^ 300) {| heur := true; strategy := 0; lam_min := 1 / 10 ^ 12; lam_max := 10 ^ 12; lam_rel := 100; h_rel := 10 ^ 7; boost := 101 / 100; iso := 1 |}.
Proof.
  unfold sane. cbn [lam_min lam_max]. assert (P : forall n, 1 <= 10 ^ n) by (induction n; cbn [pow]; lra). pose proof (P 300%nat). pose proof (P 12%nat). split; [apply Rdiv_lt_0_compat; lra|]. split.
  - unfold Rdiv. rewrite !Rmult_1_l. apply Rinv_lt_contravar; [apply Rmult_lt_0_compat; lra|]. apply Rlt_pow; [lra|lia].
  - unfold Rdiv. rewrite Rmult_1_l. apply Rle_trans with 1; [|assumption]. rewrite <- Rinv_1. apply Rinv_le_contravar; lra.
Qed.
Definition unit_x (i : nat) : vec := match i with O => (0, 0, 0) | 1%nat => (1, 0, 0) | 2%nat => (0, 1, 0) | _ => (0, 0, 1) end.
(** a single dof, the polynomial x^2 + x y + 3 z *)
Definition ex_b (j : nat) : R := match j with 2%nat => 3 | _ => 0 end.
Definition ex_G : matrix := fun i j => match i, j with O, O => 2 | O, 1%nat => 1 | 1%nat, O => 1 | _, _ => 0 end.
Definition ex_cell : cell := {| c_d := [-2]; c_B := [1]; c_A := fun f => store 3 1 (fun j _ => face_flux unit_x ex_b ex_G f j); c_x := unit_x; c_vol := volume unit_x |}.
Example mesh_ex : wf_mesh 1 [ex_cell] [([0%nat], [0; 0; 0; 0; 0; 0; 7]); ([], [0; 0; 0; 0; 0; 0])].
Proof.
  split; [lia|]. split; [intros c [<-|[]]; repeat split; reflexivity|]. intros n [<-|[<-|[]]]; cbn [fst snd length]; split; try lia; intros i Hi; cbn in Hi; lia.
Qed.
Example hessian_ex : compute_H2 1 ex_cell (arr 1 (fun _ => 1)) = Some (store 3 3 ex_G).
Proof.
  apply (C60_hessian 1 ex_cell (fun f j _ => face_flux unit_x ex_b ex_G f j) (fun _ => 1) ex_b ex_G).
  - cbn. unfold tetdet, det3, diff, co. cbn. lra.
  - reflexivity.
  - intros; reflexivity.
  - intros i j Hi Hj. destruct i as [|[|[|i]]], j as [|[|[|j]]]; try lia; reflexivity.
  - intros f j _ _. cbn [Rsum c_x ex_cell]. lra.
Qed.
Example weights_ex : 0 < total (map Rabs [-2; 0; 1]). Proof. cbn. unfold Rabs. repeat destruct (Rcase_abs _); lra. Qed.
Example small_ex : let v := {| absH := repeat 0 9; sv := [0; 0; 1 / 200]; degen := true; vvol := 1 |} in
  Forall wf [v] /\ existsb usable [v] = false /\ Forall (small (lam_min tie_traits)) [v] /\ (forall w, In w [v] -> 0 < vvol w) /\ exists w, In w [v] /\ 1 / 400 < nth 2 (sv w) 0.
Proof.
  cbv zeta. split; [repeat constructor|]. split; [reflexivity|]. split; [constructor; [|constructor]; intros x; cbn; intros [<-|[<-|[<-|[]]]]; lra|]. split; [intros w [<-|[]]; cbn; lra|]. eexists. split; [left; reflexivity|]. cbn. lra.
Qed.
Definition mean_traits : traits := {| heur := true; strategy := 1; lam_min := 1 / 100; lam_max := 100; lam_rel := 100; h_rel := 1000; boost := 1; iso := 1 |}.
Example mean_ex : forall eps sweeps v M, 0 <= eps -> In v [tie_view tie_a; tie_view tie_b] -> absH_to_M eps sweeps (1 / 1000) mean_traits (absH v) = Some (store 3 3 M) -> between (1 / 2) 4 M.
Proof.
  intros eps sweeps v M He Hv HM. assert (Hd : exists d, v = tie_view d /\ (d = tie_a \/ d = tie_b)) by (destruct Hv as [<-|[<-|[]]]; eauto). destruct Hd as (d & -> & Hd). pose proof tie_scale as Hs.
  assert (P : d 0%nat * d 1%nat * d 2%nat = 8) by (destruct Hd as [-> | ->]; cbn; lra). assert (Rg : forall i, 1 <= d i <= 4) by (intros i; destruct Hd as [-> | ->]; destruct i as [|[|i]]; cbn; lra).
  assert (Mx : Rmax (lam_rel mean_traits) 1 = 100) by (cbn; rewrite Rmax_left; lra). cbn [absH tie_view] in HM. change (store 3 3 (diag d)) with (m9 (diag d)) in HM. rewrite (absH_diag eps sweeps (1 / 1000) He mean_traits d) in HM.
  - assert (Q : m9 (diag (scaled d)) = m9 M) by (change (m9 M) with (store 3 3 M); congruence). intros x. rewrite <- (form_ext _ _ x (m9_inj _ _ Q)), <- (form_ext _ _ x (diag_factors (scaled d))). apply (factors_between (1 / 2) 4 (scaled d) identity basis_id). intros i _. unfold scaled. rewrite P. specialize (Rg i). nra.
  - unfold sane. cbn. lra.
  - split; [intros i _; specialize (Rg i); cbn [lam_min lam_max mean_traits]; lra|]. intros i j _ _. rewrite Mx. pose proof (Rg i). pose proof (Rg j). lra.
  - rewrite P. lra.
Qed.
