From Coq Require Import Lra Lia Permutation.
From Verif Require Import Prelude RSum GeoModel GeoSpec DenseSpec QrSpec SvdModel SvdSpec SvdProofs SvdProofs2 SvdProofs3 SvdProofs4 AmModel AmSpec AmSpec2 AmProofs AmProofs2 AmProofs3 AmProofs4 AmProofs5.
Local Open Scope R_scope.

Lemma fold_abs : forall d s, fold_left (fun s x => s + Rabs x) d s = s + total (map Rabs d).
Proof. induction d as [|x d IH]; intros s; cbn [fold_left map total fold_right]; [ring|]. rewrite IH. unfold total. ring. Qed.
Lemma sum_abs_ok : forall d, sum_abs d = total (map Rabs d).
Proof. intros d. unfold sum_abs. rewrite fold_abs. ring. Qed.
Lemma total_pos : forall d, 0 <= total (map Rabs d).
Proof. induction d as [|x d IH]; cbn [map total fold_right]; [lra|]. pose proof (Rabs_pos x). unfold total in IH. lra. Qed.
Lemma total_zero : forall d, total (map Rabs d) <= 0 -> forall x, In x d -> x = 0.
Proof.
  induction d as [|y d IH]; intros H x Hx; [destruct Hx|]. destruct Hx as [<-|Hx]; cbn [map total fold_right] in H; pose proof (Rabs_pos y); pose proof (total_pos d) as T; unfold total in T.
  - assert (Z : Rabs y = 0) by lra. destruct (Req_dec y 0) as [|N]; [assumption|]. apply Rabs_pos_lt in N. lra.
  - apply IH; [|assumption]. unfold total. lra.
Qed.
Lemma nth_rd : forall (l : list R) i, (i < length l)%nat -> rd l i = Some (nth i l 0).
Proof. intros l i H. unfold rd. now apply nth_error_nth'. Qed.
Lemma fill_alpha_ok : forall nfa B d s, length d = nfa -> length B = (nfa * nfa)%nat ->
  fill_alpha true nfa B d s = Some (if Rlt_dec 0 s then map (fun x => Rabs x * Rabs (product nfa B d) / s) d else map (fun _ => 0) d).
Proof.
  intros nfa B d s Hd HB. unfold fill_alpha. cbn [negb]. destruct (Rlt_dec 0 s); [|reflexivity].
  rewrite (for_sum nfa (fun i => nth i d 0 * Rsum nfa (fun j => nth (i + nfa * j) B 0 * nth j d 0))).
  - cbn [obind]. rewrite Rplus_0_l. reflexivity.
  - intros i t Hi. rewrite (for_sum nfa (fun j => nth (i + nfa * j) B 0 * nth j d 0)).
    + cbn [obind]. rewrite nth_rd by lia. cbn [obind]. rewrite Rplus_0_l. reflexivity.
    + intros j u Hj. unfold mrd. rewrite nth_rd by (rewrite HB; now apply RSum.cell_lt). cbn [obind]. rewrite nth_rd by lia. reflexivity.
Qed.
Lemma fill_alpha_len : forall hr nfa B d s, length d = nfa -> length B = (nfa * nfa)%nat -> exists al, fill_alpha hr nfa B d s = Some al /\ length al = nfa.
Proof.
  intros hr nfa B d s Hd HB. destruct hr; [|exists d; split; [reflexivity|assumption]]. rewrite fill_alpha_ok by assumption. destruct (Rlt_dec 0 s); eexists; (split; [reflexivity|now rewrite map_length]).
Qed.
Lemma total_scal : forall (f : R -> R) c d, total (map (fun x => f x * c) d) = total (map f d) * c.
Proof. intros f c. induction d as [|x d IH]; cbn [map total fold_right]; [ring|]. unfold total in IH. rewrite IH. ring. Qed.

Lemma nth_of_rd : forall (l : list R) k, nth k l 0 = match rd l k with Some x => x | None => 0 end.
Proof. induction l as [|x l IH]; intros [|k]; try reflexivity. cbn [nth]. rewrite IH. reflexivity. Qed.
Lemma arg_max_inv : forall l p im, (im < length p)%nat -> (forall j, (j < length p)%nat -> Rabs (nth j p 0) <= Rabs (nth im p 0)) -> (forall j, (j < im)%nat -> Rabs (nth j p 0) < Rabs (nth im p 0)) ->
  let r := arg_max l (length p) im (Rabs (nth im p 0)) in (r < length (p ++ l))%nat /\ (forall j, (j < length (p ++ l))%nat -> Rabs (nth j (p ++ l) 0) <= Rabs (nth r (p ++ l) 0)) /\ (forall j, (j < r)%nat -> Rabs (nth j (p ++ l) 0) < Rabs (nth r (p ++ l) 0)).
Proof.
  induction l as [|x l IH]; intros p im H1 H2 H3; cbn [arg_max]; [rewrite app_nil_r; cbv zeta; auto|].
  assert (Lp : length (p ++ [x]) = S (length p)) by (rewrite app_length; cbn; lia). assert (Nx : nth (length p) (p ++ [x]) 0 = x) by (rewrite app_nth2, Nat.sub_diag by lia; reflexivity).
  assert (Np : forall j, (j < length p)%nat -> nth j (p ++ [x]) 0 = nth j p 0) by (intros; now apply app_nth1).
  replace (p ++ x :: l) with ((p ++ [x]) ++ l) by (rewrite <- app_assoc; reflexivity). destruct (Rlt_dec (Rabs (nth im p 0)) (Rabs x)) as [Hx|Hx].
  - specialize (IH (p ++ [x]) (length p)). rewrite Lp, Nx in IH. apply IH; [lia| |].
    + intros j Hj. destruct (Nat.eq_dec j (length p)) as [->|]; [rewrite Nx; lra|]. rewrite Np by lia. specialize (H2 j ltac:(lia)). lra.
    + intros j Hj. rewrite Np by lia. specialize (H2 j ltac:(lia)). lra.
  - specialize (IH (p ++ [x]) im). rewrite Lp, (Np im H1) in IH. apply IH; [lia| |].
    + intros j Hj. destruct (Nat.eq_dec j (length p)) as [->|]; [rewrite Nx; lra|]. rewrite Np by lia. apply H2. lia.
    + intros j Hj. rewrite Np by lia. auto.
Qed.
Lemma arg_max_ok : forall d, d <> [] -> let r := arg_max (tl d) 1 0 (Rabs (hd 0 d)) in (r < length d)%nat /\ (forall j, (j < length d)%nat -> Rabs (nth j d 0) <= Rabs (nth r d 0)) /\ (forall j, (j < r)%nat -> Rabs (nth j d 0) < Rabs (nth r d 0)).
Proof.
  intros [|x l] H; [contradiction|]. apply (arg_max_inv l [x] 0); cbn [length]; [lia| |intros; lia]. intros j Hj. replace j with 0%nat by lia. lra.
Qed.

Section Num.
Variables (eps : R) (sweeps : nat) (ke : R).
Hypothesis He : 0 <= eps.
Lemma H2_total : forall nfa c v2, wf_cell nfa c -> length v2 = nfa -> exists a, compute_H2 nfa c v2 = Some (m9 a) /\ symmetric 3 a.
Proof.
  intros nfa c v2 (_ & _ & HA) Hv. destruct (Rlt_dec 0 (c_vol c)) as [Hp|Hp].
  - assert (Ex : forall f, (f < 4)%nat -> exists a, c_A c f = store 3 nfa a) by (intros f Hf; apply store_reify2; auto).
    destruct (Ex 0%nat ltac:(lia)) as [a0 E0], (Ex 1%nat ltac:(lia)) as [a1 E1], (Ex 2%nat ltac:(lia)) as [a2 E2], (Ex 3%nat ltac:(lia)) as [a3 E3].
    rewrite (list_arr 0 v2), Hv. erewrite (compute_H2_ok nfa c (fun f => match f with O => a0 | 1%nat => a1 | 2%nat => a2 | _ => a3 end)); [|intros f Hf; destruct f as [|[|[|[|]]]]; try lia; assumption|assumption].
    eexists. split; [reflexivity|apply symm_sym].
  - unfold compute_H2. destruct (Rlt_dec 0 (c_vol c)); [contradiction|]. rewrite zero9_ok. eexists. split; [reflexivity|]. intros i j _ _. reflexivity.
Qed.
Definition good_H (A : matrix) (s : nat -> R) : Prop := ascending s /\ 0 <= s 0%nat /\ exists q, basis q /\ forall i j, (i < 3)%nat -> (j < 3)%nat -> A i j = factors 3 q s q i j.
Lemma good_sym : forall A s, good_H A s -> symmetric 3 A.
Proof. intros A s (_ & _ & q & _ & H) i j Hi Hj. rewrite !H by assumption. now apply factors_sym. Qed.
Lemma h2_ok : forall tr s, 0 <= ke -> exists b, h2_degenerate ke tr (e3 s) = Some b /\ (b = true <-> flag ke tr s).
Proof.
  intros tr s Hk. unfold h2_degenerate, sratio. cbn [e3 rd nth_error obind]. eexists. split; [reflexivity|]. unfold flag. destruct (Rlt_dec ke (s 0%nat)) as [H|H].
  - rewrite (Rabs_pos_eq (s 0%nat)) by lra. destruct (Rlt_dec ke (s 0%nat)); [|contradiction].
    assert (Q : s 2%nat / s 0%nat * s 0%nat = s 2%nat) by (field; lra). destruct (Rlt_dec (h_rel tr) (s 2%nat / s 0%nat)) as [H'|H']; split; try discriminate; try reflexivity.
    + intros _. right. rewrite <- Q at 1. apply Rmult_lt_compat_r; lra.
    + intros [|F]; [lra|]. exfalso. apply H'. apply Rmult_lt_reg_r with (s 0%nat); lra.
  - split; [intros _; left; lra|reflexivity].
Qed.
Lemma eval_absH_ok : forall tr nfa c B d, wf_cell nfa c -> length d = nfa -> length B = (nfa * nfa)%nat -> exists A s, eval_absH eps sweeps tr nfa c B d = Some (m9 A, e3 s) /\ good_H A s.
Proof.
  intros tr nfa c B d Hc Hd HB. unfold eval_absH. destruct (fill_alpha_len (heur tr) nfa B d (sum_abs d) Hd HB) as (al & E & Hl). rewrite E. cbn [obind].
  destruct (H2_total nfa c (map (fun a => - (1 / 2) * a) al) Hc ltac:(now rewrite map_length)) as (a & Ea & _). rewrite Ea. cbn [obind].
  destruct (spectral_abs_ok eps sweeps He a) as (s & q & e & Es & B' & A' & Hs & _). rewrite Es. exists (factors 3 q s q), s. split; [reflexivity|]. split; [exact A'|]. split; [|eauto].
  destruct (Hs 0%nat ltac:(lia)) as [-> _]. apply Rabs_pos.
Qed.
Lemma arg_max_lt : forall l k im am n, (k + length l = n)%nat -> (im < n)%nat -> (arg_max l k im am < n)%nat.
Proof. induction l as [|x l IH]; intros k im am n Hn Hi; cbn [arg_max length] in *; [assumption|]. destruct (Rlt_dec _ _); apply IH; lia. Qed.
Lemma cell_H_ok : forall tr nfa c, 0 <= ke -> (0 < nfa)%nat -> wf_cell nfa c -> exists A s dg, cell_H eps sweeps ke tr nfa c = Some (m9 A, e3 s, dg) /\ good_H A s /\ (dg = true <-> flag ke tr s).
Proof.
  intros tr nfa c Hk Hn Hc. unfold cell_H. destruct (Rlt_dec 0 (sum_abs (c_d c))).
  - set (B := if Rlt_dec 0 (c_vol c) then _ else _). assert (HB : length B = (nfa * nfa)%nat) by (unfold B; destruct (Rlt_dec _ _); [rewrite map_length|]; apply Hc).
    assert (Hd : length (c_d c) = nfa) by apply Hc. destruct (eval_absH_ok tr nfa c B (c_d c) Hc Hd HB) as (A & s & E & G). rewrite E. cbn [obind].
    destruct (h2_ok tr s Hk) as (b & Eb & Hb). rewrite Eb. cbn [obind]. destruct b; [|exists A, s, false; auto].
    destruct (c_d c) as [|d0 d] eqn:Ed; [cbn in Hd; lia|]. cbn [rd nth_error obind tl]. set (im := arg_max d 1 0 (Rabs d0)). assert (Him : (im < nfa)%nat) by (apply arg_max_lt; cbn [length] in Hd; lia).
    fold (rd (d0 :: d) im). rewrite nth_rd by lia. cbn [obind]. destruct (wr_some (d0 :: d) im (nth im (d0 :: d) 0 * boost tr) ltac:(lia)) as (d1 & E1 & L1 & _). rewrite E1. cbn [obind].
    destruct (eval_absH_ok tr nfa c B d1 Hc ltac:(lia) HB) as (A1 & s1 & E' & G1). rewrite E'. cbn [obind]. destruct (h2_ok tr s1 Hk) as (b1 & Eb1 & Hb1). rewrite Eb1. cbn [obind].
    destruct b1; [exists A, s, true; auto|exists A1, s1, false; auto].
  - rewrite zero9_ok. exists (fun _ _ => 0), (fun _ => 0), true. split; [reflexivity|]. split; [|split; [intros _; left; exact Hk|reflexivity]].
    split; [split; lra|]. split; [lra|]. exists identity. split; [apply basis_id|]. intros i j _ _. unfold factors. cbn [Rsum]. ring.
Qed.
Definition cell_view (A : matrix) (s : nat -> R) (dg : bool) (vol : R) : view := {| absH := m9 A; sv := e3 s; degen := dg; vvol := vol |}.
Lemma load_store : forall A s dg vol, symmetric 3 A -> (dg = false -> ke < s 0%nat) -> exists m, store_H (m9 A) (e3 s) dg (repeat 0 10) = Some m /\ length m = 10%nat /\ rd m 8 = Some (s 2%nat) /\ load ke vol m = Some (cell_view A s dg vol).
Proof.
  intros A s dg vol Sy Hf. eexists. split; [reflexivity|]. split; [reflexivity|]. split; [reflexivity|]. unfold load, cell_view. cbn -[Rplus Rmult Rdiv Rlt_dec].
  f_equal. f_equal.
  - unfold m9. rewrite (Sy 1%nat 0%nat), (Sy 2%nat 0%nat), (Sy 2%nat 1%nat) by lia. repeat (f_equal; try lra).
  - destruct dg; destruct (Rlt_dec (1 / 2) _); try lra; try reflexivity. destruct (Rlt_dec ke (s 0%nat)) as [|N]; [reflexivity|]. exfalso. apply N. auto.
Qed.
Lemma stored_ok : forall tr nfa c, 0 <= ke -> (0 < nfa)%nat -> wf_cell nfa c -> exists A s dg m, stored eps sweeps ke tr nfa c = Some m /\ cell_H eps sweeps ke tr nfa c = Some (m9 A, e3 s, dg) /\ good_H A s /\ (dg = true <-> flag ke tr s) /\
  nonzero ke m = Some (gt (s 2%nat) ke) /\ load ke (c_vol c) m = Some (cell_view A s dg (c_vol c)).
Proof.
  intros tr nfa c Hk Hn Hc. unfold stored. destruct (cell_H_ok tr nfa c Hk Hn Hc) as (A & s & dg & E & G & F). rewrite E. cbn [obind].
  destruct (load_store A s dg (c_vol c) (good_sym _ _ G)) as (m & Em & _ & E8 & El).
  { intros ->. apply Rnot_le_lt. intros Q. assert (flag ke tr s) by now left. apply F in H. discriminate. }
  exists A, s, dg, m. split; [exact Em|]. split; [reflexivity|]. split; [exact G|]. split; [exact F|]. split; [|exact El]. unfold nonzero. rewrite E8. reflexivity.
Qed.
Lemma all_some_ok : forall {X Y} (f : X -> option Y) (P : X -> Y -> Prop) l, (forall x, In x l -> exists y, f x = Some y /\ P x y) -> exists r, all_some (map f l) = Some r /\ Forall2 P l r.
Proof.
  intros X Y f P. induction l as [|x l IH]; intros H; cbn [map all_some]; [eauto|]. destruct (H x ltac:(now left)) as (y & E & Hy). rewrite E. cbn [obind]. destruct (IH ltac:(intros; apply H; now right)) as (r & Er & Hr). rewrite Er. cbn [obind]. eauto.
Qed.
Lemma Forall2_rd : forall {X Y} (P : X -> Y -> Prop) l r i, Forall2 P l r -> (i < length l)%nat -> exists x y, rd l i = Some x /\ rd r i = Some y /\ P x y /\ In x l.
Proof. intros X Y P l r i H. revert i. induction H as [|x y l r Hx H IH]; intros i Hi; cbn in Hi; [lia|]. destruct i as [|i]; [exists x, y; repeat split; auto; now left|]. destruct (IH i ltac:(lia)) as (x' & y' & A & B & C & D). exists x', y'. repeat split; auto. now right. Qed.
(** the cells of a node, as the node loop sees them *)
Definition seen (tr : traits) (nfa : nat) (c : cell) (v : view) : Prop := exists A s dg, cell_H eps sweeps ke tr nfa c = Some (m9 A, e3 s, dg) /\ v = cell_view A s dg (c_vol c) /\ good_H A s /\ (dg = true <-> flag ke tr s).
Lemma construct_ok : forall tr nfa cells nodes, sane ke tr -> wf_mesh nfa cells nodes -> exists any res, construct eps sweeps ke tr nfa cells nodes = Some res /\
  Forall2 (fun n m => exists patch, Forall2 (fun i v => exists c, rd cells i = Some c /\ seen tr nfa c v) (fst n) patch /\ node_metric eps sweeps ke tr any patch (snd n) = Some m) nodes res /\
  (any = true <-> exists c A s dg, In c cells /\ cell_H eps sweeps ke tr nfa c = Some (m9 A, e3 s, dg) /\ ke < s 2%nat).
Proof.
  intros tr nfa cells nodes Hs (Hn & Hc & Hnd). assert (Hk : 0 <= ke) by (destruct Hs; lra). unfold construct.
  destruct (all_some_ok (stored eps sweeps ke tr nfa) (fun c m => exists A s dg, cell_H eps sweeps ke tr nfa c = Some (m9 A, e3 s, dg) /\ good_H A s /\ (dg = true <-> flag ke tr s) /\
     nonzero ke m = Some (gt (s 2%nat) ke) /\ load ke (c_vol c) m = Some (cell_view A s dg (c_vol c))) cells) as (ms & Ems & Hms).
  { intros c Hin. destruct (stored_ok tr nfa c Hk Hn (Hc c Hin)) as (A & s & dg & m & E & R'). exists m. split; [exact E|]. exists A, s, dg. exact R'. }
  rewrite Ems. cbn [obind].
  assert (NZ : exists nz, all_some (map (nonzero ke) ms) = Some nz /\ (existsb (fun b => b) nz = true <-> exists c A s dg, In c cells /\ cell_H eps sweeps ke tr nfa c = Some (m9 A, e3 s, dg) /\ ke < s 2%nat)).
  { clear Ems Hnd Hc. induction Hms as [|c m cs ms (A & s & dg & E & _ & _ & Nz & _) Hms IH]; cbn [map all_some].
    - exists []. split; [reflexivity|]. split; [discriminate|]. intros (? & ? & ? & ? & [] & _).
    - rewrite Nz. cbn [obind]. destruct IH as (nz & En & Hnz). rewrite En. cbn [obind]. eexists. split; [reflexivity|]. cbn [existsb]. rewrite Bool.orb_true_iff, Hnz. unfold gt. split.
      + intros [Q|(c' & A' & s' & dg' & I' & R')]; [|exists c', A', s', dg'; split; [now right|exact R']]. exists c, A, s, dg. split; [now left|]. split; [exact E|]. destruct (Rlt_dec ke (s 2%nat)); [assumption|discriminate].
      + intros (c' & A' & s' & dg' & [<-|I'] & E' & L'); [|right; eauto 10]. left. rewrite E in E'. assert (Q : e3 s = e3 s') by congruence. injection Q as _ _ Q. rewrite Q. destruct (Rlt_dec ke (s' 2%nat)); [reflexivity|contradiction]. }
  destruct NZ as (nz & En & Hnz). rewrite En. cbn [obind]. exists (existsb (fun b => b) nz). set (any := existsb _ nz) in *.
  match goal with |- context [all_some (map ?g nodes)] => destruct (all_some_ok g (fun n m => exists patch, Forall2 (fun i v => exists c, rd cells i = Some c /\ seen tr nfa c v) (fst n) patch /\ node_metric eps sweeps ke tr any patch (snd n) = Some m) nodes) as (res & Er & Hr) end.
  - intros [idx m] Hin. destruct (Hnd _ Hin) as [Hi Hm]. cbn [fst snd] in *.
    destruct (all_some_ok (fun i => do m <- rd ms i; do c <- rd cells i; load ke (c_vol c) m) (fun i v => exists c, rd cells i = Some c /\ seen tr nfa c v) idx) as (patch & Ep & Hp).
    { intros i Hi'. destruct (Forall2_rd _ _ _ i Hms (Hi i Hi')) as (c & mm & Ec & Emm & (A & s & dg & E & G & F & _ & El) & _). rewrite Emm. cbn [obind]. rewrite Ec. cbn [obind]. rewrite El. eexists. split; [reflexivity|]. exists c. split; [reflexivity|]. exists A, s, dg. auto. }
    rewrite Ep. cbn [obind]. assert (Wp : Forall wf patch). { clear - Hp. induction Hp as [|i v idx patch (c & _ & A & s & dg & _ & -> & _) Hp IH]; constructor; [split; reflexivity|assumption]. }
    destruct (node_ok eps sweeps ke He tr any patch m Hs Wp Hm) as (m' & e & q & E & _). exists m'. split; [exact E|]. exists patch. auto.
  - exists res. split; [exact Er|]. split; [exact Hr|exact Hnz].
Qed.
Lemma seen_wf : forall tr nfa cells idx patch, Forall2 (fun i v => exists c, rd cells i = Some c /\ seen tr nfa c v) idx patch -> Forall wf patch.
Proof. intros tr nfa cells idx patch Hp. induction Hp as [|i v idx patch (c & _ & A & s & dg & _ & -> & _) Hp IH]; constructor; [split; reflexivity|assumption]. Qed.
End Num.
