(** All formulas together, and polynomials in Cartesian coordinates *)
From Coq Require Import ZArith Reals List Bool Lia Lra Permutation.
From Coquelicot Require Import Coquelicot.
From Verif Require Import Prelude RSum BasModel BasSpec QuadModel QuadTables QuadRules QuadSpec QuadProofs QuadCheck QuadPoly QuadSym QuadProofs2 QuadProofs3 QuadCheck1.
Import ListNotations.
Open Scope R_scope.

(** *** What is known about every formula *)
Definition sound (s : shape) (o : nat) (f : quad) (F : formula) : Prop :=
  all_points (dim s) f = Some F /\ on_simplex (dim s) F /\ (forall p v, In (p, v) F -> (forall x, In x p -> 0 < x < 1) /\ 0 < v) /\
  (length F <= 552)%nat /\ (forall es, length es = S (dim s) -> (list_sum es <= o)%nat -> Rabs (qsum F (mono es) - exact (dim s) es) <= / 10 ^ 18) /\
  exists orbs, Forall2 (fun a b => Forall2 (fun x y => Rabs (x - y) <= 24 / U) (fst a) (fst b) /\ snd a = snd b) F (flat_map (fun ow => map (fun p => (p, snd ow)) (fst ow)) orbs) /\
    (forall ow, In ow orbs -> closed_orbit (dim s) (fst ow)) /\ map (fun ow => length (fst ow)) orbs = sizes_of s (q_sym f).

Lemma table_sound : forall (C : Type) (s : shape) o mx (pz : C -> list (list Z)) (pr : C -> list (list R)) f w sym,
  (forall c, Forall2 (Forall2 (rel 16)) (pz c) (pr c)) -> (forall c p, In p (pr c) -> good (dim s) p) -> checkb (dim s) o (means (dim s) mx) pz f w = true ->
  (o <= mx <= 21)%nat -> calls_sizes pz f = sizes_of s sym ->
  sound s o (Quad (length (reals pr f) / S (dim s)) sym (reals pr f) (weight_array w)) (realF pr f w).
Proof.
  intros C s o mx pz pr f w sym Hr Hg Hc Ho Hs.
  destruct (check_parts s o mx pz pr f w Hr Hc) as (_ & Hlen & _ & _ & Hn & _).
  split; [apply (real_all_points s o mx pz pr f w Hr Hg Hc)|]. split; [apply (real_simplex s pr f w Hg)|].
  split; [apply (real_inside s o mx pz pr f w Hr Hc)|]. split; [rewrite (real_length pz pr f w Hr); exact Hn|].
  split; [intros es Hl Hes; apply (real_exact s o mx pz pr f w Hr Hg Hc Ho); trivial|].
  exists (real_orbits pz f w). split; [now apply real_orbits_close|]. split; [apply (real_orbits_closed s o mx pz pr f w Hr Hc); exact Ho|].
  rewrite real_orbits_sizes. cbn [q_sym]. rewrite <- Hs. unfold calls_sizes. clear -Hlen. revert w Hlen. induction f as [|c f IH]; intros [|x w] Hlen; try discriminate; [reflexivity|].
  cbn. f_equal. apply IH. cbn in Hlen. lia.
Qed.

Lemma size_check_ok : forall a b, size_check a b = true -> a = b.
Proof. intros a b. unfold size_check. destruct (list_eq_dec Nat.eq_dec a b); [trivial|discriminate]. Qed.
Lemma forallb_seq : forall f a n i, forallb f (seq a n) = true -> (a <= i < a + n)%nat -> f i = true.
Proof. intros f a n i H Hi. rewrite forallb_forall in H. apply H, in_seq. lia. Qed.
Lemma range_ok : forall order (m : Z), (0 <= order <= m)%Z -> ((order >? m) || (order <? 0))%Z = false.
Proof. intros order m H. apply orb_false_intro; [rewrite Z.gtb_ltb; apply Z.ltb_ge|apply Z.ltb_ge]; lia. Qed.
Lemma seg_len : forall f, length (concat (flat_map (seg_points Zarith) f)) = length (reals (seg_points Rarith) f).
Proof. unfold reals. induction f as [|c f IH]; [reflexivity|]. cbn [flat_map]. rewrite !concat_app, !app_length, IH. f_equal. destruct c; reflexivity. Qed.
Lemma quadrature_sound : forall s order, (0 <= order <= max_order s)%Z -> exists f F, quadrature s order = Some f /\ sound s (Z.to_nat order) f F.
Proof.
  intros s order H. set (o := Z.to_nat order). destruct s; cbn [max_order quadrature] in *.
  - assert (K : seg_ok (means 1 21) o = true) by (apply (forallb_seq _ _ _ o seg_checked); lia). unfold seg_ok in K.
    unfold segment_quadrature_formulas. rewrite (range_ok _ _ H). fold o. change seg_rules_np with seg_rules.
    destruct (nth_error seg_rules o) as [f|]; [|discriminate]. destruct (nth_error seg_rules_w o) as [w|]; [|discriminate]. destruct (nth_error seg_symmetry o) as [sy|]; [|discriminate].
    apply andb_prop in K. destruct K as [K1 K2]. apply size_check_ok in K2. rewrite seg_len in K2. cbn [obind].
    eexists. exists (realF (seg_points Rarith) f w). split; [reflexivity|].
    apply (table_sound seg_call Segment o 21 (seg_points Zarith) (seg_points Rarith) f w); trivial; [apply rel_seg|apply good_seg|lia].
  - assert (K : tri_ok (means 2 20) o = true) by (apply (forallb_seq _ _ _ o tri_checked); lia). unfold tri_ok in K.
    unfold triangle_quadrature_formulas. rewrite (range_ok _ _ H). fold o. change tri_rules_np with tri_rules.
    destruct (nth_error tri_rules o) as [f|]; [|discriminate]. destruct (nth_error tri_rules_w o) as [w|]; [|discriminate]. destruct (nth_error tri_symmetry o) as [sy|]; [|discriminate].
    apply andb_prop in K. destruct K as [K1 K2]. apply size_check_ok in K2. cbn [obind].
    eexists. exists (realF (tri_points Rarith) f w). split; [reflexivity|].
    apply (table_sound tri_call Triangle o 20 (tri_points Zarith) (tri_points Rarith) f w); trivial; [apply rel_tri|apply good_tri|lia].
  - assert (K : tet_ok (means 3 20) o = true) by (apply (forallb_seq _ _ _ o tet_checked); lia). unfold tet_ok in K. unfold tetrahedron_quadrature_formulas. rewrite (range_ok _ _ H). fold o. change tet_rules_np with tet_rules.
    destruct (nth_error tet_rules o) as [f|]; [|discriminate]. destruct (nth_error tet_rules_w o) as [w|]; [|discriminate]. destruct (nth_error tet_symmetry o) as [sy|]; [|discriminate].
    apply andb_prop in K. destruct K as [K1 K2]. apply size_check_ok in K2. cbn [obind].
    eexists. exists (realF (tet_points Rarith) f w). split; [reflexivity|].
    apply (table_sound tet_call Tetrahedron o 20 (tet_points Zarith) (tet_points Rarith) f w); trivial; [apply rel_tet|apply good_tet|lia].
Qed.

Lemma sound_poly : forall s o f F P, sound s o f F -> bdegree (dim s) o P -> near (/ 10 ^ 18 * bnorm P) (qsum F (beval P)) (mean s (beval P)).
Proof.
  intros s o f F P (_ & _ & _ & _ & E & _) HP. unfold near. rewrite qsum_beval, mean_closed by (intros c es Hi; apply (HP c es Hi)).
  apply bsum_err. intros c es Hi. destruct (HP c es Hi). now apply E.
Qed.

(** *** Polynomials in Cartesian coordinates *)
Lemma at_bary_sum : forall X l k, at_bary X l k = Rsum (length l) (fun i => nth i l 0 * X i k).
Proof.
  intros X l k. unfold at_bary. generalize (fun i => nth i l 0 * X i k). intros g. generalize (length l). intros n. induction n as [|n IH]; [reflexivity|].
  rewrite seq_S, map_app, fold_right_app, Rsum_S, <- IH. cbn [map fold_right Nat.add]. rewrite Rplus_0_r. generalize (map g (seq 0 n)). intros r.
  induction r as [|x r IHr]; cbn [fold_right]; [ring|]. rewrite IHr. ring.
Qed.
Lemma cartesian_poly : forall m n c X, exists P, bdegree m n P /\ bnorm P = cartesian_size (S m) n c X /\ forall p, length p = S m -> beval P p = cartesian n c (at_bary X p).
Proof.
  intros m n c X. set (B := fun k => bcoord (S m) (fun i => X i k)).
  exists (bsumn (S n) (fun a => bsumn (S n - a) (fun b => bsumn (S n - a - b) (fun e =>
    bscal (c a b e) (bmul (bmul (bpow (S m) (B 0%nat) a) (bpow (S m) (B 1%nat) b)) (bpow (S m) (B 2%nat) e)))))).
  unfold cartesian_size, cartesian. apply bsumn_ok. intros a Ha. apply bsumn_ok. intros b Hb. apply bsumn_ok. intros e He.
  assert (HB : forall k, bdegree m 1 (B k) /\ bnorm (B k) = Rsum (S m) (fun i => Rabs (X i k)) /\ forall p, length p = S m -> beval (B k) p = at_bary X p k).
  { intros k. destruct (bcoord_ok m (fun i => X i k)) as (A1 & A2 & A3). split; [exact A1|]. split; [exact A2|]. intros p Hp. rewrite at_bary_sum, Hp. now apply A3. }
  destruct (HB 0%nat) as (D0 & N0 & E0). destruct (HB 1%nat) as (D1 & N1 & E1). destruct (HB 2%nat) as (D2 & N2 & E2).
  destruct (bpow_ok m 1 _ D0 a) as (P0 & Q0 & R0). destruct (bpow_ok m 1 _ D1 b) as (P1 & Q1 & R1). destruct (bpow_ok m 1 _ D2 e) as (P2 & Q2 & R2).
  pose proof (bmul_degree _ _ _ _ _ P0 P1) as P01. pose proof (bmul_degree _ _ _ _ _ P01 P2) as P012.
  destruct (bscal_ok m _ (c a b e) _ P012) as (S1 & S2 & S3). split; [|split].
  - eapply bdegree_le; [|exact S1]. lia.
  - rewrite S2, !bmul_norm, Q0, Q1, Q2, N0, N1, N2. reflexivity.
  - intros p Hp. rewrite S3, (bmul_eval _ _ _ _ _ _ P01 P2 Hp), (bmul_eval _ _ _ _ _ _ P0 P1 Hp), R0, R1, R2, E0, E1, E2 by trivial. reflexivity.
Qed.

(** *** Constants and coordinates *)
Lemma exact_const : forall m, exact m (repeat O (S m)) = 1.
Proof.
  intros m. unfold exact. rewrite sum_zero. assert (F : forall n, facts (repeat O n) = 1) by (induction n as [|n IH]; [reflexivity|]; cbn [repeat facts fold_right] in *; unfold facts in *; cbn [fold_right]; rewrite IH; cbn; ring).
  rewrite F. change (0 + m)%nat with m. field. apply INR_fact_neq_0.
Qed.
Lemma exact_coord : forall m k, (k <= m)%nat -> exact m (bump k (repeat O (S m))) = / INR (S m).
Proof.
  intros m k Hk. unfold exact. rewrite bump_sum, bump_facts, sum_zero by (rewrite repeat_length; lia).
  assert (F : forall n, facts (repeat O n) = 1) by (induction n as [|n IH]; [reflexivity|]; cbn [repeat facts fold_right] in *; unfold facts in *; cbn [fold_right]; rewrite IH; cbn; ring).
  rewrite F. assert (Z : nth k (repeat O (S m)) O = O) by (generalize (S m) k; induction n; intros [|j]; cbn; auto). rewrite Z.
  change (1 + m)%nat with (S m). rewrite fact_simpl, mult_INR. change (INR 1) with 1. field. split; [apply not_0_INR; lia|apply INR_fact_neq_0].
Qed.
Lemma sound_affine : forall s o f F, (1 <= o)%nat -> sound s o f F -> affine_exact (/ 10 ^ 18) (dim s) F.
Proof.
  intros s o f F Ho (_ & HS & _ & _ & E & _). split; [exact HS|]. unfold near. split.
  - rewrite (qsum_ext F (fun _ => 1) (mono (repeat O (S (dim s))))) by (intros p w _; cbv beta; now rewrite mono_zero).
    rewrite <- (exact_const (dim s)). apply E; [apply repeat_length|rewrite sum_zero; lia].
  - intros k Hk. rewrite <- (exact_coord (dim s) k Hk). rewrite (qsum_ext F (fun p => nth k p 0) (mono (bump k (repeat O (S (dim s)))))).
    + apply E; [now rewrite bump_length, repeat_length|]. rewrite bump_sum, sum_zero by (rewrite repeat_length; lia). lia.
    + intros p w Hi. destruct (HS p w Hi) as [L _]. rewrite bump_mono by (rewrite repeat_length; lia). rewrite mono_zero. ring.
Qed.
Lemma sound_wsum : forall s o f F, sound s o f F -> wsum F <= 2.
Proof.
  intros s o f F (_ & HS & HI & _ & E & _).
  specialize (E (repeat O (S (dim s))) ltac:(apply repeat_length) ltac:(rewrite sum_zero; lia)). rewrite exact_const in E.
  assert (Q : wsum F = qsum F (mono (repeat O (S (dim s))))).
  { clear -HI. induction F as [|[p w] F IH]; [reflexivity|]. unfold wsum, qsum. cbn [fold_right fst snd]. fold (wsum F). fold (qsum F (mono (repeat O (S (dim s))))).
    rewrite IH by (intros; apply HI; now right). rewrite mono_zero. destruct (HI p w (or_introl eq_refl)) as [_ Hw]. rewrite Rabs_pos_eq by lra. ring. }
  rewrite Q. apply Rabs_le_between in E. assert (/ 10 ^ 18 <= 1) by (rewrite <- Rinv_1; apply Rinv_le_contravar; [lra|apply pow_R1_Rle; lra]). lra.
Qed.
Lemma differ_sym : forall dc dw F G, differ dc dw F G -> differ dc dw G F.
Proof.
  intros dc dw F G H. induction H as [|a b F G [H1 H2] _ IH]; constructor; trivial. split; [|now rewrite Rabs_minus_sym].
  clear -H1. induction H1; constructor; trivial. now rewrite Rabs_minus_sym.
Qed.
Lemma sound_rounded : forall s o f F G d P, sound s o f F -> (o <= 21)%nat -> 0 <= d -> close d F G -> (forall p v, In (p, v) G -> forall x, In x p -> -1 <= x <= 1) ->
  bdegree (dim s) o P -> near ((/ 10 ^ 18 + 600 * d) * bnorm P) (qsum G (beval P)) (mean s (beval P)).
Proof.
  intros s o f F G d P HF Ho Hd HC HG HP. pose proof (sound_wsum _ _ _ _ HF) as W. destruct HF as (_ & HS & HI & Hn & E & _).
  unfold near. rewrite qsum_beval, mean_closed by (intros c es Hi; apply (HP c es Hi)). apply bsum_err. intros c es Hi. destruct (HP c es Hi) as [Hl Hs].
  assert (UF : unit_coords F) by (intros p v Hp x Hx; pose proof (proj1 (HI p v Hp) x Hx); lra).
  pose proof (qsum_pert G F d d es Hd (differ_sym d d F G HC) HG UF) as D. specialize (E es Hl Hs).
  assert (LG : length G = length F) by (symmetry; exact (Forall2_length _ _ _ _ _ HC)). rewrite LG in D.
  apply le_INR in Hn. replace (INR 552) with 552 in Hn by (rewrite INR_IZR_INZ; reflexivity).
  assert (Hs' : INR (list_sum es) <= 21) by (apply Rle_trans with (INR 21); [apply le_INR; lia|rewrite INR_IZR_INZ; apply IZR_le; reflexivity]).
  pose proof (pos_INR (list_sum es)). assert (INR (list_sum es) * d <= 21 * d) by (apply Rmult_le_compat_r; lra).
  assert (INR (length F) * d <= 552 * d) by (apply Rmult_le_compat_r; lra).
  assert (W0 : 0 <= INR (list_sum es) * d) by (apply Rmult_le_pos; lra).
  assert (wsum F * (INR (list_sum es) * d) <= 2 * (INR (list_sum es) * d)) by (apply Rmult_le_compat_r; lra).
  replace (qsum G (mono es) - exact (dim s) es) with ((qsum G (mono es) - qsum F (mono es)) + (qsum F (mono es) - exact (dim s) es)) by ring.
  eapply Rle_trans; [apply Rabs_triang|]. lra.
Qed.
