(** The points that are loaded *)
From Coq Require Import ZArith.
From Verif Require Import Prelude RSum GeoModel GeoSpec SpModel BasModel BasSpec CoreModel CoreProofs QuadModel QuadTables QuadRules QuadSpec QuadCheck QuadCheck1 QuadProofs QuadProofs2 QuadProofs3 QuadProofs4 FiModel FiSpec.
Local Open Scope R_scope.

(** *** The tables store the points as they are read *)
Lemma map_fst_realF : forall {C : Type} (pr : C -> list (list R)) f w, length f = length w -> map fst (realF pr f w) = flat_map pr f.
Proof.
  intros C pr f. unfold realF. induction f as [|c f IH]; intros [|x w] L; try discriminate; [reflexivity|]. cbn [List.combine flat_map]. rewrite map_app, IH by (cbn in L; lia). f_equal.
  cbn [fst]. rewrite map_map. cbn [fst]. now rewrite map_id.
Qed.
Lemma map_snd_realF : forall {C : Type} (pr : C -> list (list R)) f w, length f = length w -> (forall c n l, In (c, (n, l)) (List.combine f w) -> n = length (pr c)) -> map snd (realF pr f w) = weight_array w.
Proof.
  intros C pr f. unfold realF, weight_array. induction f as [|c f IH]; intros [|[n l] w] L H; try discriminate; [reflexivity|]. cbn [List.combine flat_map fst snd]. rewrite map_app, IH; [|cbn in L; lia|intros; eapply H; right; eassumption].
  f_equal. unfold weights. cbn [fst snd]. rewrite (H c n l (or_introl eq_refl)). rewrite map_map. cbn [snd]. generalize (pr c). intros ps. clear. induction ps; [reflexivity|]. cbn. f_equal. exact IHps.
Qed.
Lemma concat_len : forall (m : nat) (F : list (list R)), (forall p, In p F -> length p = m) -> length (concat F) = (length F * m)%nat.
Proof. induction F as [|p F IH]; intros H; [reflexivity|]. cbn [concat length]. rewrite app_length, IH by (intros; apply H; now right). rewrite (H p (or_introl eq_refl)). lia. Qed.
Lemma concat_nth : forall (m : nat) (F : list (list R)) i k p, (forall p, In p F -> length p = m) -> nth_error F i = Some p -> (k < m)%nat -> rd (concat F) (m * i + k) = Some (nth k p 0).
Proof.
  induction F as [|a F IH]; intros [|i] k p H E Hk; try discriminate.
  - cbn in E. apply Some_inj' in E. subst a. cbn [concat]. unfold rd. rewrite Nat.mul_0_r, Nat.add_0_l. rewrite nth_error_app1; [apply nth_error_nth'|]; rewrite (H p (or_introl eq_refl)); exact Hk.
  - cbn in E. cbn [concat]. unfold rd. rewrite nth_error_app2; rewrite (H a (or_introl eq_refl)); [|nia]. replace (m * S i + k - m)%nat with (m * i + k)%nat by nia. apply IH; trivial. intros; apply H; now right.
Qed.

(** The formula f stores the points and weights of F *)
Definition stored (m : nat) (f : quad) (F : formula) : Prop :=
  q_num f = length F /\
  forall i p v, nth_error F i = Some (p, v) -> length p = S m /\ Rsum (S m) (fun k => nth k p 0) = 1 /\ rd (q_w f) i = Some v /\ forall k, (k <= m)%nat -> rd (q_p f) (S m * i + k) = Some (nth k p 0).
Lemma table_stored : forall (C : Type) (s : QuadSpec.shape) o mx (pz : C -> list (list Z)) (pr : C -> list (list R)) f w sym,
  (forall c, Forall2 (Forall2 (rel 16)) (pz c) (pr c)) -> (forall c p, In p (pr c) -> QuadProofs3.good (dim s) p) -> checkb (dim s) o (means (dim s) mx) pz f w = true ->
  (o <= mx <= 21)%nat ->
  stored (dim s) (Quad (length (reals pr f) / S (dim s)) sym (reals pr f) (weight_array w)) (realF pr f w).
Proof.
  intros C s o mx pz pr f w sym Hr Hg Hc Ho. destruct (check_parts s o mx pz pr f w Hr Hc) as (Hw & Hlen & _).
  pose proof (real_simplex s pr f w Hg) as Hs.
  assert (Hl : forall p, In p (flat_map pr f) -> length p = S (dim s)). { intros p Hp. apply in_flat_map in Hp. destruct Hp as (c & _ & Hp). apply (Hg c p Hp). }
  assert (Ln : length (realF pr f w) = length (flat_map pr f)) by (rewrite <- (map_fst_realF pr f w Hlen); now rewrite map_length).
  split.
  - cbn [q_num]. unfold reals. rewrite (concat_len (S (dim s)) _ Hl), Nat.div_mul by lia. now rewrite Ln.
  - intros i p v E. destruct (Hs p v (nth_error_In _ _ E)) as [A B]. split; [exact A|]. split; [exact B|]. cbn [q_w q_p]. split.
    + unfold rd. rewrite <- (map_snd_realF pr f w Hlen Hw). now rewrite nth_error_map, E.
    + intros k Hk. unfold reals. apply concat_nth; trivial; [|lia]. rewrite <- (map_fst_realF pr f w Hlen), nth_error_map, E. reflexivity.
Qed.

Lemma quadrature_stored : forall s order, (0 <= order <= max_order s)%Z -> exists f F, quadrature s order = Some f /\ sound s (Z.to_nat order) f F /\ stored (dim s) f F /\ (1 <= length F)%nat.
Proof.
  intros s order H. set (o := Z.to_nat order).
  assert (G : exists f F, quadrature s order = Some f /\ sound s o f F /\ stored (dim s) f F).
  { destruct s; cbn [max_order quadrature] in *.
    - assert (K : seg_ok (means 1 21) o = true) by (apply (forallb_seq _ _ _ o seg_checked); lia). unfold seg_ok in K.
      unfold segment_quadrature_formulas. rewrite (range_ok _ _ H). fold o. change seg_rules_np with seg_rules.
      destruct (nth_error seg_rules o) as [f|]; [|discriminate]. destruct (nth_error seg_rules_w o) as [w|]; [|discriminate]. destruct (nth_error seg_symmetry o) as [sy|]; [|discriminate].
      apply andb_prop in K. destruct K as [K1 K2]. apply size_check_ok in K2. rewrite seg_len in K2. cbn [obind].
      eexists. exists (realF (seg_points Rarith) f w). split; [reflexivity|]. split.
      + apply (table_sound seg_call Segment o 21 (seg_points Zarith) (seg_points Rarith) f w); trivial; [apply rel_seg|apply good_seg|lia].
      + apply (table_stored seg_call Segment o 21 (seg_points Zarith) (seg_points Rarith) f w); trivial; [apply rel_seg|apply good_seg|lia].
    - assert (K : tri_ok (means 2 20) o = true) by (apply (forallb_seq _ _ _ o tri_checked); lia). unfold tri_ok in K.
      unfold triangle_quadrature_formulas. rewrite (range_ok _ _ H). fold o. change tri_rules_np with tri_rules.
      destruct (nth_error tri_rules o) as [f|]; [|discriminate]. destruct (nth_error tri_rules_w o) as [w|]; [|discriminate]. destruct (nth_error tri_symmetry o) as [sy|]; [|discriminate].
      apply andb_prop in K. destruct K as [K1 K2]. apply size_check_ok in K2. cbn [obind].
      eexists. exists (realF (tri_points Rarith) f w). split; [reflexivity|]. split.
      + apply (table_sound tri_call Triangle o 20 (tri_points Zarith) (tri_points Rarith) f w); trivial; [apply rel_tri|apply good_tri|lia].
      + apply (table_stored tri_call Triangle o 20 (tri_points Zarith) (tri_points Rarith) f w); trivial; [apply rel_tri|apply good_tri|lia].
    - assert (K : tet_ok (means 3 20) o = true) by (apply (forallb_seq _ _ _ o tet_checked); lia). unfold tet_ok in K. unfold tetrahedron_quadrature_formulas. rewrite (range_ok _ _ H). fold o. change tet_rules_np with tet_rules.
      destruct (nth_error tet_rules o) as [f|]; [|discriminate]. destruct (nth_error tet_rules_w o) as [w|]; [|discriminate]. destruct (nth_error tet_symmetry o) as [sy|]; [|discriminate].
      apply andb_prop in K. destruct K as [K1 K2]. apply size_check_ok in K2. cbn [obind].
      eexists. exists (realF (tet_points Rarith) f w). split; [reflexivity|]. split.
      + apply (table_sound tet_call Tetrahedron o 20 (tet_points Zarith) (tet_points Rarith) f w); trivial; [apply rel_tet|apply good_tet|lia].
      + apply (table_stored tet_call Tetrahedron o 20 (tet_points Zarith) (tet_points Rarith) f w); trivial; [apply rel_tet|apply good_tet|lia]. }
  destruct G as (f & F & E & S0 & T). exists f, F. split; [exact E|]. split; [exact S0|]. split; [exact T|]. destruct F as [|a F]; [|cbn; lia]. exfalso.
  destruct S0 as (_ & _ & _ & _ & Ex & _).
  specialize (Ex (repeat 0%nat (Datatypes.S (dim s))) (repeat_length _ _)). cbn [qsum fold_right] in Ex.
  rewrite exact_const in Ex. assert (Y : (list_sum (repeat 0%nat (Datatypes.S (dim s))) <= o)%nat) by (replace (list_sum (repeat 0%nat (S (dim s)))) with 0%nat by (destruct s; reflexivity); lia). specialize (Ex Y).
  replace (0 - 1) with (- (1)) in Ex by lra. rewrite Rabs_Ropp, Rabs_R1 in Ex. assert (/ 10 ^ 18 < 1) by (rewrite <- Rinv_1; apply Rinv_lt_contravar; [|apply Rlt_pow_R1; [lra|lia]]; rewrite Rmult_1_l; apply pow_lt; lra). lra.
Qed.
