(** Soundness of the certified evaluation of the tables *)
From Coq Require Import ZArith Reals List Bool Lia Lra Permutation.
From Verif Require Import Prelude RSum BasModel BasSpec QuadModel QuadTables QuadRules QuadSpec QuadProofs QuadCheck QuadPoly QuadSym.
Import ListNotations.
Open Scope R_scope.

Lemma Rabs_le_between : forall x y, Rabs x <= y <-> - y <= x <= y.
Proof. intros x y. unfold Rabs; destruct (Rcase_abs x); split; intros; lra. Qed.
Definition U : R := IZR unit.
Definition val (z : Z) : R := IZR z / U.
Lemma U_pos : 0 < U.
Proof. unfold U. apply IZR_lt. vm_compute. reflexivity. Qed.
Lemma U_neq : U <> 0.
Proof. apply Rgt_not_eq, U_pos. Qed.

(** *** Integer approximations *)
(** z stands for x with error e *)
Definition rel (e : R) (z : Z) (x : R) : Prop := Rabs (IZR z - x * U) <= e.
Lemma rel_weaken : forall e e' z x, rel e z x -> e <= e' -> rel e' z x.
Proof. unfold rel; intros; lra. Qed.
Lemma rel_add : forall e1 e2 z1 z2 x1 x2, rel e1 z1 x1 -> rel e2 z2 x2 -> rel (e1 + e2) (z1 + z2)%Z (x1 + x2).
Proof. unfold rel; intros * H1 H2. rewrite plus_IZR. apply Rabs_le_between in H1, H2. apply Rabs_le_between. lra. Qed.
Lemma rel_sub : forall e1 e2 z1 z2 x1 x2, rel e1 z1 x1 -> rel e2 z2 x2 -> rel (e1 + e2) (z1 - z2)%Z (x1 - x2).
Proof. unfold rel; intros * H1 H2. rewrite minus_IZR. apply Rabs_le_between in H1, H2. apply Rabs_le_between. lra. Qed.
Lemma rel_one : rel 0 unit 1.
Proof. unfold rel. change (IZR unit) with U. rewrite Rmult_1_l, Rminus_diag_eq by reflexivity. rewrite Rabs_R0. lra. Qed.
Lemma floor_bound : forall a b, (0 < b)%Z -> Rabs (IZR (a / b) - IZR a / IZR b) <= 1.
Proof.
  intros a b Hb. assert (Hb' : 0 < IZR b) by now apply IZR_lt.
  pose proof (Z.div_mod a b ltac:(lia)) as E. pose proof (Z.mod_pos_bound a b Hb) as [M0 M1].
  apply IZR_le in M0. apply IZR_lt in M1. apply (f_equal IZR) in E. rewrite plus_IZR, mult_IZR in E.
  replace (IZR a / IZR b) with (IZR (a / b) + IZR (a mod b) / IZR b) by (rewrite E; field; lra).
  assert (0 <= IZR (a mod b) / IZR b <= 1).
  { split; [apply Rmult_le_pos; [lra|left; now apply Rinv_0_lt_compat]|]. apply (Rmult_le_reg_r (IZR b)); [lra|]. field_simplify; lra. }
  apply Rabs_le_between. lra.
Qed.
Lemma recips_ok : forallb recipb recips = true.
Proof. vm_cast_no_check (eq_refl true). Qed.
Lemma rel_lit : forall l, rel (101 / 100) (zlit l) (lit_val l).
Proof.
  assert (D : forall m k, rel (101 / 100) (m * unit / 10 ^ Z.of_N k)%Z (IZR m / IZR (10 ^ Z.of_N k))).
  { intros m k. unfold rel. assert (Hk : (0 < 10 ^ Z.of_N k)%Z) by (apply Z.pow_pos_nonneg; lia).
    pose proof (floor_bound (m * unit) _ Hk) as E. rewrite mult_IZR in E. change (IZR unit) with U in E.
    replace (IZR m / IZR (10 ^ Z.of_N k) * U) with (IZR m * U / IZR (10 ^ Z.of_N k)); [lra|]. field. apply not_0_IZR. lia. }
  intros [m k|p q].
  - cbn [zlit lit_val]. destruct (find _ recips) as [[k' [s r]]|] eqn:Ef; [|apply D]. destruct (Z.abs m * 1024 <=? 2 ^ s)%Z eqn:Em; [|apply D].
    apply find_some in Ef. destruct Ef as [Hin Hk]. cbn [fst] in Hk. apply N.eqb_eq in Hk. subst k'.
    pose proof recips_ok as R. rewrite forallb_forall in R. specialize (R _ Hin). unfold recipb in R.
    apply andb_prop in R. destruct R as [R R3]. apply andb_prop in R. destruct R as [R1 R2]. apply Z.leb_le in R1, R2, Em. apply Z.ltb_lt in R3.
    assert (H10 : (0 < 10 ^ Z.of_N k)%Z) by (apply Z.pow_pos_nonneg; lia). assert (H2 : (0 < 2 ^ s)%Z) by (apply Z.pow_pos_nonneg; lia).
    rewrite Z.shiftr_div_pow2 by exact R1. pose proof (floor_bound (m * r) _ H2) as F. unfold rel.
    set (d := (10 ^ Z.of_N k)%Z) in *. set (t := (2 ^ s)%Z) in *.
    assert (Eu : (2 ^ (K + s) = unit * t)%Z) by (subst t; unfold unit; rewrite <- Z.pow_add_r by (try exact R1; vm_compute; discriminate); reflexivity).
    rewrite Eu in R2, R3. apply IZR_le in R2, Em. apply IZR_lt in R3, H10, H2. rewrite minus_IZR, !mult_IZR in R2, R3. rewrite mult_IZR, abs_IZR in Em. rewrite mult_IZR in F. change (IZR unit) with U in R2, R3.
    set (D' := IZR d) in *. set (t' := IZR t) in *. set (m' := IZR m) in *. set (r' := IZR r) in *.
    assert (G : Rabs (m' * r' / t' - m' / D' * U) <= / 100).
    { replace (m' * r' / t' - m' / D' * U) with (- (m' / t') * ((U * t' - r' * D') / D')) by (field; lra).
      rewrite Rabs_mult, Rabs_Ropp. assert (A : Rabs (m' / t') <= / 1024).
      { unfold Rdiv. rewrite Rabs_mult, (Rabs_pos_eq (/ t')) by (left; now apply Rinv_0_lt_compat). apply (Rmult_le_reg_r t'); trivial. rewrite Rmult_assoc, Rinv_l by lra. lra. }
      assert (B : Rabs ((U * t' - r' * D') / D') <= 1).
      { rewrite Rabs_pos_eq; [|apply Rmult_le_pos; [lra|left; now apply Rinv_0_lt_compat]]. apply (Rmult_le_reg_r D'); trivial. unfold Rdiv. rewrite Rmult_assoc, Rinv_l by lra. lra. }
      pose proof (Rabs_pos (m' / t')). pose proof (Rabs_pos ((U * t' - r' * D') / D')). nra. }
    apply Rabs_le_between in G, F. apply Rabs_le_between. lra.
  - unfold rel; cbn [zlit lit_val]. pose proof (floor_bound (p * unit) (Zpos q) ltac:(lia)) as E. rewrite mult_IZR in E. change (IZR unit) with U in E.
    replace (IZR p / IZR (Zpos q) * U) with (IZR p * U / IZR (Zpos q)); [lra|]. field. apply not_0_IZR. lia.
Qed.

(** The macros: at most 15 literals are added or subtracted *)
Definition relq (n : nat) (z : Z) (x : R) : Prop := rel (INR n * (101 / 100)) z x.
Lemma relq_add : forall n1 n2 z1 z2 x1 x2, relq n1 z1 x1 -> relq n2 z2 x2 -> relq (n1 + n2) (z1 + z2)%Z (x1 + x2).
Proof. unfold relq; intros. rewrite plus_INR, Rmult_plus_distr_r. now apply rel_add. Qed.
Lemma relq_sub : forall n1 n2 z1 z2 x1 x2, relq n1 z1 x1 -> relq n2 z2 x2 -> relq (n1 + n2) (z1 - z2)%Z (x1 - x2).
Proof. unfold relq; intros. rewrite plus_INR, Rmult_plus_distr_r. now apply rel_sub. Qed.
Lemma relq_lit : forall l, relq 1 (zlit l) (lit_val l).
Proof. intros l. unfold relq. rewrite Rmult_1_l. apply rel_lit. Qed.
Lemma relq_one : relq 0 unit 1.
Proof. unfold relq. rewrite Rmult_0_l. apply rel_one. Qed.
Lemma relq_16 : forall n z x, relq n z x -> (n <=? 15)%nat = true -> rel 16 z x.
Proof. intros n z x H Hn. apply Nat.leb_le, le_INR in Hn. replace (INR 15) with 15 in Hn by (rewrite INR_IZR_INZ; reflexivity). eapply rel_weaken; [exact H|]. lra. Qed.
Ltac rel_tac := cbn [num one add sub Zarith Rarith];
  eapply relq_16; [repeat lazymatch goal with
    | |- relq _ (_ - _)%Z _ => simple apply relq_sub
    | |- relq _ (_ + _)%Z _ => simple apply relq_add
    | |- relq _ (zlit _) _ => simple apply relq_lit
    | |- relq _ unit _ => simple apply relq_one
    end|reflexivity].
Ltac rel_points := repeat (first [apply Forall2_nil|apply Forall2_cons]); rel_tac.
Lemma rel_seg : forall c, Forall2 (Forall2 (rel 16)) (seg_points Zarith c) (seg_points Rarith c).
Proof. destruct c; cbn [seg_points]; rel_points. Qed.
Lemma rel_tri : forall c, Forall2 (Forall2 (rel 16)) (tri_points Zarith c) (tri_points Rarith c).
Proof. destruct c; cbn [tri_points]; unfold push2; rel_points. Qed.
Lemma rel_tet : forall c, Forall2 (Forall2 (rel 16)) (tet_points Zarith c) (tet_points Rarith c).
Proof. destruct c; cbn [tet_points]; unfold twist4, twist6, twist12, twist24, push3; rel_points. Qed.

Lemma snap_close : forall base c, (Z.abs (snap base c - c) <= 8)%Z.
Proof.
  intros base c. unfold snap. destruct (find _ base) eqn:E; [|rewrite Z.sub_diag; cbn; lia].
  apply find_some in E. destruct E as [_ E]. apply Z.leb_le in E. exact E.
Qed.
Lemma rel_snap : forall base z x, rel 16 z x -> rel 24 (snap base z) x.
Proof.
  intros base z x H. unfold rel in *. pose proof (snap_close base z) as S.
  assert (S1 : Rabs (IZR (snap base z) - IZR z) <= 8) by (rewrite <- minus_IZR, <- abs_IZR; now apply IZR_le).
  apply Rabs_le_between in H, S1. apply Rabs_le_between. lra.
Qed.
Lemma rel_snap_orbit : forall o p, Forall2 (Forall2 (rel 16)) o p -> Forall2 (Forall2 (rel 24)) (snap_orbit o) p.
Proof.
  intros o p H. unfold snap_orbit. generalize (hd [] o). intros base. induction H as [|a b o p Hab _ IH]; cbn [map]; constructor; trivial.
  induction Hab; cbn [map]; constructor; trivial. now apply rel_snap.
Qed.

(** *** Truncated products *)
Definition approx (e : R) (z : Z) (x : R) : Prop := rel e z x /\ 0 <= x <= 1 /\ (0 <= z <= unit)%Z.
Lemma approx_mul : forall e1 e2 z1 z2 x1 x2, approx e1 z1 x1 -> approx e2 z2 x2 -> approx (e1 + e2 + 1) (mulK z1 z2) (x1 * x2).
Proof.
  intros * (R1 & X1 & Z1) (R2 & X2 & Z2). pose proof U_pos as HU.
  assert (Hm : mulK z1 z2 = (z1 * z2 / unit)%Z) by (unfold mulK; rewrite Z.shiftr_div_pow2 by (vm_compute; discriminate); reflexivity).
  assert (Hu : (0 < unit)%Z) by (vm_compute; reflexivity).
  split; [|split].
  - unfold rel in *. rewrite Hm. pose proof (floor_bound (z1 * z2) unit Hu) as F. rewrite mult_IZR in F. change (IZR unit) with U in F.
    destruct Z2 as [Z2a Z2b]. apply IZR_le in Z2a, Z2b. change (IZR unit) with U in Z2b.
    assert (D : IZR z1 * IZR z2 / U - x1 * x2 * U = (IZR z1 - x1 * U) * (IZR z2 / U) + x1 * (IZR z2 - x2 * U)) by (field; lra).
    assert (Q : 0 <= IZR z2 / U <= 1).
    { split; [apply Rmult_le_pos; [lra|left; now apply Rinv_0_lt_compat]|]. apply (Rmult_le_reg_r U); [lra|]. field_simplify; lra. }
    assert (B : Rabs (IZR z1 * IZR z2 / U - x1 * x2 * U) <= e1 + e2).
    { rewrite D. eapply Rle_trans; [apply Rabs_triang|]. rewrite !Rabs_mult, (Rabs_pos_eq (IZR z2 / U)), (Rabs_pos_eq x1) by lra.
      pose proof (Rabs_pos (IZR z1 - x1 * U)). pose proof (Rabs_pos (IZR z2 - x2 * U)). apply Rplus_le_compat.
      - rewrite <- (Rmult_1_r e1). apply Rmult_le_compat; lra.
      - rewrite <- (Rmult_1_l e2). apply Rmult_le_compat; lra. }
    apply Rabs_le_between in B, F. apply Rabs_le_between. lra.
  - split; [apply Rmult_le_pos; lra|]. rewrite <- (Rmult_1_r 1). apply Rmult_le_compat; lra.
  - rewrite Hm. split; [apply Z.div_pos; nia|]. apply Z.div_le_upper_bound; nia.
Qed.
Lemma approx_unit : approx 0 unit 1.
Proof. split; [apply rel_one|split; [lra|vm_compute; split; discriminate]]. Qed.
Lemma approx_val : forall z, (0 <= z <= unit)%Z -> approx 0 z (val z).
Proof.
  intros z H. pose proof U_pos as HU. destruct H as [H0 H1]. pose proof (IZR_le _ _ H0) as G0. pose proof (IZR_le _ _ H1) as G1. change (IZR unit) with U in G1.
  split; [|split; [|lia]].
  - unfold rel, val. replace (IZR z - IZR z / U * U) with 0 by (field; lra). rewrite Rabs_R0. lra.
  - unfold val. split; [apply Rmult_le_pos; [lra|left; now apply Rinv_0_lt_compat]|]. apply (Rmult_le_reg_r U); [lra|]. field_simplify; lra.
Qed.
Lemma approx_weaken : forall e e' z x, approx e z x -> e <= e' -> approx e' z x.
Proof. intros e e' z x (R1 & R2) G. split; trivial. eapply rel_weaken; eassumption. Qed.

Lemma powers_ok : forall n a z p e x, (a <= n)%nat -> approx 0 z (val z) -> approx e p x ->
  approx (e + INR a) (nth a (powers n z p) 0%Z) (val z ^ a * x).
Proof.
  induction n as [|n IH]; intros a z p e x Ha Hz Hp.
  - destruct a; [|lia]. cbn. eapply approx_weaken; [|rewrite Rplus_0_r; apply Rle_refl]. now rewrite Rmult_1_l.
  - destruct a as [|a]; cbn [powers nth].
    + cbn. eapply approx_weaken; [|rewrite Rplus_0_r; apply Rle_refl]. now rewrite Rmult_1_l.
    + pose proof (approx_mul _ _ _ _ _ _ Hz Hp) as M. specialize (IH a z _ _ _ ltac:(lia) Hz M).
      replace (val z ^ S a * x) with (val z ^ a * (val z * x)) by (cbn; ring).
      eapply approx_weaken; [exact IH|]. rewrite S_INR. lra.
Qed.
Lemma monoK_ok : forall o zs es acc e x, length es = length zs -> (forall k, In k es -> (k <= o)%nat) ->
  (forall z, In z zs -> (0 <= z <= unit)%Z) -> approx e acc x ->
  approx (e + INR (list_sum es + length es)) (monoK acc (map (fun z => powers o z unit) zs) es) (x * mono es (map val zs)).
Proof.
  intros o; induction zs as [|z zs IH]; intros [|k es] acc e x Hl He Hz Ha; try discriminate.
  - rewrite list_sum_nil. cbn. rewrite Rmult_1_r. eapply approx_weaken; [exact Ha|lra].
  - cbn [map monoK mono]. rewrite list_sum_cons. cbn [length] in *.
    assert (Ht : forall acc' e' x', approx e' acc' x' -> approx (e' + INR (list_sum es + length es)) (monoK acc' (map (fun z => powers o z unit) zs) es) (x' * mono es (map val zs))).
    { intros. apply IH; trivial; [lia|intros; apply He; now right|intros; apply Hz; now right]. }
    destruct k as [|k].
    + replace (x * (val z ^ 0 * mono es (map val zs))) with (x * mono es (map val zs)) by (cbn; ring).
      eapply approx_weaken; [apply Ht; exact Ha|]. rewrite !plus_INR, S_INR. cbn. lra.
    + assert (P : approx (0 + INR (S k)) (nth (S k) (powers o z unit) 0%Z) (val z ^ S k * 1)).
      { apply powers_ok; [apply He; now left| |apply approx_unit]. apply approx_val. apply Hz. now left. }
      rewrite Rmult_1_r in P. pose proof (approx_mul _ _ _ _ _ _ Ha P) as M.
      replace (x * (val z ^ S k * mono es (map val zs))) with ((x * val z ^ S k) * mono es (map val zs)) by ring.
      eapply approx_weaken; [apply Ht; exact M|]. rewrite !plus_INR, !S_INR. lra.
Qed.

(** *** The formula the integers stand for *)
Definition zform (orb : list orbit) : formula := flat_map (fun ow => map (fun p => (map val p, val (snd ow))) (fst ow)) orb.
Lemma zform_length : forall o orb, length (zform orb) = length (tables o orb).
Proof. intros o; induction orb as [|ow orb IH]; [reflexivity|]. unfold zform, tables. cbn [flat_map]. fold (zform orb). fold (tables o orb). rewrite !app_length, !map_length. now rewrite <- IH. Qed.
Definition in_unit (m : nat) (ow : orbit) : Prop :=
  (forall p, In p (fst ow) -> length p = m /\ forall z, In z p -> (100 < z < unit - 100)%Z) /\ (100 < snd ow <= unit)%Z.
Lemma insideb_ok : forall m ow, insideb m ow = true -> in_unit m ow.
Proof.
  intros m [ps w] H. unfold insideb in H. cbn [fst snd] in H. apply andb_prop in H. destruct H as [H W2]. apply andb_prop in H. destruct H as [H W1].
  apply Z.ltb_lt in W1. apply Z.leb_le in W2. rewrite forallb_forall in H. split; [|cbn [snd]; lia].
  intros p Hp. specialize (H p Hp). apply andb_prop in H. destruct H as [L H]. apply Nat.eqb_eq in L. split; trivial.
  rewrite forallb_forall in H. intros z Hz. specialize (H z Hz). apply andb_prop in H. destruct H as [A B]. apply Z.ltb_lt in A, B. lia.
Qed.
Lemma qsum_app : forall F G h, qsum (F ++ G) h = qsum F h + qsum G h.
Proof. intros F G h. unfold qsum. induction F as [|a F IH]; cbn; [ring|]. rewrite IH. ring. Qed.
Lemma momentK_app : forall A B es, momentK (A ++ B) es = (momentK A es + momentK B es)%Z.
Proof. intros A B es. unfold momentK. induction A as [|a A IH]; cbn; [reflexivity|]. rewrite IH. ring. Qed.

Lemma moment_ok : forall m o orb es, length es = m -> (list_sum es <= o)%nat -> (forall ow, In ow orb -> in_unit m ow) ->
  Rabs (IZR (momentK (tables o orb) es) - qsum (zform orb) (mono es) * U) <= INR (length (zform orb)) * INR (o + m).
Proof.
  intros m o orb es Hl Ho. assert (He : forall k, In k es -> (k <= o)%nat).
  { intros k Hk. assert (G : forall l, In k l -> (k <= list_sum l)%nat).
    { induction l as [|a l IH]; intros Hi; [destruct Hi|]. rewrite list_sum_cons. destruct Hi as [->|Hi]; [lia|]. specialize (IH Hi). lia. }
    specialize (G es Hk). lia. }
  induction orb as [|[ps w] orb IH]; intros H.
  - cbn. rewrite Rmult_0_l, Rminus_0_r, Rabs_R0. lra.
  - specialize (IH (fun ow Hi => H ow (or_intror Hi))). destruct (H _ (or_introl eq_refl)) as [Hp Hw]. cbn [fst snd] in *.
    unfold tables, zform. cbn [flat_map fst snd]. fold (tables o orb). fold (zform orb).
    rewrite momentK_app, qsum_app, plus_IZR, app_length, plus_INR.
    assert (G : Rabs (IZR (momentK (map (fun p => (map (fun z => powers o z unit) p, w)) ps) es) - qsum (map (fun p => (map val p, val w)) ps) (mono es) * U)
                <= INR (length (map (fun p => (map val p, val w)) ps)) * INR (o + m)).
    { clear IH H. induction ps as [|p ps IH].
      - cbn. rewrite Rmult_0_l, Rminus_0_r, Rabs_R0. lra.
      - specialize (IH (fun q Hq => Hp q (or_intror Hq))). destruct (Hp p (or_introl eq_refl)) as [Lp Cp].
        cbn [map]. unfold momentK, qsum. cbn [fold_right fst snd]. fold (momentK (map (fun p => (map (fun z => powers o z unit) p, w)) ps) es).
        fold (qsum (map (fun p => (map val p, val w)) ps) (mono es)).
        destruct (monoK_ok o p es w 0 (val w) ltac:(lia) He ltac:(intros z Hz; specialize (Cp z Hz); lia) ltac:(apply approx_val; lia)) as [A _].
        unfold rel in A. rewrite plus_IZR. cbn [length]. rewrite S_INR.
        assert (B : 0 + INR (list_sum es + length es) <= INR (o + m)) by (rewrite Rplus_0_l; apply le_INR; lia).
        apply Rabs_le_between in A, IH. apply Rabs_le_between. lra. }
    apply Rabs_le_between in G, IH. apply Rabs_le_between. lra.
Qed.

(** *** Symmetry *)
Lemma list_eqb_ok : forall a b, list_eqb a b = true -> a = b.
Proof. induction a as [|x a IH]; intros [|y b] H; cbn in H; try discriminate; trivial. apply andb_prop in H. destruct H as [E H]. apply Z.eqb_eq in E. subst. f_equal. now apply IH. Qed.
Lemma take_ok : forall p l r, take p l = Some r -> Permutation (p :: r) l.
Proof.
  intros p; induction l as [|q l IH]; intros r H; cbn in H; [discriminate|]. destruct (list_eqb p q) eqn:E.
  - inversion H; subst. apply list_eqb_ok in E. subst. apply Permutation_refl.
  - destruct (take p l) as [r'|] eqn:T; [|discriminate]. inversion H; subst. specialize (IH _ eq_refl).
    etransitivity; [apply perm_swap|]. now apply perm_skip.
Qed.
Lemma permb_ok : forall a b, permb a b = true -> Permutation a b.
Proof.
  induction a as [|p a IH]; intros b H; cbn in H; [destruct b; [constructor|discriminate]|].
  destruct (take p b) as [b'|] eqn:T; [|discriminate]. apply take_ok in T. etransitivity; [apply perm_skip; apply IH; exact H|exact T].
Qed.
Lemma swap_at_map : forall X Y (f : X -> Y) j l, map f (swap_at j l) = swap_at j (map f l).
Proof. intros X Y f; induction j as [|j IH]; intros [|x [|y l]]; cbn; trivial; f_equal; apply IH. Qed.
Lemma swap_at_length : forall X j (l : list X), length (swap_at j l) = length l.
Proof. intros X; induction j as [|j IH]; intros [|x [|y l]]; cbn; trivial; f_equal; apply IH. Qed.
Lemma mono_swap : forall j es p, length es = length p -> mono (swap_at j es) (swap_at j p) = mono es p.
Proof.
  induction j as [|j IH]; intros [|e [|e' es]] [|x [|x' p]] H; cbn in H; try discriminate; try reflexivity.
  - cbn [swap_at mono]. ring.
  - cbn [swap_at]. destruct j; reflexivity.
  - change (swap_at (S j) (e :: e' :: es)) with (e :: swap_at j (e' :: es)). change (swap_at (S j) (x :: x' :: p)) with (x :: swap_at j (x' :: p)).
    cbn [mono]. rewrite IH by (cbn; lia). reflexivity.
Qed.
Lemma qsum_perm : forall F G h, Permutation F G -> qsum F h = qsum G h.
Proof. intros F G h H. unfold qsum. induction H; cbn; lra. Qed.
Lemma qsum_map : forall F g h, qsum (map (fun pw => (g (fst pw), snd pw)) F) h = qsum F (fun p => h (g p)).
Proof. intros F g h. unfold qsum. induction F as [|[p w] F IH]; cbn; [reflexivity|]. now rewrite IH. Qed.
Lemma qsum_ext : forall F h h', (forall p w, In (p, w) F -> h p = h' p) -> qsum F h = qsum F h'.
Proof. intros F h h' H. unfold qsum. induction F as [|[p w] F IH]; cbn; [reflexivity|]. rewrite (H p w) by now left. f_equal. apply IH. intros. apply (H p0 w0). now right. Qed.

Definition sym_orbit (m : nat) (ow : orbit) : Prop := forall j, (j < m)%nat -> Permutation (fst ow) (map (swap_at j) (fst ow)).
Lemma take1_ok : forall p l r, take1 p l = Some r -> Permutation (p :: r) l.
Proof.
  intros p; induction l as [|q l IH]; intros r H; cbn in H; [discriminate|]. destruct (Z.eqb p q) eqn:E.
  - inversion H; subst. apply Z.eqb_eq in E. subst. apply Permutation_refl.
  - destruct (take1 p l) as [r'|] eqn:T; [|discriminate]. inversion H; subst. specialize (IH _ eq_refl).
    etransitivity; [apply perm_swap|]. now apply perm_skip.
Qed.
Lemma permb1_ok : forall a b, permb1 a b = true -> Permutation a b.
Proof.
  induction a as [|p a IH]; intros b H; cbn in H; [destruct b; [constructor|discriminate]|].
  destruct (take1 p b) as [b'|] eqn:T; [|discriminate]. apply take1_ok in T. etransitivity; [apply perm_skip; apply IH; exact H|exact T].
Qed.
Definition one_orbit (ow : orbit) : Prop := forall p, In p (fst ow) -> Permutation (hd [] (fst ow)) p.
Lemma symmetricb_ok : forall m ow, symmetricb m ow = true -> sym_orbit m ow /\ one_orbit ow.
Proof.
  intros m ow H. unfold symmetricb in H. apply andb_prop in H. destruct H as [H1 H]. split.
  - intros j Hj. rewrite forallb_forall in H. apply permb_ok, H, in_seq. lia.
  - intros p Hp. rewrite forallb_forall in H1. apply permb1_ok. now apply H1.
Qed.
Lemma zform_points : forall orb p w, In (p, w) (zform orb) -> exists ow q, In ow orb /\ In q (fst ow) /\ p = map val q /\ w = val (snd ow).
Proof.
  intros orb p w H. unfold zform in H. apply in_flat_map in H. destruct H as (ow & Ho & H). apply in_map_iff in H. destruct H as (q & E & Hq).
  inversion E; subst. exists ow, q. auto.
Qed.
Lemma zform_swap : forall m orb j, (j < m)%nat -> (forall ow, In ow orb -> sym_orbit m ow) ->
  Permutation (zform orb) (map (fun pw => (swap_at j (fst pw), snd pw)) (zform orb)).
Proof.
  intros m orb j Hj H. unfold zform. induction orb as [|[ps w] orb IH]; [constructor|]. cbn [flat_map fst snd]. rewrite map_app. apply Permutation_app.
  - rewrite map_map. cbn [fst snd]. pose proof (H _ (or_introl eq_refl) j Hj) as P. cbn [fst] in P.
    apply (Permutation_map (fun p => (map val p, val w))) in P. rewrite map_map in P. etransitivity; [exact P|].
    erewrite map_ext; [apply Permutation_refl|]. intros p. cbn. now rewrite swap_at_map.
  - apply IH. intros. apply H. now right.
Qed.
Lemma qsum_swap : forall m orb es j, length es = S m -> (j < m)%nat -> (forall ow, In ow orb -> in_unit (S m) ow) -> (forall ow, In ow orb -> sym_orbit m ow) ->
  qsum (zform orb) (mono (swap_at j es)) = qsum (zform orb) (mono es).
Proof.
  intros m orb es j Hl Hj Hi Hs. rewrite (qsum_perm _ _ _ (zform_swap m orb j Hj Hs)), qsum_map. apply qsum_ext.
  intros p w Hp. apply zform_points in Hp. destruct Hp as (ow & q & Ho & Hq & -> & _). apply mono_swap. rewrite map_length, Hl. symmetry. now apply (Hi ow).
Qed.
(** Adjacent transpositions generate all permutations *)
Lemma adjacent : forall X (P : list X -> Prop), (forall j l, (S j < length l)%nat -> P l -> P (swap_at j l)) -> forall l l', Permutation l l' -> P l -> P l'.
Proof.
  intros X P H.
  assert (G : forall l l', Permutation l l' -> forall pre, P (pre ++ l) -> P (pre ++ l')).
  { induction 1 as [|x l l' _ IH|x y l|l l' l'' _ IH1 _ IH2]; intros pre HP; trivial.
    - specialize (IH (pre ++ [x])). rewrite <- !app_assoc in IH. now apply IH.
    - specialize (H (length pre) (pre ++ y :: x :: l)). rewrite app_length in H. cbn [length] in H. specialize (H ltac:(lia) HP).
      replace (swap_at (length pre) (pre ++ y :: x :: l)) with (pre ++ x :: y :: l) in H; trivial. clear. induction pre as [|z pre IH]; cbn; [reflexivity|]. now f_equal.
    - auto. }
  intros l l' HP. exact (G l l' HP []).
Qed.
Lemma swap_at_perm : forall X j (l : list X), Permutation (swap_at j l) l.
Proof. intros X; induction j as [|j IH]; intros [|x [|y l]]; cbn; try apply Permutation_refl; [apply perm_swap|apply perm_skip|apply perm_skip]; apply IH. Qed.
Lemma list_sum_perm : forall l l', Permutation l l' -> list_sum l = list_sum l'.
Proof. induction 1; rewrite ?list_sum_cons; lia. Qed.
Lemma facts_perm : forall l l', Permutation l l' -> facts l = facts l'.
Proof. unfold facts. induction 1; cbn [fold_right]; try congruence. ring. Qed.
Lemma exact_perm : forall m l l', Permutation l l' -> exact m l = exact m l'.
Proof. intros m l l' H. unfold exact. now rewrite (list_sum_perm _ _ H), (facts_perm _ _ H). Qed.
Lemma qsum_any : forall m orb es es', length es = S m -> Permutation es es' -> (forall ow, In ow orb -> in_unit (S m) ow) -> (forall ow, In ow orb -> sym_orbit m ow) ->
  qsum (zform orb) (mono es') = qsum (zform orb) (mono es).
Proof.
  intros m orb es es' Hl HP Hi Hs.
  refine (proj2 (adjacent _ (fun l => length l = S m /\ qsum (zform orb) (mono l) = qsum (zform orb) (mono es)) _ es es' HP (conj Hl eq_refl))).
  intros j l Hj [Ll E]. split; [now rewrite swap_at_length|]. rewrite (qsum_swap m); trivial. lia.
Qed.

Lemma zfact_ok : forall n, IZR (zfact n) = INR (fact n).
Proof. induction n as [|n IH]; [reflexivity|]. rewrite fact_simpl, mult_INR, <- IH. cbn [zfact]. rewrite mult_IZR, <- INR_IZR_INZ. reflexivity. Qed.
Lemma wdeg_sum : forall k a, (2 <= k)%nat -> (2 * list_sum a <= wdeg (seq k (length a)) a)%nat.
Proof. intros k a. revert k. induction a as [|x a IH]; intros k Hk; [rewrite list_sum_nil; cbn; lia|]. rewrite list_sum_cons. cbn [length seq wdeg]. specialize (IH (S k) ltac:(lia)). nia. Qed.
Lemma weight_sum : forall a o, (weight a <= o)%nat -> (list_sum a <= Nat.div2 o)%nat.
Proof. intros a o H. unfold weight, degrees in H. pose proof (wdeg_sum 2 a ltac:(lia)). rewrite Nat.div2_div. apply Nat.div_le_lower_bound; lia. Qed.
(** What the check of the moments says *)
Lemma momentb_ok : forall s o mx orb a, length a = dim s -> (weight a <= o)%nat -> (o <= mx <= 21)%nat -> (forall ow, In ow orb -> in_unit (dim s) ow) ->
  forallb (momentb (dim s) o (Z.of_nat (length (tables (Nat.div2 o) orb))) (tables (Nat.div2 o) orb)) (means (dim s) mx) = true ->
  Rabs (qsum (zform orb) (mono a) - emean s a) <= INR (length (zform orb)) * (INR (o + dim s) + 100) / U.
Proof.
  intros s o mx orb a Hl Hw Hx Hi H. rewrite forallb_forall in H. destruct (means_ok s mx a ltac:(lia) Hl ltac:(lia)) as (N & HN & EN).
  specialize (H _ HN). unfold momentb in H. cbn [fst snd] in H. destruct (weight a <=? o)%nat eqn:Ew; [|apply Nat.leb_gt in Ew; lia]. apply Z.leb_le in H. pose proof U_pos as HU.
  apply IZR_le in H. rewrite abs_IZR, minus_IZR, !mult_IZR in H. rewrite <- (mult_IZR (zfact (dim s))) in H. rewrite <- INR_IZR_INZ, <- (zform_length (Nat.div2 o)) in H.
  change (IZR unit) with U in H. set (den := IZR (zfact (weight a + dim s))) in *. assert (Hd : 0 < den) by (subst den; rewrite zfact_ok; apply fact_pos).
  assert (H' : Rabs (IZR (momentK (tables (Nat.div2 o) orb) a) - emean s a * U) <= 100 * INR (length (zform orb))).
  { apply (Rmult_le_reg_r den); trivial. rewrite <- (Rabs_pos_eq den) at 1 by lra. rewrite <- Rabs_mult.
    eapply Rle_trans; [|exact H]. right. f_equal. rewrite EN. field. lra. }
  pose proof (moment_ok (dim s) (Nat.div2 o) orb a Hl (weight_sum a o Hw) Hi) as M.
  assert (B : INR (Nat.div2 o + dim s) <= INR (o + dim s)) by (apply le_INR; pose proof (Nat.div2_div o); pose proof (Nat.div_le_upper_bound o 2 o); lia).
  assert (B' : INR (length (zform orb)) * INR (Nat.div2 o + dim s) <= INR (length (zform orb)) * INR (o + dim s)) by (apply Rmult_le_compat_l; [apply pos_INR|exact B]).
  apply (Rmult_le_reg_r U); trivial. rewrite <- (Rabs_pos_eq U) at 1 by lra. rewrite <- Rabs_mult.
  replace (INR (length (zform orb)) * (INR (o + dim s) + 100) / U * U) with (INR (length (zform orb)) * INR (o + dim s) + 100 * INR (length (zform orb))) by (field; lra).
  set (k := momentK (tables (Nat.div2 o) orb) a) in *.
  replace ((qsum (zform orb) (mono a) - emean s a) * U) with ((IZR k - emean s a * U) - (IZR k - qsum (zform orb) (mono a) * U)) by ring.
  apply Rabs_le_between in H', M. apply Rabs_le_between. lra.
Qed.
