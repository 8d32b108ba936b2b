(** The invariants carry the derivatives along curves of strains. *)
From Coq Require Import Reals Lra Lia Psatz.
From Verif Require Import Prelude RSum AdModel AdSpec AdProofs AdProofs2 AdProofs3 AdProofs6 AdProofs7 AdProofs8 TnModel TnSpec TnProofs3 MechModel MechSpec MechProofs.
Open Scope R_scope.

(** how often an element of SymMtx<3> occurs in the matrix *)
Definition mult (k : nat) : R := match k with 1%nat | 2%nat | 4%nat => 2 | _ => 1 end.
Definition pair_of (k : nat) : nat * nat := nth k [(0, 0); (0, 1); (0, 2); (1, 1); (1, 2); (2, 2)]%nat (0, 0)%nat.
(** the element of BiSymTensor4Rank<3> for the elements k, l of SymMtx<3> *)
Definition pos (k l : nat) : nat := bi3_cont (fst (pair_of k)) (snd (pair_of k)) (fst (pair_of l)) (snd (pair_of l)).

Ltac i6 k := destruct k as [|[|[|[|[|[|k]]]]]]; [| | | | | |exfalso; lia].
Lemma pos_ok : forall k l, (k < ng sym3_storage)%nat -> (l < ng sym3_storage)%nat ->
  nth_error (hidx sym3_storage) (pos k l) = Some (k, l) \/ nth_error (hidx sym3_storage) (pos k l) = Some (l, k).
Proof.
  cbn [ng sym3_storage]. intros k l Hk Hl.
  assert (G : forallb (fun k => forallb (fun l => match nth_error (hidx sym3_storage) (pos k l) with
    | Some (p, q) => ((p =? k) && (q =? l)) || ((p =? l) && (q =? k)) | None => false end%nat) (seq 0 6)) (seq 0 6) = true) by (vm_compute; reflexivity).
  rewrite forallb_forall in G. specialize (G k ltac:(apply in_seq; lia)). rewrite forallb_forall in G. specialize (G l ltac:(apply in_seq; lia)).
  destruct (nth_error _ _) as [[p r]|]; [|discriminate].
  apply Bool.orb_true_iff in G as [H|H]; apply andb_prop in H as (H1 & H2); apply Nat.eqb_eq in H1, H2; subst; auto.
Qed.

Lemma DJ_change : forall m f v w x a b h a' b' h', DJ m f v w x a b h ->
  ((1 <= m)%nat -> a = a' /\ b = b') -> ((2 <= m)%nat -> h = h') -> DJ m f v w x a' b' h'.
Proof.
  intros m f v w x a b h a' b' h' (H1 & H2) E1 E2. split; intros Hm.
  - destruct (E1 Hm) as (-> & ->). now apply H1.
  - rewrite <- (E2 Hm). now apply H2.
Qed.

(** derivatives of polynomials *)
Ltac dj Hy := lazymatch goal with
  | |- DJ ?m (fun Y => @?f Y + @?g Y) _ _ _ _ _ _ => eapply (DJ_plus m f g); [dj Hy|dj Hy]
  | |- DJ ?m (fun Y => @?f Y * @?g Y) _ _ _ _ _ _ => eapply (DJ_mult m f g); [dj Hy|dj Hy]
  | |- DJ ?m (fun Y => - @?f Y) _ _ _ _ _ _ => eapply (DJ_opp m f); dj Hy
  | |- _ => first [ eapply Hy; [lia|assumption] | apply DJ_const ]
  end.

Section Leaf.
Variable dirs : Type.
Variable dir : dirs -> nat -> R.
Variable X : nat -> R.
Variable n : nat.
Variable y : nat -> (nat -> R) -> R.
Variable dy : dirs -> nat -> R.
Variable ddy : dirs -> dirs -> nat -> R.
Hypothesis Hy : forall m v w k, (k < 6)%nat -> (m <= n)%nat -> DJ m (y k) (dir v) (dir w) X (dy v k) (dy w k) (ddy v w k).

Definition co (v : dirs) (k : nat) : R := mult k * dy v k.
Definition co2 (v w : dirs) (k : nat) : R := mult k * ddy v w k.
Definition strain : list R := map (fun k => y k X) (seq 0 6).
Definition inv_fun (i : invariant) : (nat -> R) -> R := fun Y => invariant_of (cauchy_of (sym6 (fun k => y k Y))) i.

Notation LL := (L sym3_storage dirs co).
Notation QQ := (Q sym3_storage dirs co co2).
Definition el (d : list R) : nat -> R := fun k => nth k d 0.
Definition el2 (d : list R) : nat -> nat -> R := fun k l => nth (pos k l) d 0.

Ltac six := unfold inv_fun, strain; cbv -[Rplus Rmult Ropp Rinv IZR INR DJ y X dir dy ddy sqrt].
Ltac fin := unfold strain; cbv -[Rplus Rmult Rminus Ropp Rinv IZR INR y X dir dy ddy sqrt]; field.

Lemma dj_I1 : forall m v w, (m <= n)%nat -> DJ m (inv_fun I1) (dir v) (dir w) X (LL v (el C_I1_dE)) (LL w (el C_I1_dE)) (QQ v w (el C_I1_dE) (el2 z21)).
Proof.
  intros m v w Hm. eapply DJ_eq; [six; dj Hy|..]; fin.
Qed.
Lemma dj_I2 : forall m v w, (m <= n)%nat -> DJ m (inv_fun I2) (dir v) (dir w) X (LL v (el (C_I2_dE strain))) (LL w (el (C_I2_dE strain))) (QQ v w (el (C_I2_dE strain)) (el2 C_I2_ddE)).
Proof.
  intros m v w Hm. eapply DJ_eq; [six; dj Hy|..]; fin.
Qed.
Lemma dj_I3 : forall m v w, (m <= n)%nat -> DJ m (inv_fun I3) (dir v) (dir w) X (LL v (el (C_I3_dE strain))) (LL w (el (C_I3_dE strain))) (QQ v w (el (C_I3_dE strain)) (el2 (C_I3_ddE strain))).
Proof.
  intros m v w Hm. eapply DJ_eq; [six; dj Hy|..]; fin.
Qed.
Lemma dj_I4 : forall f s m v w, length f = 3%nat -> length s = 3%nat -> (m <= n)%nat ->
  DJ m (inv_fun (I4fs f s)) (dir v) (dir w) X (LL v (el (C_I4fs_dE f s))) (LL w (el (C_I4fs_dE f s))) (QQ v w (el (C_I4fs_dE f s)) (el2 z21)).
Proof.
  intros f s m v w ? ? Hm. lists. eapply DJ_eq; [six; dj Hy|..]; fin.
Qed.
Lemma dj_I5 : forall f s m v w, length f = 3%nat -> length s = 3%nat -> (m <= n)%nat ->
  DJ m (inv_fun (I5fs f s)) (dir v) (dir w) X (LL v (el (C_I5fs_dE strain f s))) (LL w (el (C_I5fs_dE strain f s))) (QQ v w (el (C_I5fs_dE strain f s)) (el2 (C_I5fs_ddE f s))).
Proof.
  intros f s m v w ? ? Hm. lists. eapply DJ_eq; [six; dj Hy|..]; fin.
Qed.

Lemma leaf_val : forall E nd i, length E = 6%nat -> well_formed i -> val (leaf nd E i) = invariant_of (cauchy_of (sym6 (of_list E))) i.
Proof.
  intros E nd i ? W. destruct i as [f s| | | | |f s|f s]; cbn [well_formed] in W; try (destruct W); lists; cbn [leaf val invariant_of].
  - cbv -[Rplus Rmult Rminus Ropp Rinv IZR INR]. ring.
  - cbv -[Rplus Rmult Rminus Ropp Rinv IZR INR]. ring.
  - cbv -[Rplus Rmult Rminus Ropp Rinv IZR INR]. field.
  - cbv -[Rplus Rmult Rminus Ropp Rinv IZR INR]. ring.
  - unfold C_J. f_equal. cbv -[Rplus Rmult Rminus Ropp Rinv IZR INR]. ring.
  - cbv -[Rplus Rmult Rminus Ropp Rinv IZR INR]. ring.
  - cbv -[Rplus Rmult Rminus Ropp Rinv IZR INR]. ring.
Qed.
Lemma inv_fun_val : forall i, inv_fun i X = invariant_of (cauchy_of (sym6 (of_list strain))) i.
Proof.
  intros i. assert (E : forall a b, (a < 3)%nat -> (b < 3)%nat -> cauchy_of (sym6 (fun k => y k X)) a b = cauchy_of (sym6 (of_list strain)) a b).
  { intros a b Ha Hb. i3 a; i3 b; reflexivity. }
  unfold inv_fun. destruct i; cbn [invariant_of]; unfold trace3, bilinear, mprod, det3, Rsum2; unfold Rsum; cbn [fold_right seq map]; rewrite ?E by lia; try reflexivity.
Qed.

Lemma dj_J : forall m v w, (m <= n)%nat -> 0 < det3 (cauchy_of (sym6 (fun k => y k X))) ->
  DJ m (inv_fun Jdet) (dir v) (dir w) X (LL v (el (C_J_dE strain))) (LL w (el (C_J_dE strain))) (QQ v w (el (C_J_dE strain)) (el2 (C_J_ddE strain))).
Proof.
  intros m v w Hm Hp. set (A := el (adj_s (cauchy strain))). set (H3 := el2 (C_I3_ddE strain)). set (Jv := C_J strain).
  assert (E3 : C_I3 strain = det3 (cauchy_of (sym6 (fun k => y k X)))).
  { exact (eq_trans (leaf_val strain 0 I3 eq_refl I) (eq_sym (inv_fun_val I3))). }
  assert (EJ : Jv = sqrt (inv_fun I3 X)) by (unfold Jv, C_J; now rewrite E3).
  assert (Hp' : 0 < inv_fun I3 X) by exact Hp.
  assert (HJ : Jv <> 0) by (rewrite EJ; apply Rgt_not_eq; now apply sqrt_lt_R0).
  assert (LJ : forall v, LL v (el (C_J_dE strain)) = / Jv * LL v A).
  { intros v'. rewrite (L_ext _ _ _ v' _ (fun k => / Jv * A k + 0 * A k)); [rewrite L_lin; ring|].
    cbn [ng sym3_storage]. intros k Hk. i6 k; unfold A, Jv; cbn -[C_J strain]; unfold Rdiv; ring. }
  assert (L3 : forall v, LL v (el (C_I3_dE strain)) = 2 * LL v A).
  { intros v'. rewrite (L_ext _ _ _ v' _ (fun k => 2 * A k + 0 * A k)); [rewrite L_lin; ring|].
    cbn [ng sym3_storage]. intros k Hk. i6 k; unfold A; cbn -[strain]; ring. }
  assert (QJ : QQ v w (el (C_J_dE strain)) (el2 (C_J_ddE strain)) =
    - (/ Jv * / Jv * / Jv) * (LL v A * LL w A) + / Jv * QQ v w A (fun k l => / 2 * H3 k l)).
  { rewrite (Q_ext _ _ _ _ v w _ (fun k => / Jv * A k + 0 * A k) _
      (fun k l => - (/ Jv * / Jv * / Jv) * (A k * A l) + 0 * (A k * A l + A k * A l) + 0 * (A k * A l) + (/ Jv * (/ 2 * H3 k l) + 0 * (/ 2 * H3 k l)))).
    - rewrite (Q_form _ _ _ _ v w (/ Jv) 0 (- (/ Jv * / Jv * / Jv)) 0 0 A A (fun k l => / 2 * H3 k l) (fun k l => / 2 * H3 k l)). ring.
    - cbn [ng sym3_storage]. intros k Hk. i6 k; unfold A, Jv; cbn -[C_J strain]; unfold Rdiv; ring.
    - cbn [ng sym3_storage]. intros k l Hk Hl. unfold el2, H3, A, C_J_ddE. fold Jv. revert HJ. generalize Jv as jv. intros jv HJ.
      i6 k; i6 l; cbn -[strain C_I3_ddE]; cbn -[strain]; field; assumption. }
  assert (Q3 : QQ v w (el (C_I3_dE strain)) H3 = 2 * QQ v w A (fun k l => / 2 * H3 k l)).
  { rewrite (Q_ext _ _ _ _ v w _ (fun k => 2 * A k + 0 * A k) _
      (fun k l => 0 * (A k * A l) + 0 * (A k * A l + A k * A l) + 0 * (A k * A l) + (2 * (/ 2 * H3 k l) + 0 * (/ 2 * H3 k l)))).
    - rewrite (Q_form _ _ _ _ v w 2 0 0 0 0 A A (fun k l => / 2 * H3 k l) (fun k l => / 2 * H3 k l)). ring.
    - cbn [ng sym3_storage]. intros k Hk. i6 k; unfold A; cbn -[strain]; ring.
    - intros. field. }
  eapply DJ_eq; [apply (DJ_comp m (inv_fun I3) sqrt); [apply dj_I3; assumption|apply (fn_table Sqrt); exact Hp']|..];
    unfold op1, op2; cbn [op_of fst snd Nat.leb]; fold H3; rewrite <- EJ, ?LJ, ?L3, ?QJ, ?Q3.
  - field. assumption.
  - field. assumption.
  - replace (4 * Jv * inv_fun I3 X) with (4 * Jv * (Jv * Jv)) by (rewrite EJ at 2 3; rewrite sqrt_sqrt by lra; ring). field. assumption.
Qed.

Lemma leaf_chain : forall nd i, well_formed i -> regular (cauchy_of (sym6 (fun k => y k X))) i -> (n <= nd)%nat ->
  chain sym3_storage dirs dir co co2 pos X n (inv_fun i) (leaf nd strain i).
Proof.
  intros nd i W Hr Hn. split; [|split; [|split]].
  - unfold sized. destruct i; cbn [leaf D DD]; unfold on1, on2; try destruct (1 <=? nd)%nat; try destruct (2 <=? nd)%nat; split; reflexivity.
  - unfold flags_sound. destruct i; cbn [leaf dif nt1 nt2 D DD]; (split; [|split]); try discriminate; try lia; intros _; try split; reflexivity.
  - rewrite inv_fun_val. apply leaf_val; [reflexivity|assumption].
  - intros m v w Hm.
    assert (O1 : (1 <= m)%nat -> forall d, on1 nd d = d) by (intros Hm' d; unfold on1; now rewrite (proj2 (Nat.leb_le 1 nd)) by lia).
    assert (O2 : (2 <= m)%nat -> forall d, on2 nd d = d) by (intros Hm' d; unfold on2; now rewrite (proj2 (Nat.leb_le 2 nd)) by lia).
    destruct i as [f s| | | | |f s|f s]; cbn [well_formed regular] in W, Hr; try (destruct W as (Wf & Ws)).
    + eapply DJ_eq; [apply (DJ_const m (invariant_of delta (I0fs f s)))|..];
        unfold gr, he; cbn [leaf D DD]; fin.
    + exact (dj_I1 m v w Hm).
    + eapply DJ_change; [exact (dj_I2 m v w Hm)|..]; unfold gr, he; cbn [leaf D DD]; intros Hm'; rewrite ?O1 by lia; [now split|reflexivity].
    + eapply DJ_change; [exact (dj_I3 m v w Hm)|..]; unfold gr, he; cbn [leaf D DD]; intros Hm'; rewrite ?O1 by lia; [now split|rewrite ?O2 by lia; reflexivity].
    + eapply DJ_change; [exact (dj_J m v w Hm Hr)|..]; unfold gr, he; cbn [leaf D DD]; intros Hm'; rewrite ?O1 by lia; [now split|rewrite ?O2 by lia; reflexivity].
    + eapply DJ_change; [exact (dj_I4 f s m v w Wf Ws Hm)|..]; unfold gr, he; cbn [leaf D DD]; intros Hm'; rewrite ?O1 by lia; [now split|reflexivity].
    + eapply DJ_change; [exact (dj_I5 f s m v w Wf Ws Hm)|..]; unfold gr, he; cbn [leaf D DD]; intros Hm'; rewrite ?O1 by lia; [now split|rewrite ?O2 by lia; reflexivity].
Qed.
End Leaf.
