(** Energies as functions of the deformation gradient. *)
From Coq Require Import Reals Lra Lia Psatz FunctionalExtensionality.
From Verif Require Import Prelude RSum AdModel AdSpec AdProofs AdProofs2 AdProofs3 AdProofs6 AdProofs7 AdProofs8 TnModel TnSpec TnProofs3 MechModel MechSpec MechProofs MechProofs2 MechProofs3.
Open Scope R_scope.

Lemma DJ_coord : forall m t v w x, DJ m (fun Y => Y t) v w x (v t) (w t) 0.
Proof.
  assert (L : forall t v y, D1 (fun Y => Y t) v y (v t)).
  { intros t v y. unfold D1, line. eapply lim_eq; [apply lim_plus; [apply lim_const|apply lim_mult; [apply lim_id|apply lim_const]]|]. cbv beta. ring. }
  intros m t v w x. split; intros H; [split; apply L|]. exists 1, (fun _ => v t). split; [lra|]. split; [intros; apply L|apply lim_const].
Qed.

Lemma invariant_ext : forall C C' i, (forall a b, (a < 3)%nat -> (b < 3)%nat -> C a b = C' a b) -> invariant_of C i = invariant_of C' i.
Proof.
  intros C C' i E. destruct i; cbn [invariant_of]; unfold trace3, bilinear, mprod, det3, Rsum2; unfold Rsum; cbn [fold_right seq map]; rewrite ?E by lia; reflexivity.
Qed.
Lemma det3_ext : forall C C', (forall a b, (a < 3)%nat -> (b < 3)%nat -> C a b = C' a b) -> det3 C = det3 C'.
Proof. intros C C' E. unfold det3. now rewrite ?E by lia. Qed.
Lemma regular_ext : forall C C' i, (forall a b, (a < 3)%nat -> (b < 3)%nat -> C a b = C' a b) -> regular C i -> regular C' i.
Proof. intros C C' i E. destruct i; cbn [regular]; auto. now rewrite (det3_ext C C' E). Qed.
Lemma chain_same : forall st dirs dir c q pos x n f g a, chain st dirs dir c q pos x n f a -> (forall Y, f Y = g Y) -> chain st dirs dir c q pos x n g a.
Proof.
  intros st dirs dir c q pos x n f g a H E. now replace g with f by (apply functional_extensionality; exact E).
Qed.

(** the elements of the strain as functions of the deformation gradient *)
Definition ey (k : nat) (F : nat -> R) : R := let (i, j) := pair_of k in green (mat F) i j.
Definition dey (F v : nat -> R) (k : nat) : R := let (i, j) := pair_of k in
  Rsum 3 (fun r => mat v r i * mat F r j + mat F r i * mat v r j) / 2.
Definition ddey (v w : nat -> R) (k : nat) : R := let (i, j) := pair_of k in
  Rsum 3 (fun r => mat v r i * mat w r j + mat w r i * mat v r j) / 2.

Ltac dc := lazymatch goal with
  | |- DJ ?m (fun Y => @?f Y + @?g Y) _ _ _ _ _ _ => eapply (DJ_plus m f g); [dc|dc]
  | |- DJ ?m (fun Y => @?f Y * @?g Y) _ _ _ _ _ _ => eapply (DJ_mult m f g); [dc|dc]
  | |- DJ ?m (fun Y => - @?f Y) _ _ _ _ _ _ => eapply (DJ_opp m f); dc
  | |- _ => first [ apply DJ_coord | apply DJ_const ]
  end.
Lemma ey_DJ : forall m k v w F, (k < 6)%nat -> DJ m (ey k) v w F (dey F v k) (dey F w k) (ddey v w k).
Proof.
  intros m k v w F Hk. i6 k; (eapply DJ_eq; [cbv -[Rplus Rmult Ropp Rinv IZR INR DJ]; dc|..]; cbv -[Rplus Rmult Rminus Ropp Rinv IZR INR]; field).
Qed.

Lemma strain_of : forall grU, length grU = 9%nat -> strain (deformation grU) ey = grU_to_E grU.
Proof.
  intros grU ?. lists. cbv -[Rplus Rmult Rminus Ropp Rinv IZR INR]. repeat (apply f_equal2; [field|]). reflexivity.
Qed.
Lemma cauchy_green : forall F a b, (a < 3)%nat -> (b < 3)%nat -> cauchy_of (sym6 (fun k => ey k F)) a b = right_cauchy (mat F) a b.
Proof. intros F a b Ha Hb. i3 a; i3 b; cbv -[Rplus Rmult Rminus Ropp Rinv IZR INR]; field. Qed.
Lemma def_grad_mat : forall grU a b, (a < 3)%nat -> (b < 3)%nat -> def_grad grU a b = mat (deformation grU) a b.
Proof. intros grU a b Ha Hb. i3 a; i3 b; reflexivity. Qed.

Section Energy.
Variable grU : list R.
Hypothesis Hg : length grU = 9%nat.
Variable inv : nat -> invariant.
Variables n nd : nat.
Hypothesis Hn : (n <= nd)%nat.
Let F := deformation grU.
Hypothesis HW : forall i, well_formed (inv i).
Hypothesis HR : forall i, regular (right_cauchy (mat F)) (inv i).
Variable e : expr.
Let u i Y := invariant_of (right_cauchy (mat Y)) (inv i).
Let lf i := leaf nd (grU_to_E grU) (inv i).
Hypothesis HS : smooth u F e.
Hypothesis HA : admissible sym3_storage lf n e.
Let r := run sym3_storage lf e.

Lemma energy_chain : chain sym3_storage (nat -> R) (fun v => v) (co (nat -> R) (dey F)) (co2 (nat -> R) ddey) pos F n (denote u e) r.
Proof.
  apply chain_run; [exact pos_ok| |exact HS|exact HA]. intros i. unfold lf. rewrite <- strain_of by exact Hg.
  eapply chain_same; [apply (leaf_chain (nat -> R) (fun v => v) F n ey (dey F) ddey)|].
  - intros m v w k Hk _. now apply ey_DJ.
  - apply HW.
  - eapply regular_ext; [|apply HR]. intros a b Ha Hb. symmetry. now apply cauchy_green.
  - exact Hn.
  - intros Y. unfold inv_fun, u. apply invariant_ext. intros a b Ha Hb. now apply cauchy_green.
Qed.

Lemma stress_L : forall S v, length S = 6%nat -> L sym3_storage (nat -> R) (co (nat -> R) (dey F)) v (fun k => nth k S 0) =
  Rsum2 3 (fun i j => mt2 (S_to_P grU S) i j * mat v i j).
Proof.
  intros S v HL. transitivity (Rsum2 3 (fun i j => Rsum 3 (fun k => mat F i k * at2 S k j) * mat v i j)).
  - clear Hg. lists. unfold L. cbn [ng sym3_storage]. unfold F. generalize (deformation grU). intros X. cbv -[Rplus Rmult Rminus Ropp Rinv IZR INR]. field.
  - unfold Rsum2. apply Rsum_ext. intros i Hi. apply Rsum_ext. intros j Hj. rewrite S_to_P_ok by assumption. f_equal.
    apply Rsum_ext. intros k Hk. now rewrite def_grad_mat by assumption.
Qed.
Lemma stress_Q : forall S dS v w, length S = 6%nat -> length dS = 21%nat ->
  Q sym3_storage (nat -> R) (co (nat -> R) (dey F)) (co2 (nat -> R) ddey) v w (fun k => nth k S 0) (fun k l => nth (pos k l) dS 0) =
  Rsum4 3 (fun i j k l => at45 (dS_to_dP grU S dS) i j k l * mat v i j * mat w k l).
Proof.
  intros S dS v w HL HL'.
  transitivity (Rsum4 3 (fun i j k l => (delta i k * at2 S l j + Rsum 3 (fun n => Rsum 3 (fun m => mat F i n * mat F k m * at4 dS n j m l))) * mat v i j * mat w k l)).
  - clear Hg. lists. destruct (len21 _ HL') as (? & ? & ? & ? & ? & ? & ? & ? & ? & ? & ? & ? & ? & ? & ? & ? & ? & ? & ? & ? & ? & ->).
    unfold Q. cbn [ng sym3_storage]. unfold F. generalize (deformation grU). intros X. cbv -[Rplus Rmult Rminus Ropp Rinv IZR INR]. field.
  - unfold Rsum4, Rsum2. apply Rsum_ext. intros i Hi. apply Rsum_ext. intros j Hj. apply Rsum_ext. intros k Hk. apply Rsum_ext. intros l Hl.
    rewrite dS_to_dP_ok by assumption. do 3 f_equal.
    apply Rsum_ext. intros k' Hk'. apply Rsum_ext. intros l' Hl'. now rewrite !def_grad_mat by assumption.
Qed.
End Energy.
