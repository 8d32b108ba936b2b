From Coq Require Import Lra Lia.
From Verif Require Import Prelude RSum GeoModel DenseSpec QrSpec SvdModel SvdSpec SvdProofs SvdProofs2 SvdProofs3 SvdProofs4 AmModel AmSpec.
Local Open Scope R_scope.

Definition e3 (e : nat -> R) : list R := [e 0%nat; e 1%nat; e 2%nat].
Definition m9 (a : matrix) : list R := [a 0 0; a 1 0; a 2 0; a 0 1; a 1 1; a 2 1; a 0 2; a 1 2; a 2 2]%nat.
Lemma arr3 : forall e, arr 3 e = e3 e. Proof. reflexivity. Qed.
Lemma store3 : forall a : matrix, store 3 3 a = m9 a. Proof. reflexivity. Qed.
Lemma list3 : forall l : list R, length l = 3%nat -> exists e, l = e3 e.
Proof. intros l H. exists (fun i => nth i l 0). destruct l as [|a [|b [|c [|]]]]; try discriminate. reflexivity. Qed.
Lemma list9 : forall l : list R, length l = 9%nat -> exists a, l = m9 a.
Proof. intros l H. destruct (store_reify 3 l H) as [a E]. exists a. now rewrite E, store3. Qed.
Lemma m9_ext : forall a b : matrix, (forall i j, (i < 3)%nat -> (j < 3)%nat -> a i j = b i j) -> m9 a = m9 b.
Proof. intros a b H. unfold m9. rewrite !H by lia. reflexivity. Qed.
Lemma m9_inj : forall a b : matrix, m9 a = m9 b -> forall i j, (i < 3)%nat -> (j < 3)%nat -> a i j = b i j.
Proof. intros a b H i j Hi Hj. injection H as ? ? ? ? ? ? ? ? ?. destruct i as [|[|[|i]]], j as [|[|[|j]]]; try lia; assumption. Qed.
Lemma e3_ext : forall e f, (forall i, (i < 3)%nat -> e i = f i) -> e3 e = e3 f.
Proof. intros e f H. unfold e3. rewrite !H by lia. reflexivity. Qed.

Lemma each_ok : forall f e, each f (e3 e) = Some (e3 (fun i => f (e i))). Proof. reflexivity. Qed.
Definition symm (a : matrix) : matrix := fun i j => if (i =? j)%nat then a i j else 1 / 2 * (a i j + a j i).
Lemma symm_sym : forall a, symmetric 3 (symm a).
Proof. intros a i j _ _. unfold symm. rewrite (Nat.eqb_sym j i). destruct (Nat.eqb_spec i j) as [->|]; [reflexivity|lra]. Qed.
Lemma symm_id : forall a, symmetric 3 a -> forall i j, (i < 3)%nat -> (j < 3)%nat -> symm a i j = a i j.
Proof. intros a H i j Hi Hj. unfold symm. destruct (i =? j)%nat; [reflexivity|]. rewrite (H j i) by assumption. lra. Qed.
Lemma sym3_ok : forall a, sym3 (m9 a) = Some (m9 (symm a)).
Proof. intros a. unfold sym3, mean_pair, m9, symm. cbn -[Rplus Rmult Rdiv]. now rewrite (Rplus_comm (a 0 1) (a 1 0))%nat, (Rplus_comm (a 0 2) (a 2 0))%nat, (Rplus_comm (a 1 2) (a 2 1))%nat. Qed.
Lemma dense_scale_ok : forall a s, dense_scale (m9 a) s = Some (m9 (fun i j => a i j * s)). Proof. reflexivity. Qed.
Lemma dense_add_ok : forall a b, dense_add (m9 a) (m9 b) = Some (m9 (fun i j => a i j + b i j)).
Proof. intros. unfold dense_add, m9. cbn -[Rplus Rmult]. rewrite !Rmult_1_l. reflexivity. Qed.
Lemma eye9_ok : forall s, eye9 s = m9 (fun i j => s * identity i j).
Proof. intros s. unfold eye9, m9, identity. cbn -[Rmult]. now rewrite !Rmult_1_r, !Rmult_0_r. Qed.
Lemma zero9_ok : zero9 = m9 (fun _ _ => 0). Proof. reflexivity. Qed.
Lemma reconstruct_ok : forall e q, reconstruct (e3 e) (m9 q) = Some (m9 (factors 3 q e q)).
Proof. intros e q. unfold reconstruct, zero9, m9, e3, factors. cbn -[Rplus Rmult]. reflexivity. Qed.

(** an orthonormal basis *)
Definition basis (q : matrix) : Prop := orthonormal 3 q /\ orthonormal 3 (transposed q).
Lemma basis_id : basis identity.
Proof. split; intros i j Hi Hj; destruct i as [|[|[|i]]], j as [|[|[|j]]]; try lia; cbn; ring. Qed.
Lemma basis_rearr : forall e q e' q', rearranged 3 e q e' q' -> basis q -> basis q'.
Proof. intros e q e' q' H [H1 H2]. split; [eapply rearranged_orth|eapply rearranged_rows]; eassumption. Qed.
Lemma sort_asc_ok : forall e q, exists e' q', sort_asc (e3 e, m9 q) = Some (e3 e', m9 q') /\ rearranged 3 e q e' q' /\ ascending e'.
Proof.
  intros e q. destruct (sort_ok ltb) with (n := 3%nat) (e := e) (v := q) as (e' & q' & E & H & S).
  - intros x. unfold ltb. destruct (Rlt_dec x x); [lra|reflexivity].
  - intros x y z. unfold ltb. destruct (Rlt_dec x y), (Rlt_dec y z), (Rlt_dec x z); intros; try reflexivity; try discriminate; lra.
  - exists e', q'. split; [exact E|]. split; [exact H|].
    assert (G : forall i j, (i < j)%nat -> (j < 3)%nat -> e' i <= e' j). { intros i j Hi Hj. specialize (S i j Hi Hj). unfold ltb in S. destruct (Rlt_dec (e' j) (e' i)); [discriminate|lra]. }
    split; apply G; lia.
Qed.
Lemma rearr_all : forall (P : R -> Prop) e q e' q', rearranged 3 e q e' q' -> (forall i, (i < 3)%nat -> P (e i)) -> forall i, (i < 3)%nat -> P (e' i).
Proof. intros P e q e' q' (s & Hs & _ & He & _) H i Hi. rewrite He by assumption. apply H. auto. Qed.
Lemma rearr_factors : forall e q e' q', rearranged 3 e q e' q' -> forall i j, (i < 3)%nat -> (j < 3)%nat -> factors 3 q' e' q' i j = factors 3 q e q i j.
Proof.
  intros e q e' q' (s & Hs & Inj & He & Hq) i j Hi Hj. unfold factors. rewrite <- (Rsum_injection 3 s (fun c => q i c * e c * q j c) Hs Inj).
  apply Rsum_ext. intros c Hc. now rewrite !Hq, He by assumption.
Qed.

(** quadratic forms of sums of eigenvectors *)
Lemma basis_sq : forall q x, basis q -> sq x = Rsum 3 (fun k => inner 3 (column q k) x * inner 3 (column q k) x).
Proof. intros q x [_ H]. unfold sq. now apply parseval. Qed.
Lemma factors_form : forall e q x, form (factors 3 q e q) x = Rsum 3 (fun k => e k * (inner 3 (column q k) x * inner 3 (column q k) x)).
Proof. intros e q x. unfold form, factors, inner, mult, column. cbn [Rsum]. ring. Qed.
Lemma factors_sym : forall e q, symmetric 3 (factors 3 q e q).
Proof. intros e q i j _ _. unfold factors. apply Rsum_ext. intros; ring. Qed.
Lemma factors_between : forall lo hi e q, basis q -> (forall i, (i < 3)%nat -> lo <= e i <= hi) -> between lo hi (factors 3 q e q).
Proof.
  intros lo hi e q B H x. rewrite (basis_sq q x B), factors_form, <- !Rsum_scal. split; apply Rsum_le'; intros k Hk; destruct (H k Hk); apply Rmult_le_compat_r; try assumption; apply Rle_0_sqr.
Qed.
Lemma sq_pos : forall x, 0 <= sq x. Proof. intros x. unfold sq. apply Rsum_nonneg. intros. apply Rle_0_sqr. Qed.
Lemma between_aniso : forall lo hi r a, 0 <= lo -> hi <= r * lo -> 0 <= r -> between lo hi a -> anisotropy r a.
Proof.
  intros lo hi r a Hl Hr Hr0 H x y. destruct (H x) as [_ Hx], (H y) as [Hy _]. pose proof (sq_pos x). pose proof (sq_pos y).
  apply Rle_trans with (hi * sq x * sq y); [apply Rmult_le_compat_r; assumption|].
  apply Rle_trans with (r * lo * sq x * sq y); [apply Rmult_le_compat_r; [assumption|]; apply Rmult_le_compat_r; assumption|].
  replace (r * lo * sq x * sq y) with (r * sq x * (lo * sq y)) by ring. replace (r * form a y * sq x) with (r * sq x * form a y) by ring.
  apply Rmult_le_compat_l; [now apply Rmult_le_pos|assumption].
Qed.
Lemma factors_spectrum : forall e q, basis q -> spectrum (factors 3 q e q) e q.
Proof.
  intros e q [B1 B2]. split; [apply factors_sym|]. split; [exact B1|]. split; [exact B2|]. intros i k Hi Hk.
  transitivity (Rsum 3 (fun c => q i c * e c * Rsum 3 (fun j => q j c * q j k))).
  - unfold mult, factors, column. cbn [Rsum]. ring.
  - rewrite (Rsum_single 3 k); [rewrite (B1 k k Hk Hk), Nat.eqb_refl; ring|assumption|]. intros c Hc Hn. rewrite (B1 c k Hc Hk). destruct (Nat.eqb_spec c k); [contradiction|ring].
Qed.
