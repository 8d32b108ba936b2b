(** What a rotation keeps: orthonormality, the similarity to the first matrix; what it reduces: the off-diagonal sum. *)
From Verif Require Import Prelude RSum DenseSpec QrSpec QrProofs SvdModel SvdSpec SvdProofs.
Local Open Scope R_scope.

Lemma Rsum_two : forall n p q f, (p < q)%nat -> (q < n)%nat -> Rsum n f = f p + f q + Rsum n (fun i => if ((i =? p) || (i =? q))%nat then 0 else f i).
Proof.
  intros n p q f Hp Hq. rewrite (Rsum_remove n p f) by lia. rewrite (Rsum_remove n q (fun i => if (i =? p)%nat then 0 else f i)) by assumption.
  destruct (Nat.eqb_spec q p); [lia|]. rewrite Rplus_assoc. f_equal. f_equal. apply Rsum_ext. intros i Hi. eqbs; reflexivity.
Qed.
Lemma rot_inner : forall n p q c s f g, (p < q)%nat -> (q < n)%nat -> c * c + s * s = 1 ->
  Rsum n (fun j => rotf p q c s f j * rotf p q c s g j) = Rsum n (fun j => f j * g j).
Proof.
  intros n p q c s f g Hp Hq P. rewrite (Rsum_two n p q _ Hp Hq), (Rsum_two n p q (fun j => f j * g j) Hp Hq). f_equal.
  - unfold rotf. rewrite !Nat.eqb_refl. destruct (Nat.eqb_spec q p); [lia|].
    replace ((c * f p - s * f q) * (c * g p - s * g q) + (s * f p + c * f q) * (s * g p + c * g q)) with ((c * c + s * s) * (f p * g p + f q * g q)) by ring. rewrite P. ring.
  - apply Rsum_ext. intros i Hi. unfold rotf. eqbs; reflexivity.
Qed.
Lemma rot_linear : forall n p q c s (v : matrix) (w : nat -> R) i, Rsum n (fun r => w r * rotf p q c s (v r) i) = rotf p q c s (fun j => Rsum n (fun r => w r * v r j)) i.
Proof.
  intros n p q c s v w i. unfold rotf. destruct (Nat.eqb_spec i p); [|destruct (Nat.eqb_spec i q); [|reflexivity]].
  - rewrite <- !Rsum_scal, <- Rsum_minus. apply Rsum_ext. intros; ring.
  - rewrite <- !Rsum_scal, <- Rsum_plus. apply Rsum_ext. intros; ring.
Qed.
Lemma rotf_ext : forall p q c s f g i, f p = g p -> f q = g q -> f i = g i -> rotf p q c s f i = rotf p q c s g i.
Proof. intros. unfold rotf. now rewrite H, H0, H1. Qed.

Lemma similar_rot : forall n a0 a v p q c s, (p < q)%nat -> (q < n)%nat -> c * c + s * s = 1 -> similar n a0 a v ->
  similar n a0 (rotm p q c s a) (rotc p q c s v).
Proof.
  intros n a0 a v p q c s Hp Hq P (Sy & O1 & O2 & B). assert (Hpn : (p < n)%nat) by lia. split; [now apply rotm_sym|]. split; [|split].
  - intros i j Hi Hj. unfold rotc. rewrite (rot_linear n p q c s v (fun r => rotf p q c s (v r) i) j).
    transitivity (rotf p q c s (fun j => rotf p q c s (fun i => if (i =? j)%nat then 1 else 0) i) j).
    { apply rotf_ext; rewrite (Rsum_ext n _ (fun r => v r _ * rotf p q c s (v r) i)) by (intros; apply Rmult_comm); rewrite (rot_linear n p q c s v _ i); apply rotf_ext;
        match goal with |- Rsum n (fun r => v r ?a * v r ?b) = _ => rewrite (O1 a b) by assumption; destruct (Nat.eqb_spec a b), (Nat.eqb_spec b a); (reflexivity || lia) end. }
    unfold rotf. eqbs; lra.
  - intros i j Hi Hj. unfold transposed, rotc. rewrite rot_inner by assumption. exact (O2 i j Hi Hj).
  - intros i j Hi Hj. unfold inner, mult, column, rotc, rotm.
    rewrite (Rsum_ext n _ (fun r => rotf p q c s (v r) i * rotf p q c s (fun j => Rsum n (fun t => a0 r t * v t j)) j)) by (intros r Hr; now rewrite rot_linear).
    rewrite (rot_linear n p q c s (fun r j => Rsum n (fun t => a0 r t * v t j)) (fun r => rotf p q c s (v r) i) j).
    apply rotf_ext; rewrite (Rsum_ext n _ (fun r => Rsum n (fun t => a0 r t * v t _) * rotf p q c s (v r) i)) by (intros; apply Rmult_comm);
      rewrite (rot_linear n p q c s v _ i); apply rotf_ext; match goal with |- Rsum n (fun r => _ * v r ?b) = a ?b ?d => rewrite <- (B b d) by assumption; apply Rsum_ext; intros; unfold column; apply Rmult_comm end.
Qed.

Definition frob (n : nat) (a : matrix) : R := Rsum n (fun i => Rsum n (fun j => a i j * a i j)).
Definition dsq (n : nat) (a : matrix) : R := Rsum n (fun i => a i i * a i i).
Lemma frob_off : forall n a, symmetric n a -> frob n a = dsq n a + 2 * off_diagonal n a.
Proof.
  intros n a Sy. unfold frob, dsq, off_diagonal.
  assert (E : Rsum n (fun i => Rsum n (fun j => if (j <? i)%nat then a i j * a i j else 0)) = Rsum n (fun i => Rsum n (fun j => if (i <? j)%nat then a i j * a i j else 0))).
  { rewrite Rsum_swap. apply Rsum_ext. intros i Hi. apply Rsum_ext. intros j Hj. rewrite (Sy i j) by assumption. reflexivity. }
  replace (2 * _) with (Rsum n (fun i => Rsum n (fun j => if (j <? i)%nat then a i j * a i j else 0)) + Rsum n (fun i => Rsum n (fun j => if (i <? j)%nat then a i j * a i j else 0))) by (rewrite E; ring).
  rewrite <- !Rsum_plus. apply Rsum_ext. intros i Hi. rewrite <- Rsum_plus. rewrite (Rsum_remove n i) by assumption. f_equal. apply Rsum_ext. intros j Hj.
  destruct (Nat.eqb_spec j i), (Nat.ltb_spec j i), (Nat.ltb_spec i j); try lia; ring.
Qed.
Lemma frob_rot : forall n p q c s a, (p < q)%nat -> (q < n)%nat -> c * c + s * s = 1 -> frob n (rotm p q c s a) = frob n a.
Proof.
  intros n p q c s a Hp Hq P. unfold frob, rotm.
  rewrite (Rsum_ext n _ (fun i => Rsum n (fun j => rotf p q c s (fun i => a i j) i * rotf p q c s (fun i => a i j) i))) by (intros i Hi; now rewrite rot_inner).
  rewrite Rsum_swap. rewrite (Rsum_swap n n (fun i j => a i j * a i j)). apply Rsum_ext. intros j Hj. now rewrite rot_inner.
Qed.
Lemma off_rot : forall n p q c s a, (p < q)%nat -> (q < n)%nat -> c * c + s * s = 1 -> symmetric n a -> rotm p q c s a p q = 0 ->
  off_diagonal n (rotm p q c s a) = off_diagonal n a - a p q * a p q.
Proof.
  intros n p q c s a Hp Hq P Sy Z. assert (F := frob_rot n p q c s a Hp Hq P). rewrite !frob_off in F by (try apply rotm_sym; assumption).
  assert (D : dsq n (rotm p q c s a) = dsq n a + 2 * (a p q * a p q)); [|lra].
  unfold dsq. rewrite (Rsum_two n p q _ Hp Hq), (Rsum_two n p q (fun i => a i i * a i i) Hp Hq).
  rewrite (Rsum_ext n (fun i => if ((i =? p) || (i =? q))%nat then 0 else rotm p q c s a i i * _) (fun i => if ((i =? p) || (i =? q))%nat then 0 else a i i * a i i)) by (intros i Hi; unfold rotm, rotf; eqbs; reflexivity).
  cut (rotm p q c s a p p * rotm p q c s a p p + rotm p q c s a q q * rotm p q c s a q q = a p p * a p p + a q q * a q q + 2 * (a p q * a p q)); [lra|].
  revert Z. unfold rotm, rotf. rewrite !Nat.eqb_refl. destruct (Nat.eqb_spec q p); [lia|]. rewrite (Sy q p) by lia. set (x := a p p). set (y := a q q). set (z := a p q). intros Z.
  set (P' := c * (c * x - s * z) - s * (c * z - s * y)). set (Q' := s * (s * x + c * z) + c * (s * z + c * y)).
  set (Z' := s * (c * x - s * z) + c * (c * z - s * y)) in Z.
  assert (I : P' * P' + Q' * Q' + 2 * (Z' * Z') = (c * c + s * s) * (c * c + s * s) * (x * x + y * y + 2 * (z * z))) by (unfold P', Q', Z'; ring).
  rewrite Z, P in I. lra.
Qed.
Lemma Rsum_nonneg : forall n f, (forall i, (i < n)%nat -> 0 <= f i) -> 0 <= Rsum n f.
Proof. induction n as [|n IH]; intros f H; cbn; [lra|]. assert (0 <= f n) by (apply H; lia). assert (0 <= Rsum n f) by (apply IH; intros; apply H; lia). lra. Qed.
Lemma Rsum_le' : forall n f g, (forall i, (i < n)%nat -> f i <= g i) -> Rsum n f <= Rsum n g.
Proof. induction n as [|n IH]; intros f g H; cbn; [lra|]. assert (f n <= g n) by (apply H; lia). assert (Rsum n f <= Rsum n g) by (apply IH; intros; apply H; lia). lra. Qed.

(** a row of the off-diagonal part is not larger than the whole *)
Lemma off_row : forall n a j, (j < n)%nat -> symmetric n a -> Rsum n (fun i => if (i =? j)%nat then 0 else a i j * a i j) <= off_diagonal n a.
Proof.
  intros n a j Hj Sy. unfold off_diagonal.
  (* the terms of row j with i > j and of column j with i < j *)
  apply Rle_trans with (Rsum n (fun i => if (i <? j)%nat then a i j * a i j else 0) + Rsum n (fun i => if (j <? i)%nat then a j i * a j i else 0)).
  { right. rewrite <- Rsum_plus. apply Rsum_ext. intros i Hi. destruct (Nat.eqb_spec i j), (Nat.ltb_spec i j), (Nat.ltb_spec j i); try lia; rewrite ?(Sy i j) by assumption; ring. }
  rewrite (Rsum_remove n j (fun i => Rsum n (fun k => if (i <? k)%nat then a i k * a i k else 0))) by assumption. rewrite Rplus_comm. apply Rplus_le_compat_l.
  apply Rsum_le'. intros i Hi. destruct (Nat.eqb_spec i j) as [->|Hne]; [rewrite Nat.ltb_irrefl; lra|].
  rewrite (Rsum_remove n j (fun k => if (i <? k)%nat then a i k * a i k else 0)) by assumption.
  assert (0 <= Rsum n (fun i0 => if (i0 =? j)%nat then 0 else if (i <? i0)%nat then a i i0 * a i i0 else 0)); [|lra].
  apply Rsum_nonneg. intros k Hk. destruct (k =? j)%nat; [lra|]. destruct (i <? k)%nat; [|lra]. fold (Rsqr (a i k)). apply Rle_0_sqr.
Qed.

(** the basis is complete *)
Lemma expand : forall n v x, orthonormal n (transposed v) -> forall i, (i < n)%nat -> x i = Rsum n (fun j => inner n (column v j) x * v i j).
Proof.
  intros n v x O i Hi. unfold inner, column.
  rewrite (Rsum_ext n _ (fun j => Rsum n (fun r => v r j * x r * v i j))) by (intros; now rewrite Rsum_scal_r).
  rewrite Rsum_swap. rewrite (Rsum_ext n _ (fun r => x r * (if (i =? r)%nat then 1 else 0))).
  2:{ intros r Hr. rewrite <- (O i r Hi Hr). rewrite <- Rsum_scal. apply Rsum_ext. intros. unfold transposed. ring. }
  rewrite (Rsum_single n i); [|assumption|intros k Hk Hne; destruct (Nat.eqb_spec i k); [lia|ring]]. rewrite Nat.eqb_refl. ring.
Qed.
Lemma parseval : forall n v x, orthonormal n (transposed v) -> Rsum n (fun i => x i * x i) = Rsum n (fun j => inner n (column v j) x * inner n (column v j) x).
Proof.
  intros n v x O. rewrite (Rsum_ext n _ (fun i => Rsum n (fun j => inner n (column v j) x * v i j * x i))) by (intros i Hi; rewrite (expand n v x O i Hi) at 1; now rewrite Rsum_scal_r).
  rewrite Rsum_swap. apply Rsum_ext. intros j Hj. rewrite (Rsum_ext n _ (fun i => inner n (column v j) x * (v i j * x i))) by (intros; ring). rewrite Rsum_scal. reflexivity.
Qed.
Lemma similar_residual : forall n a0 a v j, similar n a0 a v -> (j < n)%nat ->
  Rsum n (fun i => (mult n a0 (column v j) i - a j j * v i j) * (mult n a0 (column v j) i - a j j * v i j)) = Rsum n (fun i => if (i =? j)%nat then 0 else a i j * a i j).
Proof.
  intros n a0 a v j (Sy & O1 & O2 & B) Hj. rewrite (parseval n v _ O2). apply Rsum_ext. intros i Hi.
  assert (E : inner n (column v i) (fun r => mult n a0 (column v j) r - a j j * v r j) = a i j - a j j * (if (i =? j)%nat then 1 else 0)).
  { rewrite <- (B i j Hi Hj), <- (O1 i j Hi Hj), <- Rsum_scal. unfold inner, column. rewrite <- Rsum_minus. apply Rsum_ext. intros; ring. }
  rewrite E. destruct (Nat.eqb_spec i j) as [->|]; ring.
Qed.

(** ** the loops *)
Definition repJ (n : nat) (t : matrix * matrix) : list R * list R := (store n n (fst t), store n n (snd t)).
Lemma jac_off_ok : forall n a, jac_off n (store n n a) = Some (off_diagonal n a).
Proof.
  intros n a. unfold jac_off. rewrite (for_sum n (fun p => Rsum n (fun j => if (p <? j)%nat then a p j * a p j else 0))).
  - f_equal. unfold off_diagonal. lra.
  - intros p s Hp. rewrite (for_range_add (n - S p) (S p) (fun q => a p q * a p q)) by (intros q o Hq; rewrite mrd_store by lia; reflexivity). f_equal. f_equal.
    rewrite (DenseProofs3.Rsum_split n (S p)) by lia. rewrite (Rsum_zero (S p)) by (intros i Hi; destruct (Nat.ltb_spec p i); [lia|reflexivity]). rewrite Rplus_0_l. apply Rsum_ext. intros u Hu. destruct (Nat.ltb_spec p (S p + u)); [reflexivity|lia].
Qed.

(** one sweep: similarity is kept, the off-diagonal sum does not grow *)
Lemma jac_sweep_ok : forall tol n a0 a v, 0 <= tol -> similar n a0 a v ->
  exists a' v', jac_sweep tol n (store n n a, store n n v) = Some (store n n a', store n n v') /\ similar n a0 a' v' /\ off_diagonal n a' <= off_diagonal n a.
Proof.
  intros tol n a0 a v Ht H. unfold jac_sweep.
  destruct (for_rep0 (repJ n) (fun _ t => similar n a0 (fst t) (snd t) /\ off_diagonal n (fst t) <= off_diagonal n a) n
     (fun p AV => for_range (S p) (n - S p) (fun q AV => jac_rot tol n p q AV) AV) (a, v)) as ((a' & v') & E & H1 & H2).
  - cbn. split; [exact H|lra].
  - intros p t Hp H1. destruct (for_rep (repJ n) (fun _ t => similar n a0 (fst t) (snd t) /\ off_diagonal n (fst t) <= off_diagonal n a) (n - S p) (S p)
      (fun q AV => jac_rot tol n p q AV) t H1) as (t' & E & H2).
    + intros q [b w] Hq [H2 H3]. cbn [fst snd] in *. destruct (jac_rot_ok tol n p q b w) as [[L E]|(L & c & s & P & Z & E)]; try lia; [apply H2|exact Ht| |].
      * exists (b, w). cbn [fst snd]. auto.
      * exists (rotm p q c s b, rotc p q c s w). cbn [fst snd]. split; [exact E|]. split; [apply similar_rot; (assumption || lia)|].
        rewrite off_rot; (assumption || lia || (try apply H2)). assert (0 <= b p q * b p q) by (fold (Rsqr (b p q)); apply Rle_0_sqr). lra.
    + exists t'. auto.
  - exists a', v'. split; [exact E|]. auto.
Qed.
Lemma jac_loop_ok : forall tol n a0 sweeps a v, 0 <= tol -> similar n a0 a v ->
  exists ok a' v', jac_loop tol n sweeps (store n n a, store n n v) = Some (ok, (store n n a', store n n v')) /\ similar n a0 a' v' /\ off_diagonal n a' <= off_diagonal n a /\ (ok = true -> off_diagonal n a' <= tol * tol).
Proof.
  intros tol n a0 sweeps. induction sweeps as [|k IH]; intros a v Ht H; cbn [jac_loop].
  - exists false, a, v. split; [reflexivity|]. split; [exact H|]. split; [lra|discriminate].
  - cbn [fst]. rewrite jac_off_ok. cbn [obind]. destruct (Rle_dec (off_diagonal n a) (tol * tol)) as [L|L].
    + exists true, a, v. repeat split; try assumption; try apply H; try lra.
    + destruct (jac_sweep_ok tol n a0 a v Ht H) as (a1 & v1 & E1 & H1 & L1). rewrite E1. cbn [obind]. destruct (IH a1 v1 Ht H1) as (ok & a' & v' & E & H' & L' & T). exists ok, a', v'. split; [exact E|]. split; [exact H'|]. split; [lra|exact T].
Qed.
Lemma jac_init_ok : forall n V, length V = (n * n)%nat -> jac_init n V = Some (store n n identity).
Proof.
  intros n V HV. destruct (Nat.eq_dec n 0) as [->|Hn].
  { cbn. destruct V; [reflexivity|discriminate]. }
  rewrite (list_store 0 n n V) by (try assumption; lia). unfold jac_init.
  destruct (for_rep0 (store n n) (fun k w => forall i j, (i < n)%nat -> (j < k)%nat -> w i j = identity i j) n
    (fun j V => for_ n (fun i V => mwr V n i j (if (i =? j)%nat then 1 else 0)) V) (fun i j => nth (i + n * j) V 0)) as (w & E & Hw).
  - intros; lia.
  - intros j w Hj Hw. destruct (for_rep0 (store n n) (fun k w => forall i j', (i < n)%nat -> (j' < j \/ j' = j /\ i < k)%nat -> w i j' = identity i j') n (fun i V => mwr V n i j (if (i =? j)%nat then 1 else 0)) w) as (w' & E & Hw').
    + intros i j' Hi [Hj'|Hj']; [|lia]. now apply Hw.
    + intros i u Hi Hu. rewrite mwr_store by assumption. eexists. split; [reflexivity|]. intros i' j' Hi' Hj'. unfold upd2. destruct (Nat.eqb_spec i' i), (Nat.eqb_spec j' j); cbn [andb]; subst; try reflexivity; apply Hu; lia.
    + exists w'. split; [exact E|]. intros i j' Hi Hj'. apply Hw'; lia.
  - rewrite E. f_equal. apply store_ext. intros; now apply Hw.
Qed.
Lemma ident_sum : forall n f k, (k < n)%nat -> Rsum n (fun r => f r * identity r k) = f k.
Proof. intros n f k Hk. unfold identity. rewrite (Rsum_single n k); [rewrite Nat.eqb_refl; ring|assumption|]. intros i Hi Hne. destruct (Nat.eqb_spec i k); [lia|ring]. Qed.
Lemma similar_init : forall n a, symmetric n a -> similar n a a identity.
Proof.
  intros n a Sy. split; [exact Sy|]. split; [|split].
  - intros i j Hi Hj. rewrite ident_sum by assumption. unfold identity. destruct (Nat.eqb_spec j i), (Nat.eqb_spec i j); (reflexivity || lia).
  - intros i j Hi Hj. unfold transposed. rewrite (Rsum_ext n _ (fun r => identity i r * identity r j)) by (intros r Hr; f_equal; unfold identity; now rewrite Nat.eqb_sym). rewrite (ident_sum n (fun r => identity i r)) by assumption. reflexivity.
  - intros i j Hi Hj. unfold inner, mult, column. rewrite (Rsum_ext n _ (fun r => a r j * identity r i)) by (intros r Hr; rewrite (ident_sum n (fun t => a r t)) by assumption; apply Rmult_comm). rewrite (ident_sum n (fun r => a r j)) by assumption. reflexivity.
Qed.
Lemma jac_eval_ok : forall n a e, length e = n -> jac_eval n (store n n a) e = Some (arr n (fun i => a i i)).
Proof.
  intros n a e He. unfold jac_eval. rewrite (list_arr 0 e), He.
  destruct (for_rep0 (arr n) (fun k w => forall i, (i < k)%nat -> w i = a i i) n (fun i e => do x <- mrd (store n n a) n i i; wr e i x) (fun i => nth i e 0)) as (w & E & Hw).
  - intros; lia.
  - intros i w Hi Hw. rewrite mrd_store by assumption. cbn [obind]. rewrite wr_arr by assumption. eexists. split; [reflexivity|]. intros k Hk. unfold upd. destruct (Nat.eqb_spec k i) as [->|]; [reflexivity|]. apply Hw. lia.
  - rewrite E. f_equal. apply arr_ext. exact Hw.
Qed.
Lemma jac_tol_pos : forall eps n, 0 <= eps -> 0 <= jac_tol eps n.
Proof. intros eps n H. unfold jac_tol. assert (P := pos_INR n). repeat apply Rmult_le_pos; try assumption; lra. Qed.
Lemma store_reify : forall n (l : list R), length l = (n * n)%nat -> exists a, l = store n n a.
Proof.
  intros n l H. destruct (Nat.eq_dec n 0) as [->|Hn]; [exists (fun _ _ => 0); destruct l; [reflexivity|discriminate]|].
  exists (fun i j => nth (i + n * j) l 0). apply list_store; (assumption || lia).
Qed.

(** every run keeps the vectors orthonormal and the matrix similar; on success the off-diagonal part is small *)
Lemma jacobi_eigen_ok : forall eps sweeps n a e V, 0 <= eps -> symmetric n a -> length e = n -> length V = (n * n)%nat ->
  exists ok e' a' v, jacobi_eigen eps sweeps n (store n n a) e V = Some (ok, e', store n n v) /\ similar n a a' v /\ off_diagonal n a' <= off_diagonal n a /\ length e' = n /\ (ok = true -> off_diagonal n a' <= jac_tol eps n * jac_tol eps n /\ e' = arr n (fun i => a' i i)) /\ (ok = false -> e' = e).
Proof.
  intros eps sweeps n a e V He Sy Le LV. unfold jacobi_eigen. rewrite jac_init_ok by assumption. cbn [obind].
  destruct (jac_loop_ok (jac_tol eps n) n a sweeps a identity (jac_tol_pos eps n He) (similar_init n a Sy)) as (ok & a' & v & E & H1 & H2 & H3). rewrite E. cbn [obind].
  destruct ok.
  - rewrite jac_eval_ok by assumption. cbn [obind]. do 4 eexists. split; [reflexivity|]. split; [exact H1|]. split; [exact H2|]. split; [apply arr_length|]. split; [|discriminate]. intros _. split; [now apply H3|reflexivity].
  - do 4 eexists. split; [reflexivity|]. split; [exact H1|]. split; [exact H2|]. split; [exact Le|]. split; [discriminate|reflexivity].
Qed.
Lemma similar_eigen : forall n a a' v tol, 0 <= tol -> similar n a a' v -> off_diagonal n a' <= tol * tol -> eigen_pairs n a tol (fun i => a' i i) v.
Proof.
  intros n a a' v tol Ht H L. split; [apply H|]. intros j Hj. split; [now apply H|].
  unfold norm2. rewrite (similar_residual n a a' v j H Hj). rewrite <- (sqrt_square tol) by assumption. apply sqrt_le_1_alt. eapply Rle_trans; [apply off_row; [assumption|apply H]|exact L].
Qed.
