(** The second set of vectors and its completion; the whole decomposition. *)
From Coq Require Import Permutation.
From Verif Require Import Prelude RSum DenseSpec QrSpec QrProofs SvdModel SvdSpec SvdProofs SvdProofs2 SvdProofs3.
Local Open Scope R_scope.

(** ** completion *)
Lemma ortho_col_ok : forall n j e q, (j < n)%nat -> (e < n)%nat -> exists q', ortho_col n j e (store n n q) = Some (store n n q') /\
  (forall i c, (i < n)%nat -> c <> j -> q' i c = q i c) /\
  ((forall c d, (c < j)%nat -> (d < j)%nat -> inner n (column q c) (column q d) = if (c =? d)%nat then 1 else 0) -> forall c, (c < j)%nat -> inner n (column q' c) (column q' j) = 0).
Proof.
  intros n j e q Hj He. unfold ortho_col.
  destruct (for_rep0 (store n n) (fun r w => forall i c, (i < n)%nat -> c <> j -> w i c = q i c) n (fun i Q => mwr Q n i j (if (i =? e)%nat then 1 else 0)) q) as (w & E & Hw).
  - reflexivity.
  - intros i w Hi Hw. rewrite mwr_store by assumption. eexists. split; [reflexivity|]. intros i' c Hi' Hc. unfold upd2. destruct (Nat.eqb_spec c j); [lia|]. rewrite Bool.andb_false_r. now apply Hw.
  - rewrite E. cbn [obind]. clear E. match goal with |- exists _, for_ j ?b _ = _ /\ _ => set (body := b) end.
    destruct (for_rep0 (store n n) (fun r w => (forall i c, (i < n)%nat -> c <> j -> w i c = q i c) /\
       ((forall c d, (c < j)%nat -> (d < j)%nat -> inner n (column q c) (column q d) = if (c =? d)%nat then 1 else 0) -> forall c, (c < r)%nat -> inner n (column q c) (column w j) = 0)) j body w) as (q' & E & H1 & H2).
    + split; [exact Hw|]. intros; lia.
    + intros c u Hc [H1 H2]. unfold body. rewrite (for_sum n (fun i => u i c * u i j)) by (intros i s Hi; rewrite !mrd_store by lia; reflexivity). cbn [obind]. rewrite Rplus_0_l. set (dot := Rsum n (fun i => u i c * u i j)).
      destruct (for_rep0 (store n n) (fun r x => forall i d, (i < n)%nat -> (d < n)%nat -> x i d = if ((d =? j) && (i <? r))%nat then u i j - dot * u i c else u i d) n
        (fun i Q => do x <- mrd Q n i j; do y <- mrd Q n i c; mwr Q n i j (x - dot * y)) u) as (x & E & Hx).
      * intros i d Hi Hd. rewrite Bool.andb_false_r. reflexivity.
      * intros i x Hi Hx. rewrite !mrd_store by lia. cbn [obind]. rewrite mwr_store by lia. eexists. split; [reflexivity|]. intros i' d Hi' Hd. unfold upd2.
        rewrite (Hx i' d), (Hx i j), (Hx i c) by lia. rewrite Nat.ltb_irrefl, !Bool.andb_false_r. destruct (Nat.eqb_spec d j) as [->|]; [|rewrite Bool.andb_false_r; reflexivity]. rewrite Bool.andb_true_r. cbn [andb].
        destruct (Nat.eqb_spec i' i) as [->|]; [destruct (Nat.ltb_spec i (S i)); [reflexivity|lia]|]. destruct (Nat.ltb_spec i' i), (Nat.ltb_spec i' (S i)); try lia; reflexivity.
      * set (x' := fun i d => if (d =? j)%nat then x i d else q i d). exists x'. split.
        { rewrite E. f_equal. apply store_ext. intros i d Hi Hd. unfold x'. rewrite Hx by assumption. destruct (Nat.eqb_spec d j); [reflexivity|]. cbn [andb]. now apply H1. }
        split.
        { intros i d Hi Hd. unfold x'. destruct (Nat.eqb_spec d j); [lia|reflexivity]. }
        intros O d Hd. unfold inner, column, x'. rewrite Nat.eqb_refl.
        rewrite (Rsum_ext n _ (fun i => q i d * u i j - dot * (q i d * q i c))).
        2:{ intros i Hi. rewrite Hx by assumption. rewrite Nat.eqb_refl. destruct (Nat.ltb_spec i n); [|lia]. cbn [andb]. rewrite (H1 i c) by lia. ring. }
        rewrite Rsum_minus, Rsum_scal. assert (Oc := O d c ltac:(lia) Hc). unfold inner, column in Oc. rewrite Oc.
        destruct (Nat.eqb_spec d c) as [->|].
        -- unfold dot. rewrite (Rsum_ext n (fun i => u i c * u i j) (fun i => q i c * u i j)) by (intros i Hi; rewrite (H1 i c) by lia; reflexivity). ring.
        -- assert (Z := H2 O d ltac:(lia)). unfold inner, column in Z. rewrite Z. ring.
    + exists q'. split; [exact E|]. split; [exact H1|]. intros O c Hc. rewrite <- (H2 O c Hc). unfold inner, column. apply Rsum_ext. intros i Hi. rewrite (H1 i c) by lia. reflexivity.
Qed.
Lemma col_norm_ok : forall n j q, (j < n)%nat -> col_norm n j (store n n q) = Some (norm2 n (column q j)).
Proof. intros n j q Hj. unfold col_norm. rewrite (for_sum n (fun i => q i j * q i j)) by (intros i s Hi; rewrite mrd_store by lia; reflexivity). cbn [obind]. rewrite Rplus_0_l. reflexivity. Qed.
Lemma norm2_sq : forall n x, norm2 n x * norm2 n x = inner n x x.
Proof. intros n x. unfold norm2. apply sqrt_sqrt. apply Rsum_nonneg. intros i Hi. fold (Rsqr (x i)). apply Rle_0_sqr. Qed.
Lemma norm2_pos : forall n x, 0 <= norm2 n x.
Proof. intros. apply sqrt_pos. Qed.
Definition orth_upto (n j : nat) (q : matrix) : Prop := forall c d, (c < j)%nat -> (d < j)%nat -> inner n (column q c) (column q d) = if (c =? d)%nat then 1 else 0.
Lemma complete_ok : forall eps n done q, 0 <= eps -> (done <= n)%nat -> exists q', complete_cols eps n done (store n n q) = Some (store n n q') /\
  (forall i c, (i < n)%nat -> (c < done)%nat -> q' i c = q i c) /\
  (orth_upto n done q -> orthonormal n q' \/ exists j, (done <= j < n)%nat /\ norm2 n (column q' j) <= eps).
Proof.
  intros eps n done q He Hd. unfold complete_cols. match goal with |- exists _, for_range _ _ ?b _ = _ /\ _ => set (body := b) end.
  destruct (for_rep (store n n) (fun r w => (forall i c, (i < n)%nat -> (c < done)%nat -> w i c = q i c) /\
     (orth_upto n done q -> orth_upto n r w \/ exists j, (done <= j < r)%nat /\ norm2 n (column w j) <= eps)) (n - done) done body q) as (q' & E & H1 & H2).
  - split; [reflexivity|]. auto.
  - intros j w Hj [H1 H2]. unfold body. destruct (ortho_col_ok n j ((j - done) mod n) w) as (w1 & E1 & A1 & B1); [lia|apply Nat.mod_upper_bound; lia|]. rewrite E1. cbn [obind]. rewrite col_norm_ok by lia. cbn [obind].
    assert (S : exists w2, (if Rle_dec (norm2 n (column w1 j)) eps then do Q <- ortho_col n j ((j + 1) mod n) (store n n w1); do norm <- col_norm n j Q; Some (Q, norm) else Some (store n n w1, norm2 n (column w1 j))) = Some (store n n w2, norm2 n (column w2 j)) /\
       (forall i c, (i < n)%nat -> c <> j -> w2 i c = w i c) /\ (orth_upto n j w -> forall c, (c < j)%nat -> inner n (column w2 c) (column w2 j) = 0)).
    { destruct (Rle_dec (norm2 n (column w1 j)) eps); [|exists w1; auto]. destruct (ortho_col_ok n j ((j + 1) mod n) w1) as (w2 & E2 & A2 & B2); [lia|apply Nat.mod_upper_bound; lia|]. rewrite E2. cbn [obind]. rewrite col_norm_ok by lia. cbn [obind]. exists w2. split; [reflexivity|]. split; [intros i c Hi Hc; rewrite A2, A1 by assumption; reflexivity|].
      intros O. apply B2. intros c d Hc Hd'. rewrite <- (O c d Hc Hd'). unfold inner, column. apply Rsum_ext. intros i Hi. rewrite !A1 by lia. reflexivity. }
    destruct S as (w2 & E2 & A2 & B2). rewrite E2. cbn [obind]. clear E1 E2 A1 B1 w1. set (nr := norm2 n (column w2 j)) in *.
    assert (Keep : forall w3, (forall i c, (i < n)%nat -> c <> j -> w3 i c = w2 i c) -> (forall i c, (i < n)%nat -> (c < done)%nat -> w3 i c = q i c) /\ ((exists k, (done <= k < j)%nat /\ norm2 n (column w k) <= eps) -> exists k, (done <= k < S j)%nat /\ norm2 n (column w3 k) <= eps)).
    { intros w3 H3. split; [intros i c Hi Hc; rewrite H3, A2, H1 by lia; reflexivity|]. intros (k & Hk & Lk). exists k. split; [lia|]. unfold norm2, column in *. rewrite (Rsum_ext n _ (fun i => w i k * w i k)); [exact Lk|]. intros i Hi. rewrite H3, A2 by lia. reflexivity. }
    destruct (Rlt_dec eps nr) as [L|L].
    + destruct (for_rep0 (store n n) (fun r x => forall i d, (i < n)%nat -> (d < n)%nat -> x i d = if ((d =? j) && (i <? r))%nat then w2 i j / nr else w2 i d) n (fun i Q => do x <- mrd Q n i j; mwr Q n i j (x / nr)) w2) as (x & E & Hx).
      * intros i d Hi Hd'. rewrite Bool.andb_false_r. reflexivity.
      * intros i x Hi Hx. rewrite mrd_store by lia. cbn [obind]. rewrite mwr_store by lia. eexists. split; [reflexivity|]. intros i' d Hi' Hd'. unfold upd2. rewrite (Hx i' d), (Hx i j) by lia. rewrite Nat.ltb_irrefl, Bool.andb_false_r.
        destruct (Nat.eqb_spec d j) as [->|]; [|rewrite Bool.andb_false_r; reflexivity]. rewrite Bool.andb_true_r. cbn [andb]. destruct (Nat.eqb_spec i' i) as [->|]; [destruct (Nat.ltb_spec i (S i)); [reflexivity|lia]|]. destruct (Nat.ltb_spec i' i), (Nat.ltb_spec i' (S i)); try lia; reflexivity.
      * set (x' := fun i d => if (d =? j)%nat then w2 i j / nr else w2 i d). exists x'. split.
        { rewrite E. f_equal. apply store_ext. intros i d Hi Hd'. unfold x'. rewrite Hx by assumption. destruct (Nat.ltb_spec i n); [|lia]. rewrite Bool.andb_true_r. reflexivity. }
        assert (A3 : forall i c, (i < n)%nat -> c <> j -> x' i c = w2 i c) by (intros i c Hi Hc; unfold x'; destruct (Nat.eqb_spec c j); [lia|reflexivity]).
        destruct (Keep x' A3) as [K1 K2]. split; [exact K1|]. intros O. destruct (H2 O) as [O1|X]; [left|right; now apply K2].
        assert (Zj : forall c, (c < j)%nat -> inner n (column x' c) (column x' j) = 0).
        { intros c Hc. unfold inner, column. rewrite (Rsum_ext n _ (fun i => / nr * (w2 i c * w2 i j))). 2:{ intros i Hi. rewrite A3 by lia. unfold x'. rewrite Nat.eqb_refl. unfold Rdiv. ring. }
          rewrite Rsum_scal. assert (Z := B2 O1 c Hc). unfold inner, column in Z. rewrite Z. ring. }
        intros c d Hc Hd'. destruct (Nat.eqb_spec c d) as [<-|Hne].
        -- destruct (Nat.eq_dec c j) as [->|].
           ++ unfold inner, column, x'. rewrite Nat.eqb_refl. rewrite (Rsum_ext n _ (fun i => / nr * / nr * (w2 i j * w2 i j))) by (intros; unfold Rdiv; ring). rewrite Rsum_scal. change (Rsum n (fun i => w2 i j * w2 i j)) with (inner n (column w2 j) (column w2 j)). rewrite <- norm2_sq. fold nr. field. lra.
           ++ assert (Oc := O1 c c ltac:(lia) ltac:(lia)). rewrite Nat.eqb_refl in Oc. rewrite <- Oc. unfold inner, column. apply Rsum_ext. intros i Hi. rewrite A3, A2 by lia. reflexivity.
        -- destruct (Nat.eq_dec c j) as [->|]; [|destruct (Nat.eq_dec d j) as [->|]].
           ++ rewrite <- (Zj d) by lia. unfold inner. apply Rsum_ext. intros; ring.
           ++ apply Zj. lia.
           ++ assert (Oc := O1 c d ltac:(lia) ltac:(lia)). destruct (Nat.eqb_spec c d); [lia|]. rewrite <- Oc. unfold inner, column. apply Rsum_ext. intros i Hi. rewrite !A3, !A2 by lia. reflexivity.
    + exists w2. split; [reflexivity|]. destruct (Keep w2 ltac:(reflexivity)) as [K1 K2]. split; [exact K1|]. intros O. right. destruct (H2 O) as [_|X]; [|now apply K2]. exists j. split; [lia|]. fold nr. lra.
  - exists q'. split; [exact E|]. split; [exact H1|]. intros O. replace (done + (n - done))%nat with n in H2 by lia. destruct (H2 O) as [O1|(j & Hj & L)]; [left; exact O1|right; eauto].
Qed.

(** ** the second set *)
Lemma store_reify2 : forall n c (l : list R), length l = (n * c)%nat -> exists a, l = store n c a.
Proof.
  intros n c l H. destruct (Nat.eq_dec n 0) as [->|Hn]; [exists (fun _ _ => 0); destruct l; [reflexivity|discriminate]|].
  exists (fun i j => nth (i + n * j) l 0). apply list_store; (assumption || lia).
Qed.
Lemma other_cols_ok : forall eps el l k v s U (b : matrix), (k <= l)%nat -> length U = (l * l)%nat -> (forall t i, (t < k)%nat -> (i < l)%nat -> el t i = Some (b i t)) ->
  exists u, other_cols eps el l k (store k k v) (arr k s) U = Some (store l l u) /\ forall i j, (i < l)%nat -> (j < k)%nat -> u i j = if Rlt_dec eps (s j) then mult k b (column v j) i / s j else 0.
Proof.
  intros eps el l k v s U b Hk HU Hel. destruct (store_reify l U HU) as (u0 & ->). unfold other_cols. set (G := fun i j => if Rlt_dec eps (s j) then mult k b (column v j) i / s j else 0).
  match goal with |- exists _, for_ _ ?b _ = _ /\ _ => set (body := b) end.
  destruct (for_rep0 (store l l) (fun r w => forall i j, (i < l)%nat -> (j < r)%nat -> w i j = G i j) k body u0) as (u & E & Hu).
  - intros; lia.
  - intros j w Hj Hw. unfold body. rewrite rd_arr by assumption. cbn [obind].
    assert (In : forall bd, (forall i Q, (i < l)%nat -> bd i Q = mwr Q l i j (G i j)) -> exists w', for_ l bd (store l l w) = Some (store l l w') /\ forall i j', (i < l)%nat -> (j' < S j)%nat -> w' i j' = G i j').
    { intros bd Hbd. destruct (for_rep0 (store l l) (fun r w => forall i j', (i < l)%nat -> (j' < j \/ j' = j /\ i < r)%nat -> w i j' = G i j') l bd w) as (w' & E & Hw').
      - intros i j' Hi [H|H]; [now apply Hw|lia].
      - intros i x Hi Hx. rewrite Hbd by assumption. rewrite mwr_store by lia. eexists. split; [reflexivity|]. intros i' j' Hi' Hj'. unfold upd2. destruct (Nat.eqb_spec i' i), (Nat.eqb_spec j' j); cbn [andb]; subst; try reflexivity; apply Hx; lia.
      - exists w'. split; [exact E|]. intros i j' Hi Hj'. apply Hw'; lia. }
    destruct (Rlt_dec eps (s j)) as [L|L].
    + apply In. intros i Q Hi. rewrite (for_sum k (fun t => b i t * v t j)) by (intros t x Ht; rewrite Hel, mrd_store by lia; reflexivity). cbn [obind]. rewrite Rplus_0_l. unfold G. destruct (Rlt_dec eps (s j)); [reflexivity|lra].
    + apply In. intros i Q Hi. unfold G. destruct (Rlt_dec eps (s j)); [lra|reflexivity].
  - exists u. split; [exact E|exact Hu].
Qed.
Lemma sing_vals_ok : forall k e S, length S = k -> sing_vals k (arr k e) S = Some (arr k (fun i => sqrt (Rmax 0 (e i)))).
Proof.
  intros k e S HS. unfold sing_vals. rewrite (list_arr 0 S), HS.
  destruct (for_rep0 (arr k) (fun r w => forall i, (i < r)%nat -> w i = sqrt (Rmax 0 (e i))) k (fun i S => do x <- rd (arr k e) i; wr S i (sqrt (Rmax 0 x))) (fun i => nth i S 0)) as (w & E & Hw).
  - intros; lia.
  - intros i w Hi Hw. rewrite rd_arr by assumption. cbn [obind]. rewrite wr_arr by assumption. eexists. split; [reflexivity|]. intros j Hj. unfold upd. destruct (Nat.eqb_spec j i) as [->|]; [reflexivity|]. apply Hw. lia.
  - rewrite E. f_equal. apply arr_ext. exact Hw.
Qed.
Lemma gram_form : forall l k (b v : matrix) i j, inner k (column v i) (mult k (fun p q => Rsum l (fun r => b r p * b r q)) (column v j)) = inner l (mult k b (column v i)) (mult k b (column v j)).
Proof.
  intros l k b v i j. unfold inner, mult, column.
  rewrite (Rsum_ext l _ (fun r => Rsum k (fun p => v p i * (b r p * Rsum k (fun t => b r t * v t j))))).
  2:{ intros r Hr. rewrite <- Rsum_scal_r. apply Rsum_ext. intros; ring. }
  rewrite Rsum_swap. apply Rsum_ext. intros p Hp. rewrite Rsum_scal. f_equal.
  rewrite (Rsum_ext l _ (fun r => Rsum k (fun t => b r p * b r t * v t j))) by (intros r Hr; rewrite <- Rsum_scal; apply Rsum_ext; intros; ring).
  rewrite Rsum_swap. apply Rsum_ext. intros t Ht. now rewrite Rsum_scal_r.
Qed.
Lemma off_entry : forall n a i j, (i < n)%nat -> (j < n)%nat -> i <> j -> symmetric n a -> a i j * a i j <= off_diagonal n a.
Proof.
  intros n a i j Hi Hj Hne Sy. eapply Rle_trans; [|apply (off_row n a j Hj Sy)]. rewrite (Rsum_remove n i) by assumption. destruct (Nat.eqb_spec i j); [lia|].
  assert (0 <= Rsum n (fun i0 => if (i0 =? i)%nat then 0 else if (i0 =? j)%nat then 0 else a i0 j * a i0 j)); [|lra]. apply Rsum_nonneg. intros r Hr. destruct (r =? i)%nat; [lra|]. destruct (r =? j)%nat; [lra|]. fold (Rsqr (a r j)). apply Rle_0_sqr.
Qed.

(** consequences: both the columns and the rows are orthonormal *)
Lemma Rsum_fold : forall n f, Rsum n f = fold_right Rplus 0 (map f (seq 0 n)).
Proof.
  induction n as [|n IH]; intros f; [reflexivity|]. rewrite seq_S, map_app, fold_right_app. cbn [map fold_right Rsum Nat.add]. rewrite IH.
  generalize (map f (seq 0 n)). induction l as [|x l IHl]; cbn; lra.
Qed.
Lemma fold_perm : forall l l' : list R, Permutation l l' -> fold_right Rplus 0 l = fold_right Rplus 0 l'.
Proof. intros l l' H. induction H; cbn; lra. Qed.
Lemma Rsum_injection : forall n s f, (forall i, (i < n)%nat -> (s i < n)%nat) -> (forall i j, (i < n)%nat -> (j < n)%nat -> s i = s j -> i = j) -> Rsum n (fun i => f (s i)) = Rsum n f.
Proof.
  intros n s f S1 S2. rewrite !Rsum_fold. rewrite <- (map_map s f). apply fold_perm, Permutation_map. apply NoDup_Permutation_bis.
  - assert (G : forall l, (forall x, In x l -> (x < n)%nat) -> NoDup l -> NoDup (map s l)).
    { induction l as [|x l IH]; intros Hl Hn; cbn; [constructor|]. inversion Hn; subst. constructor; [|apply IH; [intros; apply Hl; now right|assumption]].
      intros Hi. apply in_map_iff in Hi. destruct Hi as (y & Ey & Hy). apply S2 in Ey; [subst; contradiction| |]; apply Hl; cbn; auto. }
    apply G; [|apply seq_NoDup]. intros x Hx. apply in_seq in Hx. lia.
  - rewrite map_length, !seq_length. lia.
  - intros x Hx. apply in_map_iff in Hx. destruct Hx as (y & <- & Hy). apply in_seq in Hy. apply in_seq. assert (Q := S1 y ltac:(lia)). lia.
Qed.
Lemma rearranged_rows : forall n e v e' v', rearranged n e v e' v' -> orthonormal n (transposed v) -> orthonormal n (transposed v').
Proof.
  intros n e v e' v' (s & S1 & S2 & S3 & S4) O i j Hi Hj. unfold transposed in *. rewrite (Rsum_ext n _ (fun r => v i (s r) * v j (s r))) by (intros r Hr; now rewrite !S4).
  rewrite (Rsum_injection n s (fun r => v i r * v j r) S1 S2). exact (O i j Hi Hj).
Qed.
Definition osz (n : nat) (m : option (list R)) : Prop := match m with Some l => length l = (n * n)%nat | None => True end.
Definition filled (n : nat) (m : option (list R)) (u : matrix) : option (list R) := match m with Some _ => Some (store n n u) | None => None end.

Lemma svd_half_ok : forall eps sweeps k l el (b : matrix) buf e S, 0 <= eps -> (k <= l)%nat -> (forall t i, (t < k)%nat -> (i < l)%nat -> el t i = Some (b i t)) ->
  length buf = (k * k)%nat -> length e = k -> length S = k ->
  exists (ok : bool) s, forall small big, osz k small -> osz l big -> exists v u,
    svd_half eps sweeps k l el (store k k (fun p q => Rsum l (fun i => b i p * b i q))) small big buf e S = Some (ok, filled k small v, s, (if ok then filled l big u else big)) /\
    (ok = true -> exists sg, s = arr k sg /\ right_vectors l k b (jac_tol eps k) sg v /\ (big <> None -> left_vectors l k b eps sg u v /\ (forall j i, (j < k)%nat -> (i < l)%nat -> sg j <= eps -> u i j = 0) /\ completed l k eps u)).
Proof.
  intros eps sweeps k l el b buf e S He Hkl Hel Hb Hle HS. set (g := fun p q => Rsum l (fun i => b i p * b i q)).
  assert (Sy : symmetric k g) by (intros p q Hp Hq; apply Rsum_ext; intros; ring).
  destruct (jacobi_eigen_ok eps sweeps k g e buf He Sy Hle Hb) as (ok & e1 & a1 & v1 & E1 & H1 & _ & L1 & T1 & F1).
  assert (EV : forall small, osz k small -> jacobi_eigen eps sweeps k (store k k g) e (match small with Some v => v | None => buf end) = Some (ok, e1, store k k v1)).
  { intros [v|] Hs; [|exact E1]. rewrite <- E1. unfold jacobi_eigen. rewrite !jac_init_ok by assumption. reflexivity. }
  destruct ok.
  2:{ exists false, S. intros small big Hs Hbg. exists v1, v1. unfold svd_half. rewrite EV by assumption. cbn [obind negb]. split; [destruct small; reflexivity|discriminate]. }
  destruct (T1 eq_refl) as [Off ->]. destruct (sort_desc_ok k (fun i => a1 i i) v1) as (e2 & v2 & E2 & R2 & D2).
  set (sg := fun i => sqrt (Rmax 0 (e2 i))).
  assert (Diag : forall j, (j < k)%nat -> e2 j = inner l (mult k b (column v2 j)) (mult k b (column v2 j))).
  { intros j Hj. destruct (rearranged_inner k (fun i => a1 i i) v1 e2 v2 j j g R2 Hj Hj) as (i' & j' & _ & Hj' & _ & Eij & Ee & _ & _ & Ei). specialize (Eij eq_refl). subst i'. rewrite <- gram_form. fold g. rewrite Ei, Ee. symmetry. now apply H1. }
  assert (Nn : forall j, (j < k)%nat -> sg j = norm2 l (mult k b (column v2 j))).
  { intros j Hj. unfold sg. rewrite (Diag j Hj). rewrite Rmax_right by (rewrite <- norm2_sq; fold (Rsqr (norm2 l (mult k b (column v2 j)))); apply Rle_0_sqr). reflexivity. }
  assert (RV : right_vectors l k b (jac_tol eps k) sg v2).
  { split; [apply (rearranged_orth k (fun i => a1 i i) v1 e2 v2 R2); apply H1|]. split; [apply (rearranged_rows k (fun i => a1 i i) v1 e2 v2 R2); apply H1|]. split; [|split].
    - intros i j Hij Hj. unfold sg. apply sqrt_le_1_alt. apply Rle_max_compat_l. now apply D2.
    - intros j Hj. split; [apply sqrt_pos|]. symmetry. now apply Nn.
    - intros i j Hi Hj Hne. rewrite <- gram_form. fold g. destruct (rearranged_inner k (fun i => a1 i i) v1 e2 v2 i j g R2 Hi Hj) as (i' & j' & Hi' & Hj' & Nij & _ & _ & _ & _ & Ei). rewrite Ei.
      destruct H1 as (Sy1 & _ & _ & B1). rewrite B1 by assumption. assert (Q := off_entry k a1 i' j' Hi' Hj' (Nij Hne) Sy1).
      rewrite <- (Rabs_pos_eq (jac_tol eps k)) by (now apply jac_tol_pos). apply Rsqr_le_abs_0. unfold Rsqr. lra. }
  exists true, (arr k sg). intros small big Hs Hbg.
  assert (Small : match small with Some _ => Some (store k k v2) | None => None end = filled k small v2) by (destruct small; reflexivity).
  destruct big as [U|].
  - destruct (other_cols_ok eps el l k v2 sg U b Hkl Hbg Hel) as (u & EU & HU). destruct (complete_ok eps l k u He Hkl) as (u' & EC & HC & HD).
    exists v2, u'. unfold svd_half. rewrite EV by assumption. cbn [obind negb]. rewrite E2. cbn [obind]. rewrite sing_vals_ok by assumption. cbn [obind]. fold sg. rewrite EU. cbn [obind]. rewrite EC. cbn [obind filled].
    split; [rewrite <- Small; reflexivity|]. intros _. exists sg. split; [reflexivity|]. split; [exact RV|]. intros _. split; [|split; [intros j i Hj Hi L; rewrite HC, HU by assumption; destruct (Rlt_dec eps (sg j)); [lra|reflexivity]|]].
    2:{ intros O. apply HD. intros c d Hc Hd. rewrite <- (O c d Hc Hd). unfold inner, column. apply Rsum_ext. intros i Hi. rewrite !HC by assumption. reflexivity. }
     intros j Hj L. assert (E : forall i, (i < l)%nat -> u' i j = mult k b (column v2 j) i / sg j).
    { intros i Hi. rewrite HC, HU by assumption. destruct (Rlt_dec eps (sg j)); [reflexivity|lra]. }
    split.
    + unfold norm2, column. rewrite (Rsum_ext l _ (fun i => (/ sg j * / sg j) * (mult k b (column v2 j) i * mult k b (column v2 j) i))) by (intros i Hi; rewrite E by assumption; unfold Rdiv, column; ring). rewrite Rsum_scal.
      change (Rsum l (fun i => mult k b (column v2 j) i * mult k b (column v2 j) i)) with (inner l (mult k b (column v2 j)) (mult k b (column v2 j))). rewrite <- norm2_sq, <- Nn by assumption.
      replace (/ sg j * / sg j * (sg j * sg j)) with 1 by (field; lra). apply sqrt_1.
    + intros i Hi. rewrite E by assumption. field. lra.
  - exists v2, v2. unfold svd_half. rewrite EV by assumption. cbn [obind negb]. rewrite E2. cbn [obind]. rewrite sing_vals_ok by assumption. cbn [obind filled]. split; [rewrite <- Small; reflexivity|].
    intros _. exists sg. split; [reflexivity|]. split; [exact RV|]. intros C. contradiction.
Qed.


(** the product of the factors *)
Lemma factors_ok : forall l k b eps tol s u v, 0 <= eps -> right_vectors l k b tol s v -> left_vectors l k b eps s u v -> (forall j i, (j < k)%nat -> (i < l)%nat -> s j <= eps -> u i j = 0) ->
  forall i t, (i < l)%nat -> (t < k)%nat -> Rabs (b i t - factors k u s v i t) <= INR k * eps /\ ((forall j, (j < k)%nat -> eps < s j) -> b i t = factors k u s v i t).
Proof.
  intros l k b eps tol s u v He (O & O' & D & N & _) L Z i t Hi Ht.
  assert (X : b i t = Rsum k (fun j => mult k b (column v j) i * v t j)).
  { rewrite (expand k v (fun t => b i t) O' t Ht). apply Rsum_ext. intros j Hj. f_equal. unfold inner, mult, column. apply Rsum_ext. intros; ring. }
  assert (Dj : forall j, (j < k)%nat -> mult k b (column v j) i * v t j - u i j * s j * v t j = if Rlt_dec eps (s j) then 0 else mult k b (column v j) i * v t j).
  { intros j Hj. destruct (Rlt_dec eps (s j)) as [P|P]; [destruct (L j Hj P) as [_ E]; rewrite (E i Hi); ring|]. rewrite (Z j i Hj Hi) by lra. ring. }
  split.
  - rewrite X. unfold factors. rewrite <- Rsum_minus. rewrite (Rsum_ext k _ _ Dj).
    assert (G : forall n f, (forall j, (j < n)%nat -> Rabs (f j) <= eps) -> Rabs (Rsum n f) <= INR n * eps).
    { induction n as [|n IH]; intros f H; [cbn; rewrite Rabs_R0; lra|]. rewrite Rsum_S, S_INR. eapply Rle_trans; [apply Rabs_triang|]. specialize (IH f ltac:(intros; apply H; lia)). specialize (H n ltac:(lia)). lra. }
    apply G. intros j Hj. destruct (Rlt_dec eps (s j)) as [P|P]; [rewrite Rabs_R0; exact He|]. rewrite Rabs_mult.
    assert (B1 : Rabs (mult k b (column v j) i) <= eps).
    { apply Rle_trans with (s j); [|lra]. destruct (N j Hj) as [N0 N1]. rewrite <- (Rabs_pos_eq (s j)) by assumption. apply Rsqr_le_abs_0. unfold Rsqr. rewrite <- N1, norm2_sq. unfold inner.
      rewrite (Rsum_remove l i) by assumption. assert (0 <= Rsum l (fun r => if (r =? i)%nat then 0 else mult k b (column v j) r * mult k b (column v j) r)); [|lra]. apply Rsum_nonneg. intros r Hr. destruct (r =? i)%nat; [lra|]. fold (Rsqr (mult k b (column v j) r)). apply Rle_0_sqr. }
    assert (B2 : Rabs (v t j) <= 1).
    { rewrite <- Rabs_R1. apply Rsqr_le_abs_0. unfold Rsqr. assert (Oj := O j j Hj Hj). rewrite Nat.eqb_refl in Oj. replace (1 * 1) with 1 by ring. rewrite <- Oj. rewrite (Rsum_remove k t) by assumption.
      assert (0 <= Rsum k (fun r => if (r =? t)%nat then 0 else v r j * v r j)); [|lra]. apply Rsum_nonneg. intros r Hr. destruct (r =? t)%nat; [lra|]. fold (Rsqr (v r j)). apply Rle_0_sqr. }
    rewrite <- (Rmult_1_r eps). apply Rmult_le_compat; try apply Rabs_pos; assumption.
  - intros All. rewrite X. unfold factors. apply Rsum_ext. intros j Hj. assert (E := Dj j Hj). destruct (Rlt_dec eps (s j)) as [P|P]; [lra|]. exfalso. apply P. now apply All.
Qed.
