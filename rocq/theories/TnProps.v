(** C51: the tensors PhysMtx<N>, SymMtx<N>, Tensor4Rank<N>, SymTensor4Rank<N>,
    BiSymTensor4Rank<N> store every element once, and their operations are those
    of matrices and tensors. *)
From Coq Require Import Reals Lra Lia.
From Verif Require Import Prelude RSum AdModel AdProofs8 TnModel TnSpec TnProofs TnProofs2 TnProofs3.
Open Scope R_scope.

Lemma reads_sym : forall N m A, length m = tri_size N -> reads2 N (sym_rd N m) A -> forall i j, (i < N)%nat -> (j < N)%nat -> nth (sym_cont N i j) m 0 = A i j.
Proof. intros N m A L H i j Hi Hj. apply Some_inj'. rewrite <- rd_nth by (rewrite L; now apply sym_cont_lt). now apply H. Qed.
Lemma reads_mtx : forall N m A, length m = (N * N)%nat -> reads2 N (mtx_rd N m) A -> forall i j, (i < N)%nat -> (j < N)%nat -> nth (N * i + j) m 0 = A i j.
Proof. intros N m A L H i j Hi Hj. apply Some_inj'. rewrite <- rd_nth by (rewrite L; now apply cell_lt'). now apply H. Qed.
Lemma reads_sym_sym : forall N m A, reads2 N (sym_rd N m) A -> forall i j, (i < N)%nat -> (j < N)%nat -> A i j = A j i.
Proof. intros N m A H i j Hi Hj. apply Some_inj'. rewrite <- !H by assumption. unfold sym_rd. now rewrite sym_cont_swap. Qed.
Lemma mprod_ext : forall N A B A' B' i j, (i < N)%nat -> (j < N)%nat -> (forall i j, (i < N)%nat -> (j < N)%nat -> A i j = A' i j) ->
  (forall i j, (i < N)%nat -> (j < N)%nat -> B i j = B' i j) -> mprod N A B i j = mprod N A' B' i j.
Proof. intros. unfold mprod. apply Rsum_ext. intros k Hk. now rewrite H1, H2. Qed.

Lemma write_read : forall (m : list R) p q v same, (p < length m)%nat -> (q < length m)%nat -> (p = q <-> same) ->
  exists m', wr m p v = Some m' /\ length m' = length m /\ (same -> rd m' q = Some v) /\ (~ same -> rd m' q = rd m q).
Proof.
  intros m p q v same Hp Hq S. destruct (wr_one m p v Hp) as (m' & E & L & A & B). exists m'. repeat split; auto.
  - intros H. apply S in H. now subst.
  - intros H. apply B. intros ->. tauto.
Qed.

(** An element that is written is read back through every index that denotes the
    same element by symmetry, and no other element changes *)
Theorem C51_access : forall N v i j k l, (i < N)%nat -> (j < N)%nat -> (k < N)%nat -> (l < N)%nat ->
  (forall m, length m = tri_size N -> exists m', sym_wr N m i j v = Some m' /\ length m' = length m /\
     (same2 i j k l -> sym_rd N m' k l = Some v) /\ (~ same2 i j k l -> sym_rd N m' k l = sym_rd N m k l)) /\
  (forall m, length m = (N * N)%nat -> exists m', mtx_wr N m i j v = Some m' /\ length m' = length m /\
     (i = k /\ j = l -> mtx_rd N m' k l = Some v) /\ (~ (i = k /\ j = l) -> mtx_rd N m' k l = mtx_rd N m k l)) /\
  (forall m i' j' k' l', (i' < N)%nat -> (j' < N)%nat -> (k' < N)%nat -> (l' < N)%nat -> length m = (N * N * (N * N))%nat ->
     exists m', ten_wr N m i j k l v = Some m' /\ length m' = length m /\
     (i = i' /\ j = j' /\ k = k' /\ l = l' -> ten_rd N m' i' j' k' l' = Some v) /\
     (~ (i = i' /\ j = j' /\ k = k' /\ l = l') -> ten_rd N m' i' j' k' l' = ten_rd N m i' j' k' l')) /\
  (forall m i' j' k' l', (i' < N)%nat -> (j' < N)%nat -> (k' < N)%nat -> (l' < N)%nat -> length m = tri_size (N * N) ->
     exists m', t4_wr N m i j k l v = Some m' /\ length m' = length m /\
     (same4 i j k l i' j' k' l' -> t4_rd N m' i' j' k' l' = Some v) /\
     (~ same4 i j k l i' j' k' l' -> t4_rd N m' i' j' k' l' = t4_rd N m i' j' k' l')) /\
  (forall m i' j' k' l', (i' < N)%nat -> (j' < N)%nat -> (k' < N)%nat -> (l' < N)%nat -> length m = tri_size (tri_size N) ->
     exists m', bi_wr N m i j k l v = Some m' /\ length m' = length m /\
     (bisame4 i j k l i' j' k' l' -> bi_rd N m' i' j' k' l' = Some v) /\
     (~ bisame4 i j k l i' j' k' l' -> bi_rd N m' i' j' k' l' = bi_rd N m i' j' k' l')).
Proof.
  intros N v i j k l Hi Hj Hk Hl. split; [|split; [|split; [|split]]].
  - intros m L. apply write_read; try (rewrite L; now apply sym_cont_lt). now apply sym_cont_same.
  - intros m L. apply write_read; try (rewrite L; now apply cell_lt'). split; [now apply cell_eq'|intros (-> & ->); reflexivity].
  - intros m i' j' k' l' ? ? ? ? L. assert (B : forall i j k l, (i < N)%nat -> (j < N)%nat -> (k < N)%nat -> (l < N)%nat -> (l + N * (k + N * (j + N * i)) < N * N * (N * N))%nat).
    { intros i0 j0 k0 l0 ? ? ? ?. pose proof (cell_nat N i0 j0). pose proof (cell_nat N k0 l0).
      replace (l0 + N * (k0 + N * (j0 + N * i0)))%nat with (l0 + N * k0 + N * N * (j0 + N * i0))%nat by ring. nia. }
    apply write_read; try (rewrite L; now apply B). split; [|intros (-> & -> & -> & ->); reflexivity].
    intros E. apply cell_eq in E as (E & ->); [|assumption..]. apply cell_eq in E as (E & ->); [|assumption..]. apply cell_eq in E as (-> & ->); auto.
  - intros m i' j' k' l' ? ? ? ? L. apply write_read; try (rewrite L; now apply t4_cont_lt). now apply t4_cont_same.
  - intros m i' j' k' l' ? ? ? ? L. apply write_read; try (rewrite L; now apply bi_cont_lt). now apply bi_cont_same.
Qed.
Print Assumptions C51_access.

(** The specialisations for N = 3 store the elements in the places of the general
    classes, and their iterators and those of the general classes name the element
    they stand at *)
Theorem C51_iterator :
  (forall N c, (c < tri_size N)%nat -> exists i j, sym_index N c = Some (i, j) /\ (i <= j < N)%nat /\ sym_cont N i j = c) /\
  (forall N c, (c < tri_size (N * N))%nat -> exists i j k l, t4_index N c = Some (i, j, k, l) /\
     (i < N)%nat /\ (j < N)%nat /\ (k < N)%nat /\ (l < N)%nat /\ t4_cont N i j k l = c) /\
  (forall c, (c < 6)%nat -> exists i j, sym3_index c = Some (i, j) /\ (i <= j < 3)%nat /\ sym3_cont i j = c) /\
  (forall c, (c < 21)%nat -> exists i j k l, bi3_index c = Some (i, j, k, l) /\
     (i < 3)%nat /\ (j < 3)%nat /\ (k < 3)%nat /\ (l < 3)%nat /\ bi3_cont i j k l = c) /\
  (forall i j, (i < 3)%nat -> (j < 3)%nat -> sym3_cont i j = sym_cont 3 i j) /\
  (forall i j k l, (i < 3)%nat -> (j < 3)%nat -> (k < 3)%nat -> (l < 3)%nat -> bi3_cont i j k l = bi_cont 3 i j k l).
Proof.
  split; [exact sym_index_cont|]. split; [exact t4_index_cont|]. split; [|split; [|split]].
  - intros c Hc. do 6 (destruct c as [|c]; [do 2 eexists; split; [reflexivity|split; [lia|reflexivity]]|]). lia.
  - intros c Hc. do 21 (destruct c as [|c]; [do 4 eexists; split; [reflexivity|repeat (split; [lia|]); reflexivity]|]). lia.
  - intros i j Hi Hj. i3 i; i3 j; reflexivity.
  - intros i j k l Hi Hj Hk Hl. i3 i; i3 j; i3 k; i3 l; reflexivity.
Qed.
Print Assumptions C51_iterator.

(** Dot of two tensors, and with it SquareFrobNorm, is the sum over all the
    indices, for every size *)
Theorem C51_dot : forall N a b,
  (forall A B, length a = tri_size N -> length b = tri_size N -> reads2 N (sym_rd N a) A -> reads2 N (sym_rd N b) B ->
     sym_dot N a b = Some (Rsum2 N (fun i j => A i j * B i j))) /\
  (forall A B, length a = (N * N)%nat -> length b = (N * N)%nat -> reads2 N (mtx_rd N a) A -> reads2 N (mtx_rd N b) B ->
     mtx_dot N a b = Some (Rsum2 N (fun i j => A i j * B i j))) /\
  (forall A B, length a = tri_size (N * N) -> length b = tri_size (N * N) -> reads4 N (t4_rd N a) A -> reads4 N (t4_rd N b) B ->
     t4_dot N a b = Some (Rsum4 N (fun i j k l => A i j k l * B i j k l))) /\
  (forall A B, length a = tri_size (tri_size N) -> length b = tri_size (tri_size N) -> reads4 N (bi_rd N a) A -> reads4 N (bi_rd N b) B ->
     bi_dot N a b = Some (Rsum4 N (fun i j k l => A i j k l * B i j k l))).
Proof.
  intros N a b. split; [|split; [|split]]; intros A B La Lb HA HB.
  - rewrite sym_dot_ok by assumption. f_equal. apply Rsum2_ext. intros i j Hi Hj. now rewrite (reads_sym N a A), (reads_sym N b B).
  - rewrite mtx_dot_ok by assumption. f_equal. apply Rsum2_ext. intros i j Hi Hj. now rewrite (reads_mtx N a A), (reads_mtx N b B).
  - rewrite t4_dot_ok by assumption. f_equal. apply Rsum2_ext. intros i j Hi Hj. apply Rsum2_ext. intros k l Hk Hl.
    f_equal; apply Some_inj'; rewrite <- rd_nth by (rewrite ?La, ?Lb; now apply t4_cont_lt); [now apply HA|now apply HB].
  - rewrite bi_dot_ok by assumption. f_equal. apply Rsum2_ext. intros i j Hi Hj. apply Rsum2_ext. intros k l Hk Hl.
    f_equal; apply Some_inj'; rewrite <- rd_nth by (rewrite ?La, ?Lb; now apply bi_cont_lt); [now apply HA|now apply HB].
Qed.
Print Assumptions C51_dot.

(** The operations of PhysMtx<N> and SymMtx<N>, for every N.  [acc], [acc'] is the
    element access of either class *)
Theorem C51_matrix : forall N,
  (forall acc A, reads2 N acc A -> trace N acc = Some (Rsum N (fun i => A i i))) /\
  (forall acc A v, reads2 N acc A -> length v = N -> exists r, mul_vec N acc v = Some r /\ length r = N /\
     forall i, (i < N)%nat -> nth i r 0 = Rsum N (fun j => A i j * nth j v 0)) /\
  (forall acc acc' A B, reads2 N acc A -> reads2 N acc' B -> exists r, mtx_mul N acc acc' = Some r /\ length r = (N * N)%nat /\
     reads2 N (mtx_rd N r) (mprod N A B)) /\
  (forall m A f s, length m = (N * N)%nat -> reads2 N (mtx_rd N m) A -> length f = N -> length s = N ->
     mtx_form N m f s = Some (Rsum2 N (fun i j => nth i f 0 * A i j * nth j s 0))) /\
  (forall m A f s, length m = tri_size N -> reads2 N (sym_rd N m) A -> length f = N -> length s = N ->
     sym_form N m f s = Some (Rsum2 N (fun i j => nth i f 0 * A i j * nth j s 0))).
Proof.
  intros N. split; [|split; [|split; [|split]]].
  - intros acc A H. now apply trace_ok.
  - intros acc A v H L. eexists. split; [now apply (mul_vec_ok N acc A)|]. split; [apply arr_length|]. intros i Hi. now rewrite nth_arr'.
  - intros acc acc' A B H H'. now apply mtx_mul_ok.
  - intros m A f s L H Lf Ls. rewrite mtx_form_ok by assumption. f_equal. apply Rsum2_ext. intros i j Hi Hj. now rewrite (reads_mtx N m A).
  - intros m A f s L H Lf Ls. rewrite sym_form_ok by assumption. f_equal. apply Rsum2_ext. intros i j Hi Hj. now rewrite (reads_sym N m A).
Qed.
Print Assumptions C51_matrix.

(** Conversions and the matrices made of vectors, for every N *)
Theorem C51_conversion : forall N,
  (forall s A, length s = tri_size N -> reads2 N (sym_rd N s) A ->
     exists m, sym_to_mtx N s = Some m /\ length m = (N * N)%nat /\ reads2 N (mtx_rd N m) A) /\
  (forall s A, length s = (N * N)%nat -> reads2 N (mtx_rd N s) A ->
     exists m, transposed N s = Some m /\ length m = (N * N)%nat /\ reads2 N (mtx_rd N m) (fun i j => A j i)) /\
  (forall s A, length s = (N * N)%nat -> reads2 N (mtx_rd N s) A ->
     exists m, sym_part N s = Some m /\ length m = tri_size N /\ reads2 N (sym_rd N m) (fun i j => (A i j + A j i) / 2)) /\
  (forall s A, length s = (N * N)%nat -> reads2 N (mtx_rd N s) A -> (forall i j, A i j = A j i) ->
     exists m, mtx_to_sym N s = Some m /\ length m = tri_size N /\ reads2 N (sym_rd N m) A) /\
  (forall s, length s = tri_size N -> exists m, sym_of_lower N s = Some m /\ length m = tri_size N /\
     forall i j, (j <= i < N)%nat -> sym_rd N m i j = rd s (i * (i + 1) / 2 + j)) /\
  (forall v, length v = N -> exists m, sym_square N v = Some m /\ length m = tri_size N /\
     reads2 N (sym_rd N m) (fun i j => nth i v 0 * nth j v 0)) /\
  (forall f s, length f = N -> length s = N -> exists m, sym_sym2 N f s = Some m /\ length m = tri_size N /\
     reads2 N (sym_rd N m) (fun i j => nth i f 0 * nth j s 0 + nth j f 0 * nth i s 0)).
Proof.
  intros N. split; [|split; [|split; [|split; [|split; [|split]]]]].
  - intros s A L H. destruct (sym_to_mtx_ok N s L) as (m & E & L' & P). exists m. split; [assumption|]. split; [assumption|].
    intros i j Hi Hj. rewrite P by assumption. now apply H.
  - intros s A L H. destruct (transposed_ok N s L) as (m & E & L' & P). exists m. split; [assumption|]. split; [assumption|].
    intros i j Hi Hj. rewrite P by assumption. now apply H.
  - intros s A L H. apply sym_fill_ok; [|intros; unfold Rdiv; ring]. intros i j Hij. rewrite !H by lia. reflexivity.
  - intros s A L H S. apply sym_fill_ok; [|assumption]. intros i j Hij. apply H; lia.
  - intros s L. now apply sym_of_lower_ok.
  - intros v L. apply sym_fill_ok; [|intros; ring]. intros i j Hij. rewrite !rd_nth by lia. reflexivity.
  - intros f s Lf Ls. apply sym_fill_ok; [|intros; ring]. intros i j Hij. rewrite !rd_nth by lia. reflexivity.
Qed.
Print Assumptions C51_conversion.

(** The operations of SymMtx<3> *)
Theorem C51_symmetric3 : forall a b f s, length a = 6%nat -> length b = 6%nat -> length f = 3%nat -> length s = 3%nat ->
  (forall i j, at2 a i j = at2 a j i) /\
  det_s a = det3 (at2 a) /\ trace_s a = Rsum 3 (fun i => at2 a i i) /\
  dot_s a b = Rsum2 3 (fun i j => at2 a i j * at2 b i j) /\ frob_s a = Rsum2 3 (fun i j => at2 a i j * at2 a i j) /\
  form_s a f s = Rsum2 3 (fun i j => nth i f 0 * at2 a i j * nth j s 0) /\
  (forall i, (i < 3)%nat -> nth i (mul_s a f) 0 = Rsum 3 (fun j => at2 a i j * nth j f 0)) /\
  is2 (mprod 3 (at2 (adj_s a)) (at2 a)) (fun i j => det3 (at2 a) * delta i j) /\
  is2 (mprod 3 (at2 a) (at2 (adj_s a))) (fun i j => det3 (at2 a) * delta i j) /\
  (det3 (at2 a) <> 0 -> is2 (mprod 3 (at2 (inv_s a)) (at2 a)) delta /\ is2 (mprod 3 (at2 a) (at2 (inv_s a))) delta) /\
  is2 (at2 (sym2_s f s)) (fun i j => nth i f 0 * nth j s 0 + nth j f 0 * nth i s 0) /\
  is2 (at2 (square_s f)) (fun i j => nth i f 0 * nth j f 0) /\
  (forall v, is2 (at2 (id_s v)) (fun i j => v * delta i j)) /\
  is2 (at2 (vadd a b)) (fun i j => at2 a i j + at2 b i j) /\ is2 (at2 (vsub a b)) (fun i j => at2 a i j - at2 b i j) /\
  (forall v, is2 (at2 (vscale v a)) (fun i j => v * at2 a i j)).
Proof.
  intros a b f s La Lb Lf Ls.
  split; [intros; apply at2_sym|]. split; [now apply det_s_ok|]. split; [now apply trace_s_ok|]. split; [now apply dot_s_ok|].
  split; [now apply frob_s_ok|]. split; [now apply form_s_ok|]. split; [intros; now apply mul_s_ok|]. split; [now apply adj_s_left|].
  split; [now apply adj_s_right|]. split; [split; [now apply inv_s_left|now apply inv_s_right]|]. split; [now apply sym2_s_ok|].
  split; [now apply square_s_ok|]. split; [exact id_s_ok|]. split; [now apply add_s_ok|]. split; [now apply sub_s_ok|]. intros; now apply scale_s_ok.
Qed.
Print Assumptions C51_symmetric3.

(** The operations of PhysMtx<3>, alone and with SymMtx<3> *)
Theorem C51_matrix3 : forall m n a f s, length m = 9%nat -> length n = 9%nat -> length a = 6%nat -> length f = 3%nat -> length s = 3%nat ->
  det_m m = det3 (mt2 m) /\ trace_m m = Rsum 3 (fun i => mt2 m i i) /\
  dot_m m n = Rsum2 3 (fun i j => mt2 m i j * mt2 n i j) /\ frob_m m = Rsum2 3 (fun i j => mt2 m i j * mt2 m i j) /\
  form_m m f s = Rsum2 3 (fun i j => nth i f 0 * mt2 m i j * nth j s 0) /\
  (forall i, (i < 3)%nat -> nth i (mul_m m f) 0 = Rsum 3 (fun j => mt2 m i j * nth j f 0)) /\
  is2 (mprod 3 (mt2 (adj_m m)) (mt2 m)) (fun i j => det3 (mt2 m) * delta i j) /\
  is2 (mprod 3 (mt2 m) (mt2 (adj_m m))) (fun i j => det3 (mt2 m) * delta i j) /\
  (det3 (mt2 m) <> 0 -> is2 (mprod 3 (mt2 (inv_m m)) (mt2 m)) delta /\ is2 (mprod 3 (mt2 m) (mt2 (inv_m m))) delta) /\
  is2 (mt2 (prod_m m n)) (mprod 3 (mt2 m) (mt2 n)) /\ is2 (mt2 (prod_ms m a)) (mprod 3 (mt2 m) (at2 a)) /\
  is2 (mt2 (add_ms m a)) (fun i j => mt2 m i j + at2 a i j) /\
  is2 (mt2 (trans_m m)) (fun i j => mt2 m j i) /\ is2 (mt2 (of_sym_m a)) (at2 a) /\
  is2 (at2 (sym_m m)) (fun i j => (mt2 m i j + mt2 m j i) / 2) /\
  is2 (mt2 (sym2_m f s)) (fun i j => nth i f 0 * nth j s 0 + nth j f 0 * nth i s 0) /\
  is2 (mt2 (square_m f)) (fun i j => nth i f 0 * nth j f 0) /\
  (forall v, is2 (mt2 (id_m v)) (fun i j => v * delta i j)) /\
  is2 (mt2 (vadd m n)) (fun i j => mt2 m i j + mt2 n i j) /\ is2 (mt2 (vsub m n)) (fun i j => mt2 m i j - mt2 n i j) /\
  (forall v, is2 (mt2 (vscale v m)) (fun i j => v * mt2 m i j)).
Proof.
  intros m n a f s Lm Ln La Lf Ls.
  split; [now apply det_m_ok|]. split; [now apply trace_m_ok|]. split; [now apply dot_m_ok|]. split; [now apply frob_m_ok|].
  split; [now apply form_m_ok|]. split; [intros; now apply mul_m_ok|]. split; [now apply adj_m_left|]. split; [now apply adj_m_right|].
  split; [split; [now apply inv_m_left|now apply inv_m_right]|]. split; [now apply prod_m_ok|]. split; [now apply prod_ms_ok|].
  split; [now apply add_ms_ok|]. split; [now apply trans_m_ok|]. split; [now apply of_sym_m_ok|]. split; [now apply sym_m_ok|].
  split; [now apply sym2_m_ok|]. split; [now apply square_m_ok|]. split; [exact id_m_ok|]. split; [now apply add_m_ok|]. split; [now apply sub_m_ok|].
  intros; now apply scale_m_ok.
Qed.
Print Assumptions C51_matrix3.

(** The operations of BiSymTensor4Rank<3> *)
Theorem C51_tensor3 : forall a b f s,
  dot_b a b = Rsum4 3 (fun i j k l => at4 a i j k l * at4 b i j k l) /\
  frob_b a = Rsum4 3 (fun i j k l => at4 a i j k l * at4 a i j k l) /\
  is4 (at4 (square_b s)) (fun i j k l => at2 s i j * at2 s k l) /\
  is4 (at4 (sym2_b f s)) (fun i j k l => at2 f i j * at2 s k l + at2 s i j * at2 f k l) /\
  (forall v, is4 (at4 (id_b v)) (fun i j k l => v * ((delta i k * delta j l + delta i l * delta j k) / 2))).
Proof. intros. split; [apply dot_b_ok|]. split; [apply frob_b_ok|]. split; [apply square_b_ok|]. split; [apply sym2_b_ok|apply id_b_ok]. Qed.
Print Assumptions C51_tensor3.

(** The product of symmetric matrices is right when it is symmetric.  Missing: the
    product of matrices that do not commute, which is not symmetric and whose type
    is still SymMtx (refuted below) *)
Theorem C51_symmetric_product_partial :
  (forall N a b A B, length a = tri_size N -> length b = tri_size N -> reads2 N (sym_rd N a) A -> reads2 N (sym_rd N b) B ->
     exists m, sym_mul N a b = Some m /\ length m = tri_size N /\
       (forall i j, (i <= j < N)%nat -> sym_rd N m i j = Some (mprod N A B i j)) /\
       ((forall i j, (i < N)%nat -> (j < N)%nat -> mprod N A B i j = mprod N B A i j) -> reads2 N (sym_rd N m) (mprod N A B))) /\
  (forall a b, length a = 6%nat -> length b = 6%nat ->
     (forall i j, (j <= i < 3)%nat -> at2 (prod_s a b) i j = mprod 3 (at2 a) (at2 b) i j) /\
     (is2 (mprod 3 (at2 a) (at2 b)) (mprod 3 (at2 b) (at2 a)) -> is2 (at2 (prod_s a b)) (mprod 3 (at2 a) (at2 b)))).
Proof.
  assert (G : forall N A B i j, (forall i j, (i < N)%nat -> (j < N)%nat -> A i j = A j i) -> (forall i j, (i < N)%nat -> (j < N)%nat -> B i j = B j i) ->
    (i < N)%nat -> (j < N)%nat -> mprod N A B i j = mprod N B A j i).
  { intros N A B i j HA HB Hi Hj. unfold mprod. apply Rsum_ext. intros k Hk. rewrite (HA i k), (HB k j) by assumption. ring. }
  split.
  - intros N a b A B La Lb HA HB. destruct (sym_mul_ok N a b La Lb) as (m & E & L & P). exists m. split; [assumption|]. split; [assumption|].
    assert (Q : forall i j, (i <= j < N)%nat -> sym_rd N m i j = Some (mprod N A B i j)).
    { intros i j H. rewrite P by assumption. f_equal. apply mprod_ext; try lia; intros; [now apply reads_sym|now apply reads_sym]. }
    split; [assumption|]. intros C i j Hi Hj. destruct (Nat.le_ge_cases i j) as [O|O]; [apply Q; lia|].
    unfold sym_rd. rewrite sym_cont_swap. fold (sym_rd N m j i). rewrite Q by lia. f_equal. rewrite C by assumption. symmetry.
    rewrite C by assumption. rewrite <- C by assumption. apply (G N A B i j); auto; [apply (reads_sym_sym N a A HA)|apply (reads_sym_sym N b B HB)].
  - intros a b La Lb. split; [now apply prod_s_low|]. intros C. apply is2_low; [|now apply prod_s_low].
    intros i j Hi Hj. rewrite C by assumption. symmetry. apply G; auto; intros; apply at2_sym.
Qed.
Print Assumptions C51_symmetric_product_partial.

(** ... and otherwise depends on the size: of a product that is not symmetric
    SymMtx<3> keeps the part below the diagonal, SymMtx<N> the part above *)
Theorem C51_symmetric_product_refuted :
  let a := [1; 0; 0; 2; 0; 3] in let b := [0; 1; 0; 0; 0; 0] in
  mprod 3 (at2 a) (at2 b) 0 1 = 1 /\ mprod 3 (at2 a) (at2 b) 1 0 = 2 /\
  at2 (prod_s a b) 0 1 = 2 /\ at2 (prod_s a b) 1 0 = 2 /\
  exists m, sym_mul 3 a b = Some m /\ sym_rd 3 m 0 1 = Some 1 /\ sym_rd 3 m 1 0 = Some 1.
Proof.
  cbn zeta. split; [cbv -[Rplus Rmult IZR]; lra|]. split; [cbv -[Rplus Rmult IZR]; lra|]. split; [cbv -[Rplus Rmult IZR]; lra|].
  split; [cbv -[Rplus Rmult IZR]; lra|]. eexists. split; [reflexivity|]. split; cbv -[Rplus Rmult IZR]; f_equal; lra.
Qed.
Print Assumptions C51_symmetric_product_refuted.

(** Det of PhysMtx<2> is not the determinant: elimination is skipped when the
    quotient of two elements is below 100 eps max|a_ij|, whatever the scale *)
Theorem C51_det_scale_refuted : let M := 10 ^ 14 in
  mtx_det 2 [M; M; M; 0] = Some 0 /\
  det 2 (fun i j => nth (2 * i + j) [M; M; M; 0] 0) = - (M * M).
Proof.
  cbn zeta. set (M := 10 ^ 14). assert (HM : M = 100000000000000) by (unfold M; cbn [pow]; ring). split.
  - unfold mtx_det, det_gen.
    assert (E : 2 < det_eps [M; M; M; 0] < 3).
    { unfold det_eps, max_abs. cbn [fold_right]. rewrite !(Rabs_pos_eq M), Rabs_R0 by lra.
      replace (Rmax 0 0) with 0 by (symmetry; apply Rmax_left; lra). rewrite (Rmax_left M 0), !(Rmax_left M M) by lra. rewrite HM.
      replace (2 ^ 52) with 4503599627370496 by (cbn [pow]; ring). lra. }
    set (e := det_eps _) in *. clearbody e.
    assert (Q : M * / M = 1) by (apply Rinv_r; lra).
    cbv -[Rplus Rmult Rminus Ropp Rinv IZR Rlt_dec Rabs M].
    repeat (match goal with |- context [Rlt_dec ?x ?y] => destruct (Rlt_dec x y) as [?H|?H] end;
      rewrite ?Q, ?(Rabs_pos_eq M), ?(Rabs_pos_eq 1), ?Rabs_R0 in * by lra; try lra; try reflexivity).
  - cbn -[M]. ring.
Qed.
Print Assumptions C51_det_scale_refuted.

(** Det of SymMtx<4> is not the determinant: a row that is eliminated keeps its
    elements left of the diagonal, and pivots are taken from below the diagonal too *)
Theorem C51_det_symmetric_refuted :
  let m := [0; 1; 1; 0; 1; 0; 0; 1; 0; 1] in
  sym_det 4 m = Some (-1) /\ det 4 (fun i j => nth (sym_cont 4 i j) m 0) = -2.
Proof.
  cbn zeta. split.
  - unfold sym_det, det_gen.
    assert (E : 0 < det_eps [0; 1; 1; 0; 1; 0; 0; 1; 0; 1] < 1/100).
    { unfold det_eps, max_abs. cbn [fold_right]. rewrite !(Rabs_pos_eq 1), !Rabs_R0 by lra.
      rewrite (Rmax_left 1 0), (Rmax_right 0 1), (Rmax_left 1 1), !(Rmax_right 0 1), (Rmax_left 1 1), (Rmax_right 0 1), !(Rmax_left 1 1), !(Rmax_right 0 1) by lra.
      replace (2 ^ 52) with 4503599627370496 by (cbn [pow]; ring). lra. }
    set (e := det_eps _) in *. clearbody e.
    cbv -[Rplus Rmult Rminus Ropp Rinv IZR Rlt_dec Rabs].
    repeat (match goal with |- context [Rlt_dec ?x ?y] => destruct (Rlt_dec x y) as [?H|?H] end;
      rewrite ?Rinv_1, ?Rmult_0_l, ?Rmult_1_l, ?Rmult_1_r, ?Rmult_0_r, ?Rplus_0_l, ?Rminus_0_r in *;
      rewrite ?(Rabs_pos_eq 1), ?Rabs_R0 in * by lra; try lra; try reflexivity).
  - cbv -[Rplus Rmult IZR]. lra.
Qed.
Print Assumptions C51_det_symmetric_refuted.

(** The difference of two iterators of SymMtx<16> is not the number of steps
    between them: positions are narrowed to char *)
Theorem C51_iterator_difference_refuted : tri_size 16 = 136%nat /\ it_diff 136 0 = (-120)%Z.
Proof. split; reflexivity. Qed.
Print Assumptions C51_iterator_difference_refuted.

(** ** The hypotheses are met *)

Example C51_met : reads2 2 (sym_rd 2 [1; 2; 3]) (fun i j => INR (1 + i + j)) /\
  sym_dot 2 [1; 2; 3] [1; 2; 3] = Some 18 /\
  (exists r, mul_vec 2 (sym_rd 2 [1; 2; 3]) [1; 1] = Some r /\ nth 0 r 0 = 3 /\ nth 1 r 0 = 5).
Proof.
  assert (H : reads2 2 (sym_rd 2 [1; 2; 3]) (fun i j => INR (1 + i + j))).
  { intros i j Hi Hj. destruct i as [|[|]], j as [|[|]]; try lia; cbv -[Rplus IZR]; f_equal; lra. }
  split; [assumption|]. split.
  - destruct (C51_dot 2 [1; 2; 3] [1; 2; 3]) as (P & _). rewrite (P _ _ eq_refl eq_refl H H). f_equal. cbv -[Rplus Rmult IZR]. lra.
  - destruct (C51_matrix 2) as (_ & P & _). destruct (P _ _ [1; 1] H eq_refl) as (r & E & _ & Q). exists r. split; [assumption|].
    rewrite !Q by lia. split; cbv -[Rplus Rmult IZR]; lra.
Qed.
Example C51_inverse : det3 (at2 [2; 1; 0; 2; 1; 2]) <> 0 /\ is2 (mprod 3 (at2 (inv_s [2; 1; 0; 2; 1; 2])) (at2 [2; 1; 0; 2; 1; 2])) delta.
Proof.
  assert (H : det3 (at2 [2; 1; 0; 2; 1; 2]) <> 0) by (cbv -[Rplus Rminus Rmult IZR]; lra). split; [assumption|].
  destruct (C51_symmetric3 [2; 1; 0; 2; 1; 2] [0; 0; 0; 0; 0; 0] [0; 0; 0] [0; 0; 0]) as (_ & _ & _ & _ & _ & _ & _ & _ & _ & P & _); try reflexivity.
  now apply P.
Qed.
