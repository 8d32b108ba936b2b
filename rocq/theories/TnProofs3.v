(** The algebra of tensors of size 3. *)
From Coq Require Import Reals Lra Lia.
From Verif Require Import Prelude RSum AdModel TnModel TnSpec.
Open Scope R_scope.

Lemma len3 : forall l : list R, length l = 3%nat -> exists a b c, l = [a; b; c].
Proof. intros [|a [|b [|c [|]]]] H; try discriminate. eauto. Qed.
Lemma len6 : forall l : list R, length l = 6%nat -> exists a b c d e f, l = [a; b; c; d; e; f].
Proof. intros [|a [|b [|c [|d [|e [|f [|]]]]]]] H; try discriminate. do 6 eexists. reflexivity. Qed.
Lemma len9 : forall l : list R, length l = 9%nat -> exists a b c d e f g h i, l = [a; b; c; d; e; f; g; h; i].
Proof. intros [|a [|b [|c [|d [|e [|f [|g [|h [|i [|]]]]]]]]]] H; try discriminate. do 9 eexists. reflexivity. Qed.

Ltac lists := repeat match goal with
  | H : length ?l = 3%nat |- _ => is_var l; let H' := fresh in pose proof (len3 l H) as H'; clear H; destruct H' as (? & ? & ? & ->)
  | H : length ?l = 6%nat |- _ => is_var l; let H' := fresh in pose proof (len6 l H) as H'; clear H; destruct H' as (? & ? & ? & ? & ? & ? & ->)
  | H : length ?l = 9%nat |- _ => is_var l; let H' := fresh in pose proof (len9 l H) as H'; clear H; destruct H' as (? & ? & ? & ? & ? & ? & ? & ? & ? & ->)
  end.
Ltac i3 i := destruct i as [|[|[|i]]]; [| | |exfalso; lia].
Ltac ev := cbv -[Rplus Rmult Rminus Ropp Rinv IZR INR]; unfold Rdiv.

Lemma det_s_ok : forall a, length a = 6%nat -> det_s a = det3 (at2 a).
Proof. intros a ?. lists. ev. ring. Qed.
Lemma trace_s_ok : forall a, length a = 6%nat -> trace_s a = Rsum 3 (fun i => at2 a i i).
Proof. intros a ?. lists. ev. ring. Qed.
Lemma dot_s_ok : forall a b, length a = 6%nat -> length b = 6%nat -> dot_s a b = Rsum2 3 (fun i j => at2 a i j * at2 b i j).
Proof. intros a b ? ?. lists. ev. ring. Qed.
Lemma frob_s_ok : forall a, length a = 6%nat -> frob_s a = Rsum2 3 (fun i j => at2 a i j * at2 a i j).
Proof. intros a ?. lists. ev. ring. Qed.
Lemma form_s_ok : forall a, length a = 6%nat -> forall f s, length f = 3%nat -> length s = 3%nat -> form_s a f s = Rsum2 3 (fun i j => nth i f 0 * at2 a i j * nth j s 0).
Proof. intros a ?. intros. lists. ev. ring. Qed.
Lemma mul_s_ok : forall a, length a = 6%nat -> forall v i, length v = 3%nat -> (i < 3)%nat -> nth i (mul_s a v) 0 = Rsum 3 (fun j => at2 a i j * nth j v 0).
Proof. intros a ?. intros v i ? ?. lists. i3 i; ev; ring. Qed.
Lemma adj_s_left : forall a, length a = 6%nat -> is2 (mprod 3 (at2 (adj_s a)) (at2 a)) (fun i j => det3 (at2 a) * delta i j).
Proof. intros a ?. intros i j ? ?. lists. i3 i; i3 j; ev; ring. Qed.
Lemma adj_s_right : forall a, length a = 6%nat -> is2 (mprod 3 (at2 a) (at2 (adj_s a))) (fun i j => det3 (at2 a) * delta i j).
Proof. intros a ?. intros i j ? ?. lists. i3 i; i3 j; ev; ring. Qed.
Lemma inv_s_left : forall a, length a = 6%nat -> det3 (at2 a) <> 0 -> is2 (mprod 3 (at2 (inv_s a)) (at2 a)) delta.
Proof. intros a ?. intros HD i j ? ?. lists. revert HD. i3 i; i3 j; ev; intros HD; field; intros C; apply HD; rewrite <- C; ring. Qed.
Lemma inv_s_right : forall a, length a = 6%nat -> det3 (at2 a) <> 0 -> is2 (mprod 3 (at2 a) (at2 (inv_s a))) delta.
Proof. intros a ?. intros HD i j ? ?. lists. revert HD. i3 i; i3 j; ev; intros HD; field; intros C; apply HD; rewrite <- C; ring. Qed.
Lemma prod_s_low : forall a b, length a = 6%nat -> length b = 6%nat -> forall i j, (j <= i < 3)%nat -> at2 (prod_s a b) i j = mprod 3 (at2 a) (at2 b) i j.
Proof. intros a b ? ?. intros i j ?. lists. i3 i; i3 j; try lia; ev; ring. Qed.
Lemma add_s_ok : forall a b, length a = 6%nat -> length b = 6%nat -> is2 (at2 (vadd a b)) (fun i j => at2 a i j + at2 b i j).
Proof. intros a b ? ?. intros i j ? ?. lists. i3 i; i3 j; ev; ring. Qed.
Lemma sub_s_ok : forall a b, length a = 6%nat -> length b = 6%nat -> is2 (at2 (vsub a b)) (fun i j => at2 a i j - at2 b i j).
Proof. intros a b ? ?. intros i j ? ?. lists. i3 i; i3 j; ev; ring. Qed.
Lemma scale_s_ok : forall a, length a = 6%nat -> forall c, is2 (at2 (vscale c a)) (fun i j => c * at2 a i j).
Proof. intros a ?. intros c. intros i j ? ?. lists. i3 i; i3 j; ev; ring. Qed.
Lemma id_s_ok : forall v, is2 (at2 (id_s v)) (fun i j => v * delta i j).
Proof. intros v i j ? ?. i3 i; i3 j; ev; ring. Qed.
Lemma sym2_s_ok : forall f s, length f = 3%nat -> length s = 3%nat -> is2 (at2 (sym2_s f s)) (fun i j => nth i f 0 * nth j s 0 + nth j f 0 * nth i s 0).
Proof. intros f s ? ? i j ? ?. lists. i3 i; i3 j; ev; ring. Qed.
Lemma square_s_ok : forall s, length s = 3%nat -> is2 (at2 (square_s s)) (fun i j => nth i s 0 * nth j s 0).
Proof. intros s ? i j ? ?. lists. i3 i; i3 j; ev; ring. Qed.
Lemma sym_sort_swap : forall i j, sym_sort i j = sym_sort j i.
Proof. intros i j. unfold sym_sort. destruct (Nat.ltb_spec j i), (Nat.ltb_spec i j); try lia; try reflexivity. assert (i = j) by lia. now subst. Qed.
Lemma at2_sym : forall a i j, at2 a i j = at2 a j i.
Proof. intros a i j. unfold at2, sym3_cont. now rewrite sym_sort_swap. Qed.
(** a symmetric matrix of size 3 has six free elements *)
Lemma is2_low : forall a A, (forall i j, (i < 3)%nat -> (j < 3)%nat -> A i j = A j i) ->
  (forall i j, (j <= i < 3)%nat -> at2 a i j = A i j) -> is2 (at2 a) A.
Proof.
  intros a A HA H i j Hi Hj. destruct (Nat.le_ge_cases j i) as [C|C]; [apply H; lia|]. rewrite at2_sym, HA by assumption. apply H. lia.
Qed.

Lemma trans_m_ok : forall m, length m = 9%nat -> is2 (mt2 (trans_m m)) (fun i j => mt2 m j i).
Proof. intros m ?. intros i j ? ?. lists. i3 i; i3 j; ev; ring. Qed.
Lemma of_sym_m_ok : forall a, length a = 6%nat -> is2 (mt2 (of_sym_m a)) (at2 a).
Proof. intros a ?. intros i j ? ?. lists. i3 i; i3 j; ev; ring. Qed.
Lemma sym_m_ok : forall m, length m = 9%nat -> is2 (at2 (sym_m m)) (fun i j => (mt2 m i j + mt2 m j i) / 2).
Proof. intros m ?. intros i j ? ?. lists. i3 i; i3 j; ev; ring. Qed.
Lemma trace_m_ok : forall m, length m = 9%nat -> trace_m m = Rsum 3 (fun i => mt2 m i i).
Proof. intros m ?. lists. ev. ring. Qed.
Lemma det_m_ok : forall m, length m = 9%nat -> det_m m = det3 (mt2 m).
Proof. intros m ?. lists. ev. ring. Qed.
Lemma frob_m_ok : forall m, length m = 9%nat -> frob_m m = Rsum2 3 (fun i j => mt2 m i j * mt2 m i j).
Proof. intros m ?. lists. ev. ring. Qed.
Lemma dot_m_ok : forall m n, length m = 9%nat -> length n = 9%nat -> dot_m m n = Rsum2 3 (fun i j => mt2 m i j * mt2 n i j).
Proof. intros m n ? ?. lists. ev. ring. Qed.
Lemma form_m_ok : forall m, length m = 9%nat -> forall f s, length f = 3%nat -> length s = 3%nat -> form_m m f s = Rsum2 3 (fun i j => nth i f 0 * mt2 m i j * nth j s 0).
Proof. intros m ?. intros. lists. ev. ring. Qed.
Lemma mul_m_ok : forall m, length m = 9%nat -> forall v i, length v = 3%nat -> (i < 3)%nat -> nth i (mul_m m v) 0 = Rsum 3 (fun j => mt2 m i j * nth j v 0).
Proof. intros m ?. intros v i ? ?. lists. i3 i; ev; ring. Qed.
Lemma adj_m_left : forall m, length m = 9%nat -> is2 (mprod 3 (mt2 (adj_m m)) (mt2 m)) (fun i j => det3 (mt2 m) * delta i j).
Proof. intros m ?. intros i j ? ?. lists. i3 i; i3 j; ev; ring. Qed.
Lemma adj_m_right : forall m, length m = 9%nat -> is2 (mprod 3 (mt2 m) (mt2 (adj_m m))) (fun i j => det3 (mt2 m) * delta i j).
Proof. intros m ?. intros i j ? ?. lists. i3 i; i3 j; ev; ring. Qed.
Lemma inv_m_left : forall m, length m = 9%nat -> det3 (mt2 m) <> 0 -> is2 (mprod 3 (mt2 (inv_m m)) (mt2 m)) delta.
Proof. intros m ?. intros HD i j ? ?. lists. revert HD. i3 i; i3 j; ev; intros HD; field; intros C; apply HD; rewrite <- C; ring. Qed.
Lemma inv_m_right : forall m, length m = 9%nat -> det3 (mt2 m) <> 0 -> is2 (mprod 3 (mt2 m) (mt2 (inv_m m))) delta.
Proof. intros m ?. intros HD i j ? ?. lists. revert HD. i3 i; i3 j; ev; intros HD; field; intros C; apply HD; rewrite <- C; ring. Qed.
Lemma prod_m_ok : forall m n, length m = 9%nat -> length n = 9%nat -> is2 (mt2 (prod_m m n)) (mprod 3 (mt2 m) (mt2 n)).
Proof. intros m n ? ?. intros i j ? ?. lists. i3 i; i3 j; ev; ring. Qed.
Lemma prod_ms_ok : forall a m, length a = 6%nat -> length m = 9%nat -> is2 (mt2 (prod_ms m a)) (mprod 3 (mt2 m) (at2 a)).
Proof. intros a m ? ?. intros i j ? ?. lists. i3 i; i3 j; ev; ring. Qed.
Lemma add_ms_ok : forall a m, length a = 6%nat -> length m = 9%nat -> is2 (mt2 (add_ms m a)) (fun i j => mt2 m i j + at2 a i j).
Proof. intros a m ? ?. intros i j ? ?. lists. i3 i; i3 j; ev; ring. Qed.
Lemma add_m_ok : forall m n, length m = 9%nat -> length n = 9%nat -> is2 (mt2 (vadd m n)) (fun i j => mt2 m i j + mt2 n i j).
Proof. intros m n ? ?. intros i j ? ?. lists. i3 i; i3 j; ev; ring. Qed.
Lemma sub_m_ok : forall m n, length m = 9%nat -> length n = 9%nat -> is2 (mt2 (vsub m n)) (fun i j => mt2 m i j - mt2 n i j).
Proof. intros m n ? ?. intros i j ? ?. lists. i3 i; i3 j; ev; ring. Qed.
Lemma scale_m_ok : forall m, length m = 9%nat -> forall c, is2 (mt2 (vscale c m)) (fun i j => c * mt2 m i j).
Proof. intros m ?. intros c. intros i j ? ?. lists. i3 i; i3 j; ev; ring. Qed.
Lemma id_m_ok : forall v, is2 (mt2 (id_m v)) (fun i j => v * delta i j).
Proof. intros v i j ? ?. i3 i; i3 j; ev; ring. Qed.
Lemma sym2_m_ok : forall f s, length f = 3%nat -> length s = 3%nat -> is2 (mt2 (sym2_m f s)) (fun i j => nth i f 0 * nth j s 0 + nth j f 0 * nth i s 0).
Proof. intros f s ? ? i j ? ?. lists. i3 i; i3 j; ev; ring. Qed.
Lemma square_m_ok : forall s, length s = 3%nat -> is2 (mt2 (square_m s)) (fun i j => nth i s 0 * nth j s 0).
Proof. intros s ? i j ? ?. lists. i3 i; i3 j; ev; ring. Qed.

(** *** the fourth rank *)
Lemma bi3_swap1 : forall i j k l, (i < 3)%nat -> (j < 3)%nat -> (k < 3)%nat -> (l < 3)%nat -> bi3_cont i j k l = bi3_cont j i k l.
Proof. intros i j k l ? ? ? ?. i3 i; i3 j; i3 k; i3 l; reflexivity. Qed.
Lemma bi3_swap2 : forall i j k l, (i < 3)%nat -> (j < 3)%nat -> (k < 3)%nat -> (l < 3)%nat -> bi3_cont i j k l = bi3_cont k l i j.
Proof. intros i j k l ? ? ? ?. i3 i; i3 j; i3 k; i3 l; reflexivity. Qed.
Lemma bi3_lt : forall i j k l, (i < 3)%nat -> (j < 3)%nat -> (k < 3)%nat -> (l < 3)%nat -> (bi3_cont i j k l < 21)%nat.
Proof. intros i j k l ? ? ? ?. apply Nat.ltb_lt. i3 i; i3 j; i3 k; i3 l; reflexivity. Qed.
Lemma dot_b_ok : forall a b, dot_b a b = Rsum4 3 (fun i j k l => at4 a i j k l * at4 b i j k l).
Proof.
  intros a b. unfold dot_b, loop, at4.
  assert (G : forall g : nat -> R, fold_left (fun v i => v + g i * INR (nth i bi3_dup 0%nat)) (seq 0 21) 0 = Rsum4 3 (fun i j k l => g (bi3_cont i j k l))).
  { intros g. cbv -[Rplus Rmult IZR]. ring. }
  exact (G (fun c => nth c a 0 * nth c b 0)).
Qed.
Lemma frob_b_ok : forall a, frob_b a = Rsum4 3 (fun i j k l => at4 a i j k l * at4 a i j k l).
Proof. intros a. exact (dot_b_ok a a). Qed.
Lemma square_b_ok : forall s, is4 (at4 (square_b s)) (fun i j k l => at2 s i j * at2 s k l).
Proof. intros s i j k l ? ? ? ?. i3 i; i3 j; i3 k; i3 l; ev; ring. Qed.
Lemma sym2_b_ok : forall f s, is4 (at4 (sym2_b f s)) (fun i j k l => at2 f i j * at2 s k l + at2 s i j * at2 f k l).
Proof. intros f s i j k l ? ? ? ?. i3 i; i3 j; i3 k; i3 l; ev; ring. Qed.
Lemma id_b_ok : forall v, is4 (at4 (id_b v)) (fun i j k l => v * ((delta i k * delta j l + delta i l * delta j k) / 2)).
Proof. intros v i j k l ? ? ? ?. i3 i; i3 j; i3 k; i3 l; ev; field. Qed.
