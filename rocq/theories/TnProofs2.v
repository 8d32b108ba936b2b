(** The loops over tensors of every size. *)
From Coq Require Import Reals Lra Lia.
From Verif Require Import Prelude RSum AdModel AdSpec AdProofs8 TnModel TnSpec TnProofs.
Open Scope R_scope.

Lemma zeros_arr : forall n, zeros n = arr n (fun _ => 0).
Proof.
  intros n. unfold zeros. rewrite (list_arr 0 (repeat 0 n)), repeat_length. apply arr_ext. intros i _. apply nth_repeat.
Qed.
Lemma nth_arr' : forall n (f : nat -> R) i, (i < n)%nat -> nth i (arr n f) 0 = f i.
Proof. intros n f i H. apply nth_error_nth. exact (rd_arr n f i H). Qed.

(** an accumulation into one cell *)
Lemma acc_cell : forall size p (g : nat -> R) n (body : nat -> list R -> option (list R)) f,
  (forall k f, (k < n)%nat -> body k (arr size f) = Some (arr size (upd f p (f p + g k)))) ->
  for_ n body (arr size f) = Some (arr size (upd f p (f p + Rsum n g))).
Proof.
  intros size p g n body f H.
  destruct (for_inv (fun k s => s = arr size (upd f p (f p + Rsum k g))) n body (arr size f)) as (s & E & ->).
  - apply arr_ext. intros i _. unfold upd. cbn [Rsum]. destruct (i =? p)%nat eqn:C; [apply Nat.eqb_eq in C; subst; ring|reflexivity].
  - intros k s Hk ->. rewrite H by assumption. eexists. split; [reflexivity|]. apply arr_ext. intros i _. unfold upd. rewrite Nat.eqb_refl.
    destruct (i =? p)%nat; [rewrite Rsum_S; ring|reflexivity].
  - assumption.
Qed.

Section Cells.
(** loops over i < N and j in [lo i, N) writing the value v i j into the cells p i j (and q i j) *)
Variables (N size : nat) (lo : nat -> nat).
Variable cells : nat -> nat -> list nat.
Variable v : nat -> nat -> R.
Hypothesis cell_inj : forall i j i' j' c, (i < N)%nat -> (lo i <= j < N)%nat -> (i' < N)%nat -> (lo i' <= j' < N)%nat ->
  In c (cells i j) -> In c (cells i' j') -> v i j = v i' j'.
Hypothesis lo_le : forall i, (i < N)%nat -> (lo i <= N)%nat.

Lemma fill_loop : forall body s0,
  length s0 = size ->
  (forall i j s, (i < N)%nat -> (lo i <= j < N)%nat -> length s = size ->
     exists s', body i j s = Some s' /\ length s' = size /\
       (forall c, In c (cells i j) -> nth_error s' c = Some (v i j)) /\ (forall c, ~ In c (cells i j) -> nth_error s' c = nth_error s c)) ->
  exists r, for_ N (fun i s => for_range (lo i) (N - lo i) (fun j s => body i j s) s) s0 = Some r /\ length r = size /\
    (forall i j c, (i < N)%nat -> (lo i <= j < N)%nat -> In c (cells i j) -> nth_error r c = Some (v i j)).
Proof.
  intros body s0 L0 H.
  destruct (for_inv (fun i s => length s = size /\
     forall i' j c, (i' < i)%nat -> (i' < N)%nat -> (lo i' <= j < N)%nat -> In c (cells i' j) -> nth_error s c = Some (v i' j))
     N (fun i s => for_range (lo i) (N - lo i) (fun j s => body i j s) s) s0) as (r & E & L & P).
  - split; [assumption|]. intros; lia.
  - intros i s Hi (L & P).
    destruct (for_range_inv (fun j s => length s = size /\
      forall i' j' c, ((i' < i)%nat \/ (i' = i /\ (j' < j)%nat)) -> (i' < N)%nat -> (lo i' <= j' < N)%nat -> In c (cells i' j') -> nth_error s c = Some (v i' j'))
      (N - lo i) (lo i) (fun j s => body i j s) s) as (r & E & L' & P').
    + split; [assumption|]. intros i' j' c [C|(-> & C)] Hi' Hj' Hc; [eauto|lia].
    + intros j t Hj (Lt & Pt). destruct (H i j t Hi ltac:(lia) Lt) as (t' & Et & Lt' & Q1 & Q2).
      exists t'. split; [assumption|]. split; [assumption|]. intros i' j' c C Hi' Hj' Hc.
      destruct (in_dec Nat.eq_dec c (cells i j)) as [I|I].
      * rewrite (Q1 c I). f_equal. apply (cell_inj i j i' j' c); auto. lia.
      * rewrite Q2 by assumption. apply (Pt i' j' c); auto. destruct C as [C|(-> & C)]; [auto|]. right. split; [reflexivity|].
        assert (j' <> j) by (intros ->; auto). lia.
    + exists r. split; [assumption|]. split; [assumption|]. intros i' j' c C Hi' Hj' Hc. apply (P' i' j' c); auto.
      destruct (Nat.eq_dec i' i); [right; subst; split; [reflexivity|]; pose proof (lo_le i Hi); lia|left; lia].
  - exists r. split; [assumption|]. split; [assumption|]. intros i j c Hi Hj Hc. apply (P i j c); auto.
Qed.
End Cells.

Lemma wr_one : forall (m : list R) p v, (p < length m)%nat -> exists m', wr m p v = Some m' /\ length m' = length m /\
  nth_error m' p = Some v /\ (forall c, c <> p -> nth_error m' c = nth_error m c).
Proof.
  intros m p v H. destruct (wr_some m p v H) as (m' & E & L & P). exists m'. repeat split; auto.
  - specialize (P p). unfold rd in P. now rewrite Nat.eqb_refl in P.
  - intros c Hc. specialize (P c). unfold rd in P. rewrite P. destruct (c =? p)%nat eqn:C; [apply Nat.eqb_eq in C; lia|reflexivity].
Qed.

Lemma cell_lt' : forall N i j, (i < N)%nat -> (j < N)%nat -> (N * i + j < N * N)%nat.
Proof. intros. nia. Qed.
Lemma cell_eq' : forall N i j k l, (j < N)%nat -> (l < N)%nat -> (N * i + j = N * k + l)%nat -> i = k /\ j = l.
Proof. intros N i j k l Hj Hl E. assert (i = k) by nia. subst. lia. Qed.

(** *** PhysMtx(SymMtx), PhysMtx(src, false) *)
Lemma sym_to_mtx_ok : forall N s, length s = tri_size N ->
  exists m, sym_to_mtx N s = Some m /\ length m = (N * N)%nat /\
    forall i j, (i < N)%nat -> (j < N)%nat -> mtx_rd N m i j = sym_rd N s i j.
Proof.
  intros N s Ls. set (v := fun i j => nth (sym_cont N i j) s 0).
  destruct (fill_loop N (N * N) (fun i => i) (fun i j => [N * i + j; N * j + i]%nat) v) with
    (body := fun i j m => do v <- sym_rd N s i j; do m <- wr m (N * j + i) v; wr m (N * i + j) v) (s0 := zeros (N * N))
    as (m & E & L & P).
  - intros i j i' j' c Hi Hj Hi' Hj' H H'. unfold v.
    assert (same2 i j i' j') as S2; [|apply (sym_cont_same N) in S2; try lia; now rewrite S2].
    unfold same2. cbn in H, H'. destruct H as [H|[H|[]]], H' as [H'|[H'|[]]]; subst c; apply cell_eq' in H'; lia.
  - lia.
  - unfold zeros. apply repeat_length.
  - intros i j t Hi Hj Lt. unfold sym_rd. rewrite rd_nth by (rewrite Ls; apply sym_cont_lt; lia). cbn [obind]. fold (v i j).
    destruct (wr_one t (N * j + i) (v i j)) as (t1 & -> & L1 & A1 & B1); [rewrite Lt; apply cell_lt'; lia|]. cbn [obind].
    destruct (wr_one t1 (N * i + j) (v i j)) as (t2 & -> & L2 & A2 & B2); [rewrite L1, Lt; apply cell_lt'; lia|].
    exists t2. split; [reflexivity|]. split; [lia|]. split.
    + intros c [<-|[<-|[]]]; [assumption|]. destruct (Nat.eq_dec (N * j + i) (N * i + j)) as [->|C]; [assumption|now rewrite B2].
    + intros c Hc. cbn in Hc. rewrite B2, B1 by (intros ->; tauto). reflexivity.
  - exists m. split; [exact E|]. split; [assumption|]. intros i j Hi Hj. unfold mtx_rd, sym_rd.
    rewrite (rd_nth s) by (rewrite Ls; apply sym_cont_lt; lia).
    unfold rd. destruct (Nat.le_ge_cases i j) as [C|C].
    + rewrite (P i j (N * i + j)%nat); cbn; auto.
    + rewrite (P j i (N * i + j)%nat); cbn; auto. unfold v. now rewrite sym_cont_swap.
Qed.

Lemma transposed_ok : forall N s, length s = (N * N)%nat ->
  exists m, transposed N s = Some m /\ length m = (N * N)%nat /\
    forall i j, (i < N)%nat -> (j < N)%nat -> mtx_rd N m i j = mtx_rd N s j i.
Proof.
  intros N s Ls. set (v := fun i j => nth (i + N * j) s 0).
  destruct (fill_loop N (N * N) (fun _ => 0%nat) (fun i j => [N * i + j]%nat) v) with
    (body := fun i j m => do v <- rd s (i + N * j); wr m (N * i + j) v) (s0 := zeros (N * N))
    as (m & E & L & P).
  - intros i j i' j' c Hi Hj Hi' Hj' [<-|[]] [H|[]]. apply cell_eq' in H as (-> & ->); lia || reflexivity.
  - lia.
  - unfold zeros. apply repeat_length.
  - intros i j t Hi Hj Lt. rewrite rd_nth by (rewrite Ls; nia). cbn [obind]. fold (v i j).
    destruct (wr_one t (N * i + j) (v i j)) as (t2 & -> & L2 & A2 & B2); [rewrite Lt; apply cell_lt'; lia|].
    exists t2. split; [reflexivity|]. split; [lia|]. split; [intros c [<-|[]]; assumption|intros c Hc; apply B2; intros ->; apply Hc; now left].
  - exists m. split; [|split; [assumption|]].
    + rewrite <- E. unfold transposed. unfold for_. rewrite Nat.sub_0_r. reflexivity.
    + intros i j Hi Hj. unfold mtx_rd. rewrite (rd_nth s) by (rewrite Ls; nia). unfold rd. rewrite (P i j (N * i + j)%nat) by (cbn; auto; lia).
      unfold v. do 2 f_equal. lia.
Qed.

(** SymMtx from the rows of the lower triangle *)
Lemma sym_of_lower_ok : forall N src, length src = tri_size N ->
  exists m, sym_of_lower N src = Some m /\ length m = tri_size N /\
    forall i j, (j <= i < N)%nat -> sym_rd N m i j = rd src (i * (i + 1) / 2 + j).
Proof.
  intros N src Ls.
  assert (T : forall i, (i * (i + 1) / 2 = list_sum (seq 0 (i + 1)))%nat).
  { intros i. induction i as [|i IH]; [reflexivity|]. replace (S i + 1)%nat with (S (i + 1)) by lia. rewrite seq_S, list_sum_app, <- IH.
    cbn [list_sum fold_right]. replace (list_sum [0 + (i + 1)]%nat) with (i + 1)%nat by (rewrite list_sum_cons, list_sum_nil; lia).
    replace (S i * S (i + 1))%nat with (i * (i + 1) + (i + 1) * 2)%nat by nia. rewrite Nat.div_add by lia. reflexivity. }
  assert (B : forall i j, (j <= i < N)%nat -> (i * (i + 1) / 2 + j < tri_size N)%nat).
  { intros i j H. unfold tri_size. assert (G : ((i + 1) * (i + 1 + 1) / 2 <= N * (N + 1) / 2)%nat) by (apply Nat.div_le_mono; nia).
    replace ((i + 1) * (i + 1 + 1))%nat with (i * (i + 1) + (i + 1) * 2)%nat in G by nia. rewrite Nat.div_add in G by lia. lia. }
  set (v := fun i j => nth (i * (i + 1) / 2 + j) src 0).
  destruct (for_inv (fun i s => length s = tri_size N /\ forall i' j, (i' < i)%nat -> (j <= i' < N)%nat -> nth_error s (sym_cont N i' j) = Some (v i' j))
    N (fun i m => for_ (i + 1) (fun j m => do v <- rd src (i * (i + 1) / 2 + j); wr m ((2 * N - 1 - j) * j / 2 + i) v) m) (zeros (tri_size N)))
    as (m & E & L & P).
  - split; [apply repeat_length|]. intros; lia.
  - intros i s Hi (L & P).
    destruct (for_inv (fun j s => length s = tri_size N /\ forall i' j', ((i' < i)%nat \/ (i' = i /\ (j' < j)%nat)) -> (j' <= i' < N)%nat -> nth_error s (sym_cont N i' j') = Some (v i' j'))
      (i + 1) (fun j m => do v <- rd src (i * (i + 1) / 2 + j); wr m ((2 * N - 1 - j) * j / 2 + i) v) s) as (r & E & L' & P').
    + split; [assumption|]. intros i' j' [C|(-> & C)] H; [auto|lia].
    + intros j t Hj (Lt & Pt). rewrite rd_nth by (rewrite Ls; apply B; lia). cbn [obind]. fold (v i j).
      assert (Ec : ((2 * N - 1 - j) * j / 2 + i)%nat = sym_cont N i j).
      { unfold sym_cont, sym_sort. destruct (j <? i)%nat eqn:C; [reflexivity|]. apply Nat.ltb_ge in C. assert (i = j) by lia. now subst. }
      rewrite Ec. destruct (wr_one t (sym_cont N i j) (v i j)) as (t' & -> & L2 & A2 & B2); [rewrite Lt; apply sym_cont_lt; lia|].
      exists t'. split; [reflexivity|]. split; [lia|]. intros i' j' C H.
      destruct (Nat.eq_dec (sym_cont N i' j') (sym_cont N i j)) as [Q|Q].
      * rewrite Q, A2. apply sym_cont_same in Q; try lia. destruct Q as [(-> & ->)|(-> & ->)]; [reflexivity|]. assert (i = j) by lia. now subst.
      * rewrite B2 by assumption. apply Pt; [|assumption]. destruct C as [C|(-> & C)]; [auto|right; split; [reflexivity|]].
        assert (j' <> j) by (intros ->; auto). lia.
    + exists r. split; [assumption|]. split; [assumption|]. intros i' j' C H. apply P'; [|assumption]. destruct (Nat.eq_dec i' i); [right; lia|left; lia].
  - exists m. split; [exact E|]. split; [assumption|]. intros i j H. unfold sym_rd. rewrite (rd_nth src) by (rewrite Ls; apply B; lia). unfold rd. now rewrite P by lia.
Qed.

(** *** Filling by an iterator *)
Lemma sym_fill_ok : forall N g v, (forall i j, (i <= j < N)%nat -> g i j = Some (v i j)) -> (forall i j, v i j = v j i) ->
  exists m, sym_fill N g = Some m /\ length m = tri_size N /\ forall i j, (i < N)%nat -> (j < N)%nat -> sym_rd N m i j = Some (v i j).
Proof.
  intros N g v Hg Hv. set (T := tri_size N).
  destruct (for_inv (fun c s => length s = T /\ forall i j, (i <= j < N)%nat -> (sym_cont N i j < c)%nat -> nth_error s (sym_cont N i j) = Some (v i j))
    T (fun c r => do q <- sym_index N c; do v <- g (fst q) (snd q); wr r c v) (zeros T)) as (m & E & L & P).
  - split; [apply repeat_length|]. intros; lia.
  - intros c s Hc (L & P). destruct (sym_index_cont N c Hc) as (i & j & -> & Hij & Ec). cbn [obind fst snd]. rewrite Hg by assumption. cbn [obind].
    destruct (wr_one s c (v i j)) as (s' & -> & L' & A & B); [lia|]. exists s'. split; [reflexivity|]. split; [lia|].
    intros i' j' H H'. destruct (Nat.eq_dec (sym_cont N i' j') c) as [Q|Q].
    + rewrite Q, A. rewrite <- Ec in Q. apply sym_cont_same in Q; try lia. destruct Q as [(-> & ->)|(-> & ->)]; [reflexivity|now rewrite Hv].
    + rewrite B by assumption. apply P; [assumption|lia].
  - exists m. split; [exact E|]. split; [assumption|]. intros i j Hi Hj. unfold sym_rd, rd. destruct (Nat.le_ge_cases i j) as [C|C].
    + apply P; [lia|apply sym_cont_lt; lia].
    + rewrite sym_cont_swap, Hv. apply P; [lia|apply sym_cont_lt; lia].
Qed.

(** *** Products *)
Section Mat.
Variables (N : nat) (a b : nat -> nat -> option R) (A B : nat -> nat -> R).
Hypothesis HA : forall i j, (i < N)%nat -> (j < N)%nat -> a i j = Some (A i j).
Hypothesis HB : forall i j, (i < N)%nat -> (j < N)%nat -> b i j = Some (B i j).

Lemma trace_ok : trace N a = Some (Rsum N (fun i => A i i)).
Proof. clear b HB B. unfold trace. rewrite (sum_from_eq N _ (fun i => A i i)); [now rewrite Rplus_0_l|]. intros; now apply HA. Qed.

Lemma mul_vec_ok : forall v, length v = N -> mul_vec N a v = Some (arr N (fun i => Rsum N (fun j => A i j * nth j v 0))).
Proof.
  clear b HB B. intros v Lv. unfold mul_vec. rewrite zeros_arr.
  destruct (for_inv (fun i s => s = arr N (fun p => if (p <? i)%nat then Rsum N (fun j => A p j * nth j v 0) else 0))
    N (fun i r => for_ N (fun j r => do x <- a i j; do y <- rd v j; do z <- rd r i; wr r i (z + x * y)) r) (arr N (fun _ => 0))) as (s & E & ->).
  - apply arr_ext. reflexivity.
  - intros i s Hi ->. rewrite (acc_cell N i (fun j => A i j * nth j v 0)).
    + eexists. split; [reflexivity|]. apply arr_ext. intros p Hp. unfold upd.
      destruct (Nat.eqb_spec p i), (Nat.ltb_spec p i), (Nat.ltb_spec p (S i)), (Nat.ltb_spec i i); subst; try lia; try reflexivity. ring.
    + intros k f Hk. rewrite HA, rd_nth by lia. cbn [obind]. rewrite rd_arr by assumption. cbn [obind]. now rewrite wr_arr.
  - etransitivity; [exact E|]. f_equal. apply arr_ext. intros p Hp. destruct (Nat.ltb_spec p N); [reflexivity|lia].
Qed.

Lemma mtx_mul_ok : exists m, mtx_mul N a b = Some m /\ length m = (N * N)%nat /\
  forall i j, (i < N)%nat -> (j < N)%nat -> mtx_rd N m i j = Some (mprod N A B i j).
Proof.
  unfold mtx_mul. rewrite zeros_arr.
  destruct (for_inv (fun i s => exists f, s = arr (N * N) f /\ (forall i' j, (i' < N)%nat -> (j < N)%nat -> f (N * i' + j)%nat = if (i' <? i)%nat then mprod N A B i' j else 0))
    N (fun i r => for_ N (fun j r => for_ N (fun k r =>
      do x <- a i k; do y <- b k j; do z <- mtx_rd N r i j; mtx_wr N r i j (z + x * y)) r) r) (arr (N * N) (fun _ => 0))) as (s & E & f & -> & P).
  - eexists. split; reflexivity.
  - intros i s Hi (f & -> & P).
    destruct (for_inv (fun j s => exists f, s = arr (N * N) f /\ (forall i' j', (i' < N)%nat -> (j' < N)%nat -> f (N * i' + j')%nat =
        if (i' <? i)%nat || ((i' =? i)%nat && (j' <? j)%nat) then mprod N A B i' j' else 0))
      N (fun j r => for_ N (fun k r => do x <- a i k; do y <- b k j; do z <- mtx_rd N r i j; mtx_wr N r i j (z + x * y)) r) (arr (N * N) f)) as (s & E & f' & -> & P').
    + exists f. split; [reflexivity|]. intros i' j' Hi' Hj'. rewrite P by assumption. rewrite andb_false_r, orb_false_r. reflexivity.
    + intros j s Hj (f' & -> & P'). rewrite (acc_cell (N * N) (N * i + j) (fun k => A i k * B k j)).
      * eexists. split; [reflexivity|]. eexists. split; [reflexivity|]. intros i' j' Hi' Hj'. unfold upd.
        rewrite !P' by assumption.
        destruct (Nat.eqb_spec (N * i' + j') (N * i + j)) as [Q|Q].
        -- apply cell_eq' in Q as (-> & ->); [|assumption..]. rewrite !Nat.eqb_refl, !Nat.ltb_irrefl. cbn [orb andb].
           replace (j <? S j)%nat with true by (symmetry; apply Nat.ltb_lt; lia). unfold mprod. ring.
        -- replace (j' <? S j)%nat with ((j' <? j) || (j' =? j))%nat by (destruct (Nat.ltb_spec j' j), (Nat.eqb_spec j' j), (Nat.ltb_spec j' (S j)); try lia; reflexivity).
           destruct (Nat.eqb_spec i' i); [subst i'|cbn [andb]; reflexivity]. destruct (Nat.eqb_spec j' j); [subst; lia|]. now rewrite orb_false_r.
      * intros k g Hk. rewrite HA, HB by lia. cbn [obind]. unfold mtx_rd, mtx_wr. rewrite rd_arr by now apply cell_lt'. cbn [obind].
        now rewrite wr_arr by now apply cell_lt'.
    + exists (arr (N * N) f'). split; [assumption|]. exists f'. split; [reflexivity|]. intros i' j' Hi' Hj'. rewrite P' by assumption.
      replace (j' <? N)%nat with true by (symmetry; apply Nat.ltb_lt; assumption). rewrite andb_true_r.
      destruct (Nat.ltb_spec i' i), (Nat.eqb_spec i' i), (Nat.ltb_spec i' (S i)); try lia; reflexivity.
  - exists (arr (N * N) f). split; [exact E|]. split; [apply arr_length|]. intros i j Hi Hj. unfold mtx_rd. rewrite rd_arr by now apply cell_lt'.
    rewrite P by assumption. destruct (Nat.ltb_spec i N); [reflexivity|lia].
Qed.
End Mat.

Lemma mtx_form_ok : forall N m f s, length m = (N * N)%nat -> length f = N -> length s = N ->
  mtx_form N m f s = Some (Rsum2 N (fun i j => nth i f 0 * nth (N * i + j) m 0 * nth j s 0)).
Proof.
  intros N m f s Lm Lf Ls. unfold mtx_form.
  rewrite (for_sum N (fun i => Rsum N (fun j => nth i f 0 * nth (N * i + j) m 0 * nth j s 0))); [unfold Rsum2; now rewrite Rplus_0_l|].
  intros i r Hi. apply sum_from_eq. intros j Hj. unfold mtx_rd. rewrite !rd_nth by (rewrite ?Lm; try apply cell_lt'; lia). cbn [obind]. f_equal. ring.
Qed.

Lemma sym_form_ok : forall N m f s, length m = tri_size N -> length f = N -> length s = N ->
  sym_form N m f s = Some (Rsum2 N (fun i j => nth i f 0 * nth (sym_cont N i j) m 0 * nth j s 0)).
Proof.
  intros N m f s Lm Lf Ls. unfold sym_form.
  set (g := fun c => nth c m 0 * match sym_index N c with Some (i, j) => (nth i f 0 * nth j s 0 + nth j f 0 * nth i s 0) / 2 | None => 0 end).
  rewrite (sum_from_eq (tri_size N) _ (fun c => g c * wgt (sym_dup N) c)).
  - f_equal. rewrite Rplus_0_l, dup_sum'.
    transitivity (Rsum2 N (fun i j => (nth i f 0 * nth (sym_cont N i j) m 0 * nth j s 0 + nth j f 0 * nth (sym_cont N j i) m 0 * nth i s 0) / 2)).
    + apply Rsum2_ext. intros i j Hi Hj. unfold g.
      destruct (sym_index_cont N (sym_cont N i j) (sym_cont_lt N i j Hi Hj)) as (p & q & -> & Hpq & E). rewrite (sym_cont_swap N j i).
      apply sym_cont_same in E; try lia. destruct E as [(-> & ->)|(-> & ->)]; unfold Rdiv; ring.
    + unfold Rsum2.
      rewrite (Rsum_ext N _ (fun i => Rsum N (fun j => nth i f 0 * nth (sym_cont N i j) m 0 * nth j s 0) * / 2 + Rsum N (fun j => nth j f 0 * nth (sym_cont N j i) m 0 * nth i s 0) * / 2)).
      * rewrite Rsum_plus, !Rsum_scal_r. rewrite (Rsum_swap N N (fun i j => nth j f 0 * nth (sym_cont N j i) m 0 * nth i s 0)). field.
      * intros i Hi. rewrite <- !Rsum_scal_r, <- Rsum_plus. apply Rsum_ext. intros j Hj. unfold Rdiv. ring.
  - intros c Hc. rewrite rd_nth by lia. cbn [obind]. destruct (sym_index_cont N c Hc) as (i & j & E & Hij & _). rewrite E. cbn [obind].
    rewrite !rd_nth by lia. cbn [obind]. f_equal. unfold g, wgt. rewrite E, (sym_dup_eq N c i j E) by lia.
    destruct (Nat.eqb_spec i j); [subst; cbn; field|cbn; field].
Qed.

(** SymMtx * SymMtx keeps the elements of the product on and above the diagonal *)
Lemma sym_mul_ok : forall N a b, length a = tri_size N -> length b = tri_size N ->
  exists m, sym_mul N a b = Some m /\ length m = tri_size N /\
    forall i j, (i <= j < N)%nat -> sym_rd N m i j = Some (mprod N (fun i j => nth (sym_cont N i j) a 0) (fun i j => nth (sym_cont N i j) b 0) i j).
Proof.
  intros N a b La Lb. unfold sym_mul. rewrite zeros_arr. set (T := tri_size N).
  set (V := mprod N (fun i j => nth (sym_cont N i j) a 0) (fun i j => nth (sym_cont N i j) b 0)).
  set (body := fun i j r => for_ N (fun k r => do x <- sym_rd N a i k; do y <- sym_rd N b j k; do z <- sym_rd N r i j; sym_wr N r i j (z + x * y)) r).
  destruct (for_inv (fun i s => exists f, s = arr T f /\ (forall i' j, (i' <= j < N)%nat -> f (sym_cont N i' j) = if (i' <? i)%nat then V i' j else 0))
    N (fun i r => for_range i (N - i) (body i) r) (arr T (fun _ => 0))) as (s & E & f & -> & P).
  - eexists. split; reflexivity.
  - intros i s Hi (f & -> & P).
    destruct (for_range_inv (fun j s => exists f, s = arr T f /\ (forall i' j', (i' <= j' < N)%nat -> f (sym_cont N i' j') =
        if (i' <? i)%nat || ((i' =? i)%nat && (j' <? j)%nat) then V i' j' else 0))
      (N - i) i (body i) (arr T f)) as (s & E & f' & -> & P').
    + exists f. split; [reflexivity|]. intros i' j' H. rewrite P by assumption.
      destruct (Nat.eqb_spec i' i); [subst i'; destruct (Nat.ltb_spec j' i); [lia|]; now rewrite andb_false_r, orb_false_r|now rewrite orb_false_r].
    + intros j s Hj (f' & -> & P'). unfold body. rewrite (acc_cell T (sym_cont N i j) (fun k => nth (sym_cont N i k) a 0 * nth (sym_cont N k j) b 0)).
      * eexists. split; [reflexivity|]. eexists. split; [reflexivity|]. intros i' j' H. unfold upd. rewrite !P' by lia.
        destruct (Nat.eqb_spec (sym_cont N i' j') (sym_cont N i j)) as [Q|Q].
        -- apply sym_cont_same in Q; try lia. assert (i' = i /\ j' = j) as (-> & ->) by (unfold same2 in Q; lia).
           rewrite !Nat.eqb_refl, !Nat.ltb_irrefl. cbn [orb andb].
           replace (j <? S j)%nat with true by (symmetry; apply Nat.ltb_lt; lia). unfold V, mprod. ring.
        -- replace (j' <? S j)%nat with ((j' <? j) || (j' =? j))%nat by (destruct (Nat.ltb_spec j' j), (Nat.eqb_spec j' j), (Nat.ltb_spec j' (S j)); try lia; reflexivity).
           destruct (Nat.eqb_spec i' i); [subst i'|cbn [andb]; reflexivity]. destruct (Nat.eqb_spec j' j); [subst; congruence|]. now rewrite orb_false_r.
      * intros k g Hk. unfold sym_rd, sym_wr. rewrite (rd_nth a) by (rewrite La; apply sym_cont_lt; lia). rewrite (rd_nth b) by (rewrite Lb; apply sym_cont_lt; lia).
        cbn [obind]. rewrite rd_arr by (apply sym_cont_lt; lia). cbn [obind]. rewrite wr_arr by (apply sym_cont_lt; lia). now rewrite (sym_cont_swap N j k).
    + exists (arr T f'). split; [assumption|]. exists f'. split; [reflexivity|]. intros i' j' H. rewrite P' by assumption.
      replace (j' <? i + (N - i))%nat with true by (symmetry; apply Nat.ltb_lt; lia). rewrite andb_true_r.
      destruct (Nat.ltb_spec i' i), (Nat.eqb_spec i' i), (Nat.ltb_spec i' (S i)); try lia; reflexivity.
  - exists (arr T f). split; [exact E|]. split; [apply arr_length|]. intros i j H. unfold sym_rd. rewrite rd_arr by (apply sym_cont_lt; lia).
    rewrite P by assumption. destruct (Nat.ltb_spec i N); [reflexivity|lia].
Qed.
