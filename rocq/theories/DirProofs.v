(** Lemmas for C09 and C10. *)
From Coq Require Import Permutation.
From Verif Require Import RSum DirModel DirSpec.
Local Open Scope R_scope.

Lemma fill_col : forall n c a k, (k < c)%nat ->
  exists a', for_range (k * n) n (fun p A => wr A p 0) (store n c a) = Some (store n c a') /\
    forall i j, (i < n)%nat -> (j < c)%nat -> a' i j = if (j =? k)%nat then 0 else a i j.
Proof.
  intros n c a k Hk.
  destruct (for_rep (store n c) (fun p a' => forall i j, (i < n)%nat -> (j < c)%nat ->
      a' i j = if ((j =? k) && (i + n * k <? p))%bool%nat then 0 else a i j) n (k * n) (fun p A => wr A p 0) a) as (a' & E & H).
  - intros i j Hi Hj. destruct (Nat.ltb_spec (i + n * k) (k * n)); [lia|]. now rewrite Bool.andb_false_r.
  - intros p b Hp Hb. set (i0 := (p - k * n)%nat). assert (Hi0 : (i0 < n)%nat) by (unfold i0; lia).
    exists (upd2 b i0 k 0). split.
    + pose proof (mwr_store n c b i0 k 0 Hi0 Hk) as E. unfold mwr in E. replace (i0 + n * k)%nat with p in E by (unfold i0; lia). exact E.
    + intros i j Hi Hj. unfold upd2. rewrite Hb by assumption.
      destruct (Nat.eqb_spec j k); [|now rewrite Bool.andb_false_r]. rewrite Bool.andb_true_r.
      destruct (Nat.eqb_spec i i0), (Nat.ltb_spec (i + n * k) p), (Nat.ltb_spec (i + n * k) (S p)); cbn [andb]; try reflexivity; unfold i0 in *; lia.
  - exists a'. split; [exact E|]. intros i j Hi Hj. rewrite H by assumption. destruct (j =? k)%nat; [|reflexivity]. cbn [andb].
    destruct (Nat.ltb_spec (i + n * k) (k * n + n)); [reflexivity|lia].
Qed.
Lemma fill_row : forall n c a k, (k < n)%nat ->
  exists a', for_ c (fun i A => mwr A n k i 0) (store n c a) = Some (store n c a') /\
    forall i j, (i < n)%nat -> (j < c)%nat -> a' i j = if (i =? k)%nat then 0 else a i j.
Proof.
  intros n c a k Hk.
  destruct (for_rep0 (store n c) (fun q a' => forall i j, (i < n)%nat -> (j < c)%nat ->
      a' i j = if ((i =? k) && (j <? q))%bool%nat then 0 else a i j) c (fun i A => mwr A n k i 0) a) as (a' & E & H).
  - intros i j Hi Hj. now rewrite Bool.andb_false_r.
  - intros q b Hq Hb. exists (upd2 b k q 0). split; [now apply mwr_store|].
    intros i j Hi Hj. unfold upd2. rewrite Hb by assumption.
    destruct (Nat.eqb_spec i k); [|reflexivity]. cbn [andb].
    destruct (Nat.eqb_spec j q), (Nat.ltb_spec j q), (Nat.ltb_spec j (S q)); try reflexivity; lia.
  - exists a'. split; [exact E|]. intros i j Hi Hj. rewrite H by assumption. destruct (i =? k)%nat; [|reflexivity]. cbn [andb].
    destruct (Nat.ltb_spec j c); [reflexivity|lia].
Qed.

Definition eye (i j : nat) : R := if (i =? j)%nat then 1 else 0.
Definition dir_a (a : nat -> nat -> R) (k : nat) : nat -> nat -> R :=
  fun i j => if ((i =? k) || (j =? k))%bool%nat then eye i j else a i j.
Definition dir_f (a : nat -> nat -> R) (f : nat -> R) (k : nat) (bc : R) : nat -> R :=
  fun i => if (i =? k)%nat then bc else f i - a i k * bc.

Lemma dir_matrix_ok : forall n c a k, (k < n)%nat -> (k < c)%nat -> dir_matrix n c (store n c a) k = Some (store n c (dir_a a k)).
Proof.
  intros n c a k Hn Hc. unfold dir_matrix.
  destruct (fill_col n c a k Hc) as (a1 & E1 & H1). rewrite E1. cbn [obind].
  destruct (fill_row n c a1 k Hn) as (a2 & E2 & H2). rewrite E2. cbn [obind].
  rewrite mwr_store by assumption. f_equal. apply store_ext. intros i j Hi Hj. unfold upd2, dir_a, eye. rewrite H2, H1 by assumption.
  destruct (Nat.eqb_spec i k), (Nat.eqb_spec j k), (Nat.eqb_spec i j); cbn [andb orb]; try reflexivity; lia.
Qed.
Lemma non_exists_ok : forall n c a k, (k < n)%nat -> (k < c)%nat ->
  dir_non_exists n c (store n c a) k = Some (store n c (fun i j => if ((i =? k) || (j =? k))%bool%nat then 0 else a i j)).
Proof.
  intros n c a k Hn Hc. unfold dir_non_exists.
  destruct (fill_col n c a k Hc) as (a1 & E1 & H1). rewrite E1. cbn [obind].
  destruct (fill_row n c a1 k Hn) as (a2 & E2 & H2). rewrite E2.
  f_equal. apply store_ext. intros i j Hi Hj. rewrite H2, H1 by assumption.
  destruct (Nat.eqb_spec i k), (Nat.eqb_spec j k); cbn [orb]; reflexivity.
Qed.
Lemma apply_dir_ok : forall n c a f k bc, (k < n)%nat -> (k < c)%nat ->
  apply_dir n c (store n c a) (arr n f) k bc = Some (store n c (dir_a a k), arr n (dir_f a f k bc)).
Proof.
  intros n c a f k bc Hn Hc. unfold apply_dir.
  destruct (for_rep0 (arr n) (fun q g => forall i, (i < n)%nat -> g i = if (i <? q)%nat then f i - a i k * bc else f i) n
      (fun i F => do f <- rd F i; do a <- mrd (store n c a) n i k; wr F i (f - a * bc)) f) as (g & E & H).
  - reflexivity.
  - intros q g Hq Hg. exists (upd g q (g q - a q k * bc)). split.
    + rewrite rd_arr by assumption. cbn [obind]. rewrite mrd_store by assumption. cbn [obind]. now apply wr_arr.
    + intros i Hi. unfold upd. rewrite !Hg by assumption.
      destruct (Nat.eqb_spec i q) as [->|]; [destruct (Nat.ltb_spec q q), (Nat.ltb_spec q (S q)); try lia; reflexivity|].
      destruct (Nat.ltb_spec i q), (Nat.ltb_spec i (S q)); try lia; reflexivity.
  - rewrite E. cbn [obind]. rewrite wr_arr by assumption. cbn [obind]. rewrite dir_matrix_ok by assumption. cbn [obind]. do 2 f_equal.
    apply arr_ext. intros i Hi. unfold upd, dir_f. destruct (Nat.eqb_spec i k); [reflexivity|]. rewrite H by assumption.
    destruct (Nat.ltb_spec i n); [reflexivity|lia].
Qed.

(** Solutions. *)
Lemma row_dir_k : forall c a k x, (k < c)%nat -> row_times c (dir_a a k) k x = x k.
Proof.
  intros c a k x Hk. unfold row_times. rewrite (Rsum_single c k _ Hk).
  - unfold dir_a, eye. rewrite !Nat.eqb_refl. cbn [orb]. lra.
  - intros j Hj Hne. unfold dir_a, eye. rewrite Nat.eqb_refl. cbn [orb]. destruct (Nat.eqb_spec k j); [lia|lra].
Qed.
Lemma row_dir_other : forall c a k i x, (k < c)%nat -> i <> k -> row_times c (dir_a a k) i x = row_times c a i x - a i k * x k.
Proof.
  intros c a k i x Hk Hi. unfold row_times. rewrite (Rsum_remove c k (fun j => a i j * x j) Hk).
  transitivity (Rsum c (fun j => if (j =? k)%nat then 0 else a i j * x j)); [|lra].
  apply Rsum_ext. intros j Hj. unfold dir_a, eye. destruct (Nat.eqb_spec i k); [contradiction|]. cbn [orb].
  destruct (Nat.eqb_spec j k) as [->|]; [|reflexivity]. destruct (Nat.eqb_spec i k); [contradiction|lra].
Qed.
Lemma solves_dir : forall n c a f k bc x, (k < n)%nat -> (k < c)%nat ->
  solves n c (dir_a a k) (dir_f a f k bc) x <-> constrained n c a f x k bc.
Proof.
  intros n c a f k bc x Hn Hc. unfold solves, constrained, dir_f. split.
  - intros H. assert (Hk : x k = bc). { specialize (H k Hn). rewrite row_dir_k, Nat.eqb_refl in H by assumption. exact H. }
    split; [exact Hk|]. intros i Hi Hne. specialize (H i Hi). rewrite row_dir_other in H by assumption.
    destruct (Nat.eqb_spec i k); [contradiction|]. rewrite Hk in H. lra.
  - intros [Hk H] i Hi. destruct (Nat.eqb_spec i k) as [->|Hne]; [now rewrite row_dir_k|].
    rewrite row_dir_other, Hk, H by assumption. reflexivity.
Qed.

(** *** Several values *)
Definition lsum (l : list (nat * R)) (g : nat -> R) : R := fold_right (fun kb s => g (fst kb) * snd kb + s) 0 l.
Definition memb (i : nat) (l : list (nat * R)) : bool := existsb (fun kb => fst kb =? i) l.
Definition all_a (a : nat -> nat -> R) (l : list (nat * R)) : nat -> nat -> R :=
  fun i j => if (memb i l || memb j l)%bool then eye i j else a i j.
Definition valueof (i : nat) (l : list (nat * R)) : R := fold_right (fun kb s => if (fst kb =? i)%nat then snd kb else s) 0 l.
Definition all_f (a : nat -> nat -> R) (f : nat -> R) (l : list (nat * R)) : nat -> R :=
  fun i => if memb i l then valueof i l else f i - lsum l (a i).

Lemma memb_In : forall i l, memb i l = true <-> In i (map fst l).
Proof.
  intros i l. unfold memb. rewrite existsb_exists, in_map_iff. split.
  - intros ([k b] & Hi & E). apply Nat.eqb_eq in E. exists (k, b). auto.
  - intros ([k b] & E & Hi). exists (k, b). split; [exact Hi|]. now apply Nat.eqb_eq.
Qed.
Lemma memb_false : forall i l, memb i l = false <-> ~ In i (map fst l).
Proof. intros. rewrite <- memb_In. destruct (memb i l); split; congruence. Qed.
Lemma valueof_In : forall l i b, NoDup (map fst l) -> In (i, b) l -> valueof i l = b.
Proof.
  induction l as [|[k b'] l IH]; intros i b Hn Hi; [destruct Hi|]. cbn [map fst] in Hn. apply NoDup_cons_iff in Hn. destruct Hn as [Hk Hn].
  cbn [valueof fold_right fst snd]. destruct Hi as [E|Hi].
  - injection E as -> ->. now rewrite Nat.eqb_refl.
  - destruct (Nat.eqb_spec k i) as [->|]; [|now apply IH]. exfalso. apply Hk. change i with (fst (i, b)). now apply in_map.
Qed.


Lemma lsum_ext : forall l g h, (forall k, In k (map fst l) -> g k = h k) -> lsum l g = lsum l h.
Proof. induction l as [|[k b] l IH]; intros g h H; [reflexivity|]. cbn [lsum fold_right fst snd]. fold (lsum l g) (lsum l h). rewrite (H k), (IH g h); [reflexivity| |now left]. intros k' Hk'. apply H. now right. Qed.

Lemma all_cons_a : forall a k b l i j, all_a (dir_a a k) l i j = all_a a ((k, b) :: l) i j.
Proof.
  intros. unfold all_a, dir_a, memb. cbn [existsb fst]. rewrite (Nat.eqb_sym k i), (Nat.eqb_sym k j).
  destruct (existsb (fun kb => fst kb =? i)%nat l), (existsb (fun kb => fst kb =? j)%nat l), (i =? k)%nat, (j =? k)%nat; reflexivity.
Qed.
Lemma all_cons_f : forall a f k b l i, ~ In k (map fst l) -> all_f (dir_a a k) (dir_f a f k b) l i = all_f a f ((k, b) :: l) i.
Proof.
  intros a f k b l i Hk. unfold all_f, dir_f. cbn [memb existsb fst valueof fold_right snd lsum]. rewrite (Nat.eqb_sym k i).
  fold (memb i l) (valueof i l) (lsum l (a i)). destruct (Nat.eqb_spec i k) as [->|Hne].
  - cbn [orb]. rewrite (proj2 (memb_false k l) Hk). rewrite (lsum_ext l (dir_a a k k) (fun _ => 0)).
    + clear. enough (lsum l (fun _ => 0) = 0) by lra. induction l as [|[k' b'] l IH]; cbn; [reflexivity|]. fold (lsum l (fun _ => 0)). lra.
    + intros k' Hk'. unfold dir_a, eye. rewrite Nat.eqb_refl. cbn [orb]. destruct (Nat.eqb_spec k k'); [subst; contradiction|reflexivity].
  - cbn [orb]. destruct (memb i l) eqn:Em; [reflexivity|]. rewrite (lsum_ext l (dir_a a k i) (a i)); [lra|].
    intros k' Hk'. unfold dir_a. destruct (Nat.eqb_spec i k); [contradiction|]. cbn [orb].
    destruct (Nat.eqb_spec k' k) as [->|]; [contradiction|reflexivity].
Qed.

Lemma dir_all_ok : forall l n c a f, NoDup (map fst l) -> (forall k, In k (map fst l) -> (k < n)%nat /\ (k < c)%nat) ->
  dir_all n c l (store n c a, arr n f) = Some (store n c (all_a a l), arr n (all_f a f l)).
Proof.
  induction l as [|[k b] l IH]; intros n c a f Hn Hk.
  - cbn. do 2 f_equal. apply arr_ext. intros i _. unfold all_f. cbn. lra.
  - cbn [map fst] in Hn, Hk. apply NoDup_cons_iff in Hn. destruct Hn as [Hnk Hn]. cbn [dir_all fst snd].
    destruct (Hk k (or_introl eq_refl)) as [K1 K2]. rewrite apply_dir_ok by assumption. cbn [obind].
    rewrite IH; [|assumption|intros k' Hk'; apply Hk; now right]. do 2 f_equal.
    + apply store_ext. intros. apply all_cons_a.
    + apply arr_ext. intros. now apply all_cons_f.
Qed.

Lemma lsum_perm : forall l l' g, Permutation l l' -> lsum l g = lsum l' g.
Proof. 
  intros l l' g H. unfold lsum. induction H as [|x l l' H IH|x y l|l l' l'' H1 IH1 H2 IH2]; cbn [fold_right].
  - reflexivity.
  - now rewrite IH.
  - lra.
  - congruence.
Qed.
Lemma memb_perm : forall l l' i, Permutation l l' -> memb i l = memb i l'.
Proof.
  intros l l' i H. destruct (memb i l) eqn:E.
  - symmetry. apply memb_In. apply memb_In in E. eapply Permutation_in; [|exact E]. now apply Permutation_map.
  - symmetry. apply memb_false. apply memb_false in E. intros C. apply E. eapply Permutation_in; [|exact C]. symmetry. now apply Permutation_map.
Qed.

Lemma dir_all_perm : forall n c a f l l', NoDup (map fst l) -> (forall k, In k (map fst l) -> (k < n)%nat /\ (k < c)%nat) ->
  Permutation l l' -> dir_all n c l (store n c a, arr n f) = dir_all n c l' (store n c a, arr n f).
Proof.
  intros n c a f l l' Hn Hk HP.
  assert (Hn' : NoDup (map fst l')) by (eapply Permutation_NoDup; [apply Permutation_map; exact HP|exact Hn]).
  assert (Hk' : forall k, In k (map fst l') -> (k < n)%nat /\ (k < c)%nat).
  { intros k Hi. apply Hk. eapply Permutation_in; [|exact Hi]. symmetry. now apply Permutation_map. }
  rewrite !dir_all_ok by assumption. do 2 f_equal.
  - apply store_ext. intros i j _ _. unfold all_a. now rewrite !(memb_perm l l' _ HP).
  - apply arr_ext. intros i _. unfold all_f. rewrite (memb_perm l l' i HP), (lsum_perm l l' _ HP).
    destruct (memb i l') eqn:E; [|reflexivity]. apply memb_In in E. apply in_map_iff in E. destruct E as ([k b] & E & Hi). cbn in E. subst k.
    rewrite (valueof_In l' i b Hn' Hi). apply valueof_In; [exact Hn|]. eapply Permutation_in; [symmetry; exact HP|exact Hi].
Qed.

Lemma dir_all_again : forall n c a f l k b, NoDup (map fst l) -> (forall k, In k (map fst l) -> (k < n)%nat /\ (k < c)%nat) ->
  In (k, b) l -> dir_all n c (l ++ [(k, b)]) (store n c a, arr n f) = dir_all n c l (store n c a, arr n f).
Proof.
  intros n c a f l k b Hn Hk Hi.
  assert (Happ : forall l l' s, dir_all n c (l ++ l') s = do s' <- dir_all n c l s; dir_all n c l' s').
  { clear. induction l as [|[k b] l IH]; intros l' s; [reflexivity|]. cbn [app dir_all]. destruct (apply_dir _ _ _ _ _ _); [|reflexivity]. cbn [obind]. apply IH. }
  rewrite Happ, dir_all_ok by assumption. cbn [obind dir_all fst snd].
  assert (Hin : In k (map fst l)) by (change k with (fst (k, b)); now apply in_map).
  destruct (Hk k Hin) as [K1 K2]. rewrite apply_dir_ok by assumption. cbn [obind].
  apply memb_In in Hin. do 2 f_equal.
  - apply store_ext. intros i j _ _. unfold dir_a, all_a. destruct (Nat.eqb_spec i k) as [->|]; [rewrite Hin; reflexivity|].
    destruct (Nat.eqb_spec j k) as [->|]; cbn [orb]; [rewrite Hin, Bool.orb_true_r; reflexivity|reflexivity].
  - apply arr_ext. intros i _. unfold dir_f. destruct (Nat.eqb_spec i k) as [->|Hne].
    + unfold all_f. rewrite Hin. symmetry. now apply valueof_In.
    + unfold all_a at 1. rewrite Hin, Bool.orb_true_r. unfold eye. destruct (Nat.eqb_spec i k); [contradiction|lra].
Qed.

Lemma solves_dir_all : forall l n c a f x, NoDup (map fst l) -> (forall k, In k (map fst l) -> (k < n)%nat /\ (k < c)%nat) ->
  (solves n c (all_a a l) (all_f a f l) x <-> constrained_all n c a f x l).
Proof.
  induction l as [|[k b] l IH]; intros n c a f x Hn Hk.
  - unfold solves, constrained_all. split.
    + intros H. split; [intros k b []|]. intros i Hi _. specialize (H i Hi). unfold all_f in H. cbn in H. unfold row_times, all_a in *. cbn in H. lra.
    + intros [_ H] i Hi. unfold all_f. cbn. rewrite <- (H i Hi ltac:(intros [])). unfold row_times, all_a. cbn. lra.
  - cbn [map fst] in Hn, Hk. apply NoDup_cons_iff in Hn. destruct Hn as [Hnk Hn].
    destruct (Hk k (or_introl eq_refl)) as [K1 K2].
    transitivity (solves n c (all_a (dir_a a k) l) (all_f (dir_a a k) (dir_f a f k b) l) x).
    { unfold solves, row_times. split; intros H i Hi; specialize (H i Hi).
      - rewrite all_cons_f by assumption. rewrite <- H. apply Rsum_ext. intros j _. now rewrite (all_cons_a a k b).
      - rewrite <- (all_cons_f a f k b l i Hnk), <- H. apply Rsum_ext. intros j _. now rewrite (all_cons_a a k b). }
    rewrite IH; [|assumption|intros k' Hk'; apply Hk; now right].
    unfold constrained_all. split.
    + intros [H1 H2]. assert (Ex : x k = b).
      { specialize (H2 k K1 Hnk). rewrite row_dir_k in H2 by assumption. unfold dir_f in H2. now rewrite Nat.eqb_refl in H2. }
      split.
      * intros k' b' [E|Hi]; [injection E as <- <-; exact Ex|now apply H1].
      * intros i Hi Hni. cbn [map fst In] in Hni. specialize (H2 i Hi ltac:(tauto)). rewrite row_dir_other in H2 by (assumption || tauto || (intros ->; tauto)).
        unfold dir_f in H2. destruct (Nat.eqb_spec i k); [subst; tauto|]. rewrite Ex in H2. lra.
    + intros [H1 H2]. pose proof (H1 k b (or_introl eq_refl)) as Ex. split; [intros k' b' Hi; apply H1; now right|].
      intros i Hi Hni. unfold dir_f. destruct (Nat.eqb_spec i k) as [->|Hne]; [now rewrite row_dir_k|].
      rewrite row_dir_other, Ex by assumption. rewrite H2; [reflexivity|assumption|]. cbn [map fst In]. intros [C|C]; [congruence|contradiction].
Qed.
