(** Lemmas for C11. *)
From Verif Require Import RSum DirModel DirSpec.
Local Open Scope R_scope.

Lemma cell_inj : forall n i j i' j', (i < n)%nat -> (i' < n)%nat -> (i + n * j = i' + n * j')%nat -> i = i' /\ j = j'.
Proof.
  intros n i j i' j' Hi Hi' E. destruct (cell_split n i j Hi) as [A B]. destruct (cell_split n i' j' Hi') as [A' B'].
  rewrite E in A, B. split; congruence.
Qed.

(** *** Sums over a group of columns *)
Definition ingrp (dim : nat) (d : nat -> nat) (q : nat) : bool := existsb (fun m => d m =? q) (seq 0 dim).
Lemma ingrp_iff : forall dim d q, ingrp dim d q = true <-> in_group dim d q.
Proof.
  intros dim d q. unfold ingrp. rewrite existsb_exists. split.
  - intros (m & Hm & E). apply in_seq in Hm. apply Nat.eqb_eq in E. exists m. split; [lia|congruence].
  - intros (m & Hm & ->). exists m. rewrite in_seq, Nat.eqb_refl. split; [lia|reflexivity].
Qed.
Lemma ingrp_false : forall dim d q, ingrp dim d q = false <-> ~ in_group dim d q.
Proof. intros. rewrite <- ingrp_iff. destruct (ingrp dim d q); split; congruence. Qed.
Lemma in_group_dec : forall dim d q, in_group dim d q \/ ~ in_group dim d q.
Proof. intros. destruct (ingrp dim d q) eqn:E; [left; now apply ingrp_iff|right; now apply ingrp_false]. Qed.

Lemma group_sum : forall c dim d h, (forall m, (m < dim)%nat -> (d m < c)%nat) ->
  (forall m m', (m < dim)%nat -> (m' < dim)%nat -> d m = d m' -> m = m') ->
  Rsum c h = Rsum dim (fun m => h (d m)) + Rsum c (fun q => if ingrp dim d q then 0 else h q).
Proof.
  intros c dim d h. induction dim as [|dim IH]; intros Hc Hi.
  - cbn [Rsum seq existsb ingrp]. rewrite Rplus_0_l. reflexivity.
  - rewrite IH by (intros; try apply Hc; try apply Hi; lia). cbn [Rsum].
    rewrite (Rsum_remove c (d dim)) by (apply Hc; lia).
    assert (E : ingrp dim d (d dim) = false).
    { apply ingrp_false. intros (m & Hm & E). apply Hi in E; lia. }
    rewrite E.
    enough (Rsum c (fun i => if (i =? d dim)%nat then 0 else if ingrp dim d i then 0 else h i) = Rsum c (fun q => if ingrp (S dim) d q then 0 else h q)) by lra.
    apply Rsum_ext. intros q _. unfold ingrp. rewrite seq_S, existsb_app. cbn [existsb]. rewrite Bool.orb_false_r, Nat.add_0_l, (Nat.eqb_sym q (d dim)).
    destruct (existsb _ _), (d dim =? q)%nat; reflexivity.
Qed.

Section Group.
Variables (n c dim : nat) (d : nat -> nat) (v : nat -> nat -> R).
Hypothesis Hg : good_group n c dim d.

Lemma dn : forall m, (m < dim)%nat -> (d m < n)%nat. Proof. intros. now apply Hg. Qed.
Lemma dc : forall m, (m < dim)%nat -> (d m < c)%nat. Proof. intros. now apply Hg. Qed.
Lemma dinj : forall m m', (m < dim)%nat -> (m' < dim)%nat -> d m = d m' -> m = m'. Proof. intros. now apply Hg. Qed.

(* copy one column of the group rows into the work memory *)
Lemma copy_col : forall a j (g : nat -> R) msz, (j < c)%nat -> (dim * c <= msz)%nat ->
  exists g', for_ dim (fun i mem => do di <- rd (arr dim d) i; do x <- mrd (store n c a) n di j; mwr mem dim i j x) (arr msz g) = Some (arr msz g') /\
    (forall i, (i < dim)%nat -> g' (i + dim * j)%nat = a (d i) j) /\
    (forall q, (forall i, (i < dim)%nat -> q <> (i + dim * j)%nat) -> g' q = g q).
Proof.
  intros a j g msz Hj Hm.
  destruct (for_rep0 (arr msz) (fun i0 g' => (forall i, (i < i0)%nat -> g' (i + dim * j)%nat = a (d i) j) /\
     (forall q, (forall i, (i < dim)%nat -> q <> (i + dim * j)%nat) -> g' q = g q)) dim
     (fun i mem => do di <- rd (arr dim d) i; do x <- mrd (store n c a) n di j; mwr mem dim i j x) g) as (g' & E & H1 & H2).
  - split; [intros; lia|reflexivity].
  - intros i0 g0 Hi (A & B). exists (upd g0 (i0 + dim * j) (a (d i0) j)). split; [|split].
    + rewrite rd_arr by assumption. cbn [obind]. rewrite mrd_store by (assumption || now apply dn). cbn [obind].
      unfold mwr. rewrite wr_arr; [reflexivity|]. pose proof (cell_lt dim c i0 j Hi Hj). lia.
    + intros i Hi'. unfold upd. destruct (Nat.eqb_spec (i + dim * j) (i0 + dim * j)) as [E|E].
      * assert (i = i0) by lia. now subst.
      * apply A. lia.
    + intros q Hq. unfold upd. destruct (Nat.eqb_spec q (i0 + dim * j)) as [E|E]; [exfalso; now apply (Hq i0)|now apply B].
  - exists g'. auto.
Qed.
Lemma copy_all : forall a (g : nat -> R) msz, (dim * c <= msz)%nat ->
  exists g', for_ c (fun j mem => for_ dim (fun i mem => do di <- rd (arr dim d) i; do x <- mrd (store n c a) n di j; mwr mem dim i j x) mem) (arr msz g)
     = Some (arr msz g') /\ forall i j, (i < dim)%nat -> (j < c)%nat -> g' (i + dim * j)%nat = a (d i) j.
Proof.
  intros a g msz Hm.
  destruct (for_rep0 (arr msz) (fun j0 g' => forall i j, (i < dim)%nat -> (j < j0)%nat -> g' (i + dim * j)%nat = a (d i) j) c
     (fun j mem => for_ dim (fun i mem => do di <- rd (arr dim d) i; do x <- mrd (store n c a) n di j; mwr mem dim i j x) mem) g) as (g' & E & H).
  - intros; lia.
  - intros j0 g0 Hj A. destruct (copy_col a j0 g0 msz Hj Hm) as (g1 & E & H1 & H2). exists g1. split; [exact E|].
    intros i j Hi Hj'. destruct (Nat.eq_dec j j0) as [->|]; [now apply H1|]. rewrite H2; [apply A; [assumption|lia]|].
    intros i' Hi' C. destruct (cell_inj dim i j i' j0 Hi Hi' C). contradiction.
  - exists g'. auto.
Qed.

(* rotate the group rows of one column *)
Lemma rotate_col : forall a0 a (g : nat -> R) j msz, (j < c)%nat -> (dim * c <= msz)%nat ->
  (forall i j, (i < dim)%nat -> (j < c)%nat -> g (i + dim * j)%nat = a0 (d i) j) ->
  exists a', for_ dim (fun m A =>
      do s <- for_ dim (fun p s => do r <- mrd (arr msz g) dim p j; do v <- mrd (store dim dim v) dim m p; Some (s + r * v)) 0;
      do dm <- rd (arr dim d) m; mwr A n dm j s) (store n c a) = Some (store n c a') /\
    (forall m, (m < dim)%nat -> a' (d m) j = Rsum dim (fun p => a0 (d p) j * v m p)) /\
    (forall i q, (~ in_group dim d i \/ q <> j) -> a' i q = a i q).
Proof.
  intros a0 a g j msz Hj Hm Hgm.
  destruct (for_rep0 (store n c) (fun m0 a' => (forall m, (m < m0)%nat -> a' (d m) j = Rsum dim (fun p => a0 (d p) j * v m p)) /\
      (forall i q, (~ in_group dim d i \/ q <> j) -> a' i q = a i q)) dim
      (fun m A => do s <- for_ dim (fun p s => do r <- mrd (arr msz g) dim p j; do v <- mrd (store dim dim v) dim m p; Some (s + r * v)) 0;
      do dm <- rd (arr dim d) m; mwr A n dm j s) a) as (a' & E & H1 & H2).
  - split; [intros; lia|reflexivity].
  - intros m0 b Hm0 (A & B).
    rewrite (for_sum dim (fun p => a0 (d p) j * v m0 p)).
    2: { intros p s Hp. unfold mrd at 1. rewrite rd_arr by (pose proof (cell_lt dim c p j Hp Hj); lia). cbn [obind].
         rewrite mrd_store by assumption. cbn [obind]. now rewrite Hgm. }
    cbn [obind]. rewrite rd_arr by assumption. cbn [obind]. rewrite mwr_store by (assumption || now apply dn). rewrite Rplus_0_l.
    eexists. split; [reflexivity|]. unfold upd2. split.
    + intros m Hm'. rewrite Nat.eqb_refl, Bool.andb_true_r. destruct (Nat.eqb_spec (d m) (d m0)) as [E|E].
      * apply dinj in E; [now subst|lia|assumption].
      * apply A. destruct (Nat.eq_dec m m0); [congruence|lia].
    + intros i q Hq. destruct (Nat.eqb_spec i (d m0)) as [->|]; [|now apply B]. destruct (Nat.eqb_spec q j) as [->|]; [|now apply B]. cbn [andb].
      exfalso. destruct Hq as [Hq|Hq]; [apply Hq; now exists m0|now apply Hq].
  - exists a'. auto.
Qed.

Lemma reorth_matrix_ok : forall a (g : nat -> R) msz, (dim * Nat.max c n <= msz)%nat ->
  exists a' g', reorth_matrix n c dim (store n c a) (arr dim d) (store dim dim v) (arr msz g) = Some (store n c a', arr msz g') /\
    (forall m j, (m < dim)%nat -> (j < c)%nat -> a' (d m) j = Rsum dim (fun p => a (d p) j * v m p)) /\
    (forall i j, (j < c)%nat -> ~ in_group dim d i -> a' i j = a i j).
Proof.
  intros a g msz Hm. unfold reorth_matrix. rewrite arr_length, (proj2 (Nat.leb_le _ _) Hm). cbn [guard obind].
  assert (Hm' : (dim * c <= msz)%nat) by nia.
  destruct (copy_all a g msz Hm') as (g1 & E1 & H1). rewrite E1. cbn [obind].
  match goal with |- context [for_ c ?b (store n c a)] =>
    destruct (for_rep0 (store n c) (fun j0 a' => (forall m j, (m < dim)%nat -> (j < j0)%nat -> a' (d m) j = Rsum dim (fun p => a (d p) j * v m p)) /\
      (forall i j, (~ in_group dim d i \/ (j0 <= j)%nat) -> a' i j = a i j)) c b a) as (a' & E & H2 & H3) end.
  - split; [intros; lia|reflexivity].
  - intros j0 b Hj (A & B). destruct (rotate_col a b g1 j0 msz Hj Hm' H1) as (b' & E & K1 & K2). exists b'. split; [exact E|]. split.
    + intros m j Hm0 Hj'. destruct (Nat.eq_dec j j0) as [->|]; [now apply K1|]. rewrite K2 by now right. apply A; [assumption|lia].
    + intros i j Hij. rewrite K2 by (destruct Hij; [now left|right; lia]). apply B. destruct Hij; [now left|right; lia].
  - rewrite E. cbn [obind]. exists a', g1. split; [reflexivity|]. split; [exact H2|]. intros i j Hj Hn. apply H3. now left.
Qed.

Lemma reorth_rhs_ok : forall f (g : nat -> R) msz, (dim <= msz)%nat ->
  exists f' g', reorth_rhs dim (arr n f) (arr dim d) (store dim dim v) (arr msz g) = Some (arr n f', arr msz g') /\
    (forall m, (m < dim)%nat -> f' (d m) = Rsum dim (fun p => f (d p) * v m p)) /\
    (forall i, ~ in_group dim d i -> f' i = f i).
Proof.
  intros f g msz Hm. unfold reorth_rhs. rewrite arr_length, (proj2 (Nat.leb_le _ _) Hm). cbn [guard obind].
  match goal with |- context [for_ dim ?b (arr msz g)] =>
    destruct (for_rep0 (arr msz) (fun m0 g' => forall m, (m < m0)%nat -> g' m = f (d m)) dim b g) as (g1 & E1 & H1) end.
  - intros; lia.
  - intros m0 g0 Hm0 A. exists (upd g0 m0 (f (d m0))). split.
    + rewrite rd_arr by assumption. cbn [obind]. rewrite rd_arr by now apply dn. cbn [obind]. apply wr_arr. lia.
    + intros m Hm'. unfold upd. destruct (Nat.eqb_spec m m0); [congruence|]. apply A. lia.
  - rewrite E1. cbn [obind].
    match goal with |- context [for_ dim ?b (arr n f)] =>
      destruct (for_rep0 (arr n) (fun m0 f' => (forall m, (m < m0)%nat -> f' (d m) = Rsum dim (fun p => f (d p) * v m p)) /\
        (forall i, ~ in_group dim d i -> f' i = f i)) dim b f) as (f' & E & H2 & H3) end.
    + split; [intros; lia|reflexivity].
    + intros m0 b Hm0 (A & B). rewrite rd_arr by assumption. cbn [obind]. rewrite wr_arr by now apply dn. cbn [obind].
      match goal with |- context [for_ dim ?bd (arr n ?b0)] =>
        destruct (for_rep0 (arr n) (fun p0 f' => f' (d m0) = Rsum p0 (fun p => f (d p) * v m0 p) /\ forall i, i <> d m0 -> f' i = b i) dim bd b0) as (b' & E & K1 & K2) end.
      * unfold upd. split; [rewrite Nat.eqb_refl; reflexivity|]. intros i Hi. destruct (Nat.eqb_spec i (d m0)); [contradiction|reflexivity].
      * intros p0 b1 Hp (C & D). rewrite rd_arr by now apply dn. cbn [obind]. rewrite rd_arr by lia. cbn [obind]. rewrite mrd_store by assumption. cbn [obind].
        rewrite wr_arr by now apply dn. eexists. split; [reflexivity|]. unfold upd. split.
        -- rewrite Nat.eqb_refl, C, H1 by assumption. reflexivity.
        -- intros i Hi. destruct (Nat.eqb_spec i (d m0)); [contradiction|now apply D].
      * exists b'. split; [exact E|]. split.
        -- intros m Hm'. destruct (Nat.eq_dec m m0) as [->|]; [exact K1|]. rewrite K2 by (intros C; apply dinj in C; lia). apply A. lia.
        -- intros i Hi. rewrite K2 by (intros ->; apply Hi; now exists m0). now apply B.
    + rewrite E. cbn [obind]. exists f', g1. auto.
Qed.

(** *** One constrained direction *)
Lemma work_col : forall a (g : nat -> R) msz w, (w < dim)%nat -> (n + n <= msz)%nat ->
  exists g', for_ n (fun j mem =>
        do s <- for_ dim (fun p s => do dp <- rd (arr dim d) p; do a <- mrd (store n c a) n j dp; do v <- mrd (store dim dim v) dim w p; Some (s + a * v)) 0;
        mwr mem n j 1 s) (arr msz g) = Some (arr msz g') /\
    forall j, (j < n)%nat -> g' (j + n * 1)%nat = Rsum dim (fun p => a j (d p) * v w p).
Proof.
  intros a g msz w Hw Hm.
  match goal with |- context [for_ n ?b (arr msz g)] =>
    destruct (for_rep0 (arr msz) (fun j0 g' => forall j, (j < j0)%nat -> g' (j + n * 1)%nat = Rsum dim (fun p => a j (d p) * v w p)) n b g) as (g' & E & H) end.
  - intros; lia.
  - intros j0 g0 Hj A. rewrite (for_sum dim (fun p => a j0 (d p) * v w p)).
    2: { intros p s Hp. rewrite rd_arr by assumption. cbn [obind]. rewrite mrd_store by (assumption || now apply dc). cbn [obind]. now rewrite mrd_store. }
    cbn [obind]. unfold mwr. rewrite wr_arr by lia. eexists. split; [reflexivity|]. intros j Hj'. unfold upd. rewrite Rplus_0_l.
    destruct (Nat.eqb_spec (j + n * 1) (j0 + n * 1)); [now replace j with j0 by lia|]. apply A. lia.
  - exists g'. auto.
Qed.

Lemma subtract_cols : forall a (g : nat -> R) msz w, (w < dim)%nat -> (n + n <= msz)%nat ->
  exists a', for_ dim (fun l A => for_ n (fun j A =>
        do dl <- rd (arr dim d) l; do a <- mrd A n j dl; do s <- mrd (arr msz g) n j 1; do v <- mrd (store dim dim v) dim w l; mwr A n j dl (a - s * v)) A) (store n c a)
    = Some (store n c a') /\
    (forall j l, (j < n)%nat -> (l < dim)%nat -> a' j (d l) = a j (d l) - g (j + n * 1)%nat * v w l) /\
    (forall j q, (j < n)%nat -> ~ in_group dim d q -> a' j q = a j q).
Proof.
  intros a g msz w Hw Hm.
  match goal with |- context [for_ dim ?b (store n c a)] =>
    destruct (for_rep0 (store n c) (fun l0 a' => (forall j l, (j < n)%nat -> (l < l0)%nat -> a' j (d l) = a j (d l) - g (j + n * 1)%nat * v w l) /\
      (forall j q, (j < n)%nat -> (forall l, (l < l0)%nat -> q <> d l) -> a' j q = a j q)) dim b a) as (a' & E & H1 & H2) end.
  - split; [intros; lia|reflexivity].
  - intros l0 b Hl (A & B).
    match goal with |- context [for_ n ?bd (store n c b)] =>
      destruct (for_rep0 (store n c) (fun j0 a' => (forall j, (j < j0)%nat -> a' j (d l0) = b j (d l0) - g (j + n * 1)%nat * v w l0) /\
        (forall j q, (q <> d l0 \/ (j0 <= j)%nat) -> a' j q = b j q)) n bd b) as (b' & E & K1 & K2) end.
    + split; [intros; lia|reflexivity].
    + intros j0 b1 Hj (C & D). rewrite rd_arr by assumption. cbn [obind]. rewrite mrd_store by (assumption || now apply dc). cbn [obind].
      unfold mrd at 1. rewrite rd_arr by lia. cbn [obind]. rewrite mrd_store by assumption. cbn [obind]. rewrite mwr_store by (assumption || now apply dc).
      eexists. split; [reflexivity|]. unfold upd2. split.
      * intros j Hj'. rewrite Nat.eqb_refl, Bool.andb_true_r. destruct (Nat.eqb_spec j j0) as [->|]; [rewrite D by (right; lia); reflexivity|]. apply C. lia.
      * intros j q Hq. destruct (Nat.eqb_spec j j0) as [->|]; cbn [andb]; [|apply D; destruct Hq; [now left|right; lia]].
        destruct (Nat.eqb_spec q (d l0)); [destruct Hq; [contradiction|lia]|]. apply D. now left.
    + exists b'. split; [exact E|]. split.
      * intros j l Hj Hl'. destruct (Nat.eq_dec l l0) as [->|].
        -- rewrite K1 by assumption. rewrite B; [reflexivity|assumption|]. intros l' Hl0 C. apply dinj in C; lia.
        -- rewrite K2 by (left; intros C; apply dinj in C; lia). apply A; [assumption|lia].
      * intros j q Hj Hq. rewrite K2 by (left; apply Hq; lia). apply B; [assumption|]. intros l Hl'. apply Hq. lia.
  - exists a'. split; [exact E|]. split; [exact H1|]. intros j q Hj Hq. apply H2; [assumption|]. intros l Hl ->. apply Hq. now exists l.
Qed.

Lemma write_row : forall a dk w, (w < dim)%nat -> (dk < n)%nat ->
  exists a', (do A2 <- for_ c (fun j A => mwr A n dk j 0) (store n c a);
              for_ dim (fun m A => do dm <- rd (arr dim d) m; do v <- mrd (store dim dim v) dim w m; mwr A n dk dm v) A2) = Some (store n c a') /\
    (forall m, (m < dim)%nat -> a' dk (d m) = v w m) /\
    (forall q, (q < c)%nat -> ~ in_group dim d q -> a' dk q = 0) /\
    (forall i q, (i < n)%nat -> (q < c)%nat -> i <> dk -> a' i q = a i q).
Proof.
  intros a dk w Hw Hdk.
  destruct (for_rep0 (store n c) (fun q0 a' => forall i q, (i < n)%nat -> (q < c)%nat -> a' i q = if ((i =? dk) && (q <? q0))%bool%nat then 0 else a i q)
     c (fun j A => mwr A n dk j 0) a) as (a1 & E1 & H1).
  - intros i q _ _. now rewrite Bool.andb_false_r.
  - intros q0 b Hq Hb. exists (upd2 b dk q0 0). split; [now apply mwr_store|].
    intros i q Hi Hq'. unfold upd2. rewrite Hb by assumption. destruct (Nat.eqb_spec i dk); [|reflexivity]. cbn [andb].
    destruct (Nat.eqb_spec q q0), (Nat.ltb_spec q q0), (Nat.ltb_spec q (S q0)); try reflexivity; lia.
  - rewrite E1. cbn [obind].
    match goal with |- context [for_ dim ?b (store n c a1)] =>
      destruct (for_rep0 (store n c) (fun m0 a' => (forall m, (m < m0)%nat -> a' dk (d m) = v w m) /\
        (forall i q, (i <> dk \/ ~ in_group dim d q) -> a' i q = a1 i q)) dim b a1) as (a' & E & H2 & H3) end.
    + split; [intros; lia|reflexivity].
    + intros m0 b Hm (A & B). rewrite rd_arr by assumption. cbn [obind]. rewrite mrd_store by assumption. cbn [obind]. rewrite mwr_store by (assumption || now apply dc).
      eexists. split; [reflexivity|]. unfold upd2. split.
      * intros m Hm'. rewrite Nat.eqb_refl. cbn [andb]. destruct (Nat.eqb_spec (d m) (d m0)) as [C|C]; [apply dinj in C; [now subst|lia|assumption]|].
        apply A. destruct (Nat.eq_dec m m0); [congruence|lia].
      * intros i q Hiq. destruct (Nat.eqb_spec i dk); cbn [andb]; [|now apply B]. destruct (Nat.eqb_spec q (d m0)); [|now apply B].
        exfalso. destruct Hiq as [C|C]; [contradiction|]. apply C. now exists m0.
    + exists a'. split; [exact E|]. split; [exact H2|]. split.
      * intros q Hq Hn. rewrite H3 by now right. rewrite H1 by assumption. rewrite Nat.eqb_refl. cbn [andb]. destruct (Nat.ltb_spec q c); [reflexivity|lia].
      * intros i q Hi Hq Hne. rewrite H3 by now left. rewrite H1 by assumption. destruct (Nat.eqb_spec i dk); [contradiction|reflexivity].
Qed.

(** *** All directions *)
Variables (ndc : nat) (w : nat -> nat) (id : option (list nat)).
Hypothesis Hd : good_dirs dim v ndc w.
Hypothesis Hid : forall k, (k < ndc)%nat -> get_id id k = Some (w k).

Lemma wdim : forall k, (k < ndc)%nat -> (w k < dim)%nat. Proof. intros. now apply Hd. Qed.
Lemma wne : forall k k', (k < ndc)%nat -> (k' < ndc)%nat -> k <> k' -> d (w k) <> d (w k').
Proof. intros k k' Hk Hk' Hne C. apply dinj in C; [|now apply wdim|now apply wdim]. destruct (proj2 Hd k k' Hk Hk' Hne). contradiction. Qed.

Definition Sk (a : nat -> nat -> R) (k i : nat) : R := Rsum dim (fun p => a i (d p) * v (w k) p).

Definition mtx_inv (a1 : nat -> nat -> R) (k : nat) (a : nat -> nat -> R) : Prop :=
  (forall k' m, (k' < k)%nat -> (m < dim)%nat -> a (d (w k')) (d m) = v (w k') m) /\
  (forall k' q, (k' < k)%nat -> (q < c)%nat -> ~ in_group dim d q -> a (d (w k')) q = 0) /\
  (forall i, (i < n)%nat -> (forall k', (k' < k)%nat -> i <> d (w k')) ->
     (forall l, (l < dim)%nat -> a i (d l) = a1 i (d l) - Rsum k (fun k' => Sk a1 k' i * v (w k') l)) /\
     (forall q, (q < c)%nat -> ~ in_group dim d q -> a i q = a1 i q)).

Lemma set_dir_matrix_ok : forall a1 (g : nat -> R) msz, (n + n <= msz)%nat ->
  exists a g', set_dir_matrix n c dim (store n c a1) (arr dim d) (store dim dim v) (arr msz g) ndc id = Some (store n c a, arr msz g') /\ mtx_inv a1 ndc a.
Proof.
  intros a1 g msz Hm. unfold set_dir_matrix.
  match goal with |- context [for_ ndc ?b _] =>
    destruct (for_rep0 (fun s : (nat -> nat -> R) * (nat -> R) => (store n c (fst s), arr msz (snd s))) (fun k s => mtx_inv a1 k (fst s)) ndc b (a1, g)) as ((a & g') & E & H) end.
  - cbn [fst]. unfold mtx_inv. split; [intros; lia|]. split; [intros; lia|]. intros i Hi _. split; [|reflexivity]. intros l Hl. cbn. lra.
  - intros k [a g0] Hk (I1 & I2 & I3). cbn [fst snd] in *. rewrite Hid by assumption. cbn [obind]. pose proof (wdim k Hk) as Hw.
    destruct (work_col a g0 msz (w k) Hw Hm) as (g1 & E1 & H1). rewrite E1. cbn [obind].
    destruct (subtract_cols a g1 msz (w k) Hw Hm) as (a2 & E2 & H2 & H3). rewrite E2. cbn [obind].
    rewrite rd_arr by assumption. cbn [obind].
    destruct (write_row a2 (d (w k)) (w k) Hw (dn _ Hw)) as (a3 & E3 & H4 & H5 & H6).
    destruct (for_ c (fun j A => mwr A n (d (w k)) j 0) (store n c a2)) as [A2|]; [|discriminate E3]. cbn [obind] in E3 |- *. rewrite E3. cbn [obind].
    exists (a3, g1). split; [reflexivity|]. cbn [fst]. split; [|split].
    + intros k' m Hk' Hm'. destruct (Nat.eq_dec k' k) as [->|Hne]; [now apply H4|].
      rewrite H6 by (try apply dn; try apply dc; try apply wdim; try apply wne; lia || assumption).
      rewrite H2 by (try apply dn; try apply wdim; lia || assumption). rewrite H1 by (apply dn, wdim; lia).
      rewrite (Rsum_ext dim _ (fun p => v (w k') p * v (w k) p)).
      * destruct (proj2 Hd k' k ltac:(lia) Hk Hne) as [_ O]. unfold orthogonal in O. rewrite O, I1 by (lia || assumption). lra.
      * intros p Hp. now rewrite I1 by (lia || assumption).
    + intros k' q Hk' Hq Hn. destruct (Nat.eq_dec k' k) as [->|Hne]; [now apply H5|].
      rewrite H6 by (try apply dn; try apply wdim; try apply wne; lia || assumption). rewrite H3 by (try apply dn; try apply wdim; lia || assumption). apply I2; lia || assumption.
    + intros i Hi Hne. assert (Hne' : forall k', (k' < k)%nat -> i <> d (w k')) by (intros; apply Hne; lia).
      destruct (I3 i Hi Hne') as [J1 J2]. assert (Hik : i <> d (w k)) by (apply Hne; lia). split.
      * intros l Hl. rewrite H6 by (try apply dc; assumption). rewrite H2, H1, J1 by assumption. cbn [Rsum].
        enough (Rsum dim (fun p => a i (d p) * v (w k) p) = Sk a1 k i) as -> by lra.
        unfold Sk. rewrite (Rsum_ext dim _ (fun p => a1 i (d p) * v (w k) p - Rsum k (fun k' => Sk a1 k' i * (v (w k') p * v (w k) p)))).
        -- rewrite Rsum_minus, Rsum_swap. rewrite (Rsum_zero k); [lra|]. intros k' Hk'. rewrite Rsum_scal.
           destruct (proj2 Hd k' k ltac:(lia) Hk ltac:(lia)) as [_ O]. unfold orthogonal in O. rewrite O. lra.
        -- intros p Hp. rewrite J1 by assumption. rewrite Rmult_minus_distr_r, <- Rsum_scal_r. f_equal. apply Rsum_ext. intros; lra.
      * intros q Hq Hn. rewrite H6 by assumption. rewrite H3 by assumption. now apply J2.
  - exists a, g'. cbn [fst snd] in E, H. auto.
Qed.

Definition rhs_inv (a1 : nat -> nat -> R) (f1 b : nat -> R) (k : nat) (f : nat -> R) : Prop :=
  (forall k', (k' < k)%nat -> f (d (w k')) = b k' - Rsum k (fun k'' => if (k' <? k'')%nat then Sk a1 k'' (d (w k')) * b k'' else 0)) /\
  (forall i, (i < n)%nat -> (forall k', (k' < k)%nat -> i <> d (w k')) -> f i = f1 i - Rsum k (fun k' => Sk a1 k' i * b k')).

Lemma set_dir_rhs_ok : forall a1 f1 b,
  exists f, set_dir_rhs n dim (store n c a1) (arr n f1) (arr dim d) (store dim dim v) (arr ndc b) ndc id = Some (arr n f) /\ rhs_inv a1 f1 b ndc f.
Proof.
  intros a1 f1 b. unfold set_dir_rhs.
  match goal with |- context [for_ ndc ?bd _] => destruct (for_rep0 (arr n) (rhs_inv a1 f1 b) ndc bd f1) as (f & E & H) end.
  - split; [intros; lia|]. intros i Hi _. cbn. lra.
  - intros k f Hk (I1 & I2). rewrite Hid by assumption. cbn [obind]. rewrite rd_arr by assumption. cbn [obind]. pose proof (wdim k Hk) as Hw.
    match goal with |- context [for_ dim ?bd (arr n f)] =>
      destruct (for_rep0 (arr n) (fun m0 f' => forall j, (j < n)%nat -> f' j = f j - Rsum m0 (fun m => a1 j (d m) * v (w k) m) * b k) dim bd f) as (f2 & E2 & H2) end.
    + intros j _. cbn. lra.
    + intros m0 f3 Hm A. rewrite rd_arr by assumption. cbn [obind].
      match goal with |- context [for_ n ?bd (arr n f3)] =>
        destruct (for_rep0 (arr n) (fun j0 f' => forall j, (j < n)%nat -> f' j = if (j <? j0)%nat then f3 j - a1 j (d m0) * v (w k) m0 * b k else f3 j) n bd f3) as (f4 & E4 & H4) end.
      * reflexivity.
      * intros j0 f5 Hj B. rewrite rd_arr by assumption. cbn [obind]. rewrite mrd_store by (assumption || now apply dc). cbn [obind]. rewrite mrd_store by assumption. cbn [obind].
        rewrite wr_arr by assumption. eexists. split; [reflexivity|]. intros j Hj'. unfold upd. rewrite !B by assumption.
        destruct (Nat.eqb_spec j j0) as [->|]; destruct (Nat.ltb_spec j0 j0), (Nat.ltb_spec j0 (S j0)); try lia; try reflexivity;
          destruct (Nat.ltb_spec j j0), (Nat.ltb_spec j (S j0)); try lia; reflexivity.
      * exists f4. split; [exact E4|]. intros j Hj. rewrite H4 by assumption. destruct (Nat.ltb_spec j n); [|lia]. rewrite A by assumption. cbn [Rsum]. lra.
    + rewrite E2. cbn [obind]. rewrite rd_arr by assumption. cbn [obind]. rewrite wr_arr by now apply dn. eexists. split; [reflexivity|].
      assert (HS : forall j, (j < n)%nat -> f2 j = f j - Sk a1 k j * b k) by (intros; now apply H2). split.
      * intros k' Hk'. unfold upd. cbn [Rsum]. destruct (Nat.eqb_spec (d (w k')) (d (w k))) as [C|C].
        -- destruct (Nat.eq_dec k' k) as [->|Hne]; [|exfalso; revert C; apply wne; lia].
           destruct (Nat.ltb_spec k k); [lia|]. rewrite Rsum_zero; [lra|]. intros k'' Hk''. destruct (Nat.ltb_spec k k''); [lia|reflexivity].
        -- assert (k' <> k) by congruence. destruct (Nat.ltb_spec k' k); [|lia]. rewrite HS by (apply dn, wdim; lia). rewrite I1 by lia. lra.
      * intros i Hi Hne. unfold upd. destruct (Nat.eqb_spec i (d (w k))) as [->|]; [exfalso; apply (Hne k); [lia|reflexivity]|].
        rewrite HS by assumption. rewrite I2 by (try assumption; intros; apply Hne; lia). cbn [Rsum]. lra.
  - exists f. auto.
Qed.

(** *** Solutions *)
Lemma row_constrained : forall a1 a x k, mtx_inv a1 ndc a -> (k < ndc)%nat -> row_times c a (d (w k)) x = proj dim v d (w k) x.
Proof.
  intros a1 a x k (I1 & I2 & _) Hk. unfold row_times, proj. rewrite (group_sum c dim d _ dc dinj).
  rewrite (Rsum_zero c); [|intros q Hq; destruct (ingrp dim d q) eqn:E; [reflexivity|rewrite I2; [lra|assumption|assumption|now apply ingrp_false]]].
  rewrite Rplus_0_r. apply Rsum_ext. intros m Hm. now rewrite I1.
Qed.
Lemma row_free : forall a1 a x i, mtx_inv a1 ndc a -> (i < n)%nat -> (forall k, (k < ndc)%nat -> i <> d (w k)) ->
  row_times c a i x = row_times c a1 i x - Rsum ndc (fun k => Sk a1 k i * proj dim v d (w k) x).
Proof.
  intros a1 a x i (_ & _ & I3) Hi Hne. destruct (I3 i Hi Hne) as [J1 J2]. unfold row_times.
  rewrite (group_sum c dim d (fun j => a i j * x j) dc dinj), (group_sum c dim d (fun j => a1 i j * x j) dc dinj).
  rewrite (Rsum_ext c (fun q => if ingrp dim d q then 0 else a i q * x q) (fun q => if ingrp dim d q then 0 else a1 i q * x q)).
  2: { intros q Hq. destruct (ingrp dim d q) eqn:E; [reflexivity|]. rewrite J2; [reflexivity|assumption|now apply ingrp_false]. }
  rewrite (Rsum_ext dim (fun m => a i (d m) * x (d m)) (fun m => a1 i (d m) * x (d m) - Rsum ndc (fun k => Sk a1 k i * (v (w k) m * x (d m))))).
  2: { intros m Hm. rewrite J1 by assumption. rewrite Rmult_minus_distr_r, <- Rsum_scal_r. f_equal. apply Rsum_ext. intros; lra. }
  rewrite Rsum_minus, Rsum_swap. rewrite (Rsum_ext ndc (fun j => Rsum dim (fun i0 => Sk a1 j i * (v (w j) i0 * x (d i0)))) (fun k => Sk a1 k i * proj dim v d (w k) x)); [lra|].
  intros k Hk. now rewrite Rsum_scal.
Qed.

Lemma vector_solves : forall a f b a1 f1 a2 f2 x,
  (forall m j, (m < dim)%nat -> (j < c)%nat -> a1 (d m) j = Rsum dim (fun p => a (d p) j * v m p)) ->
  (forall i j, (j < c)%nat -> ~ in_group dim d i -> a1 i j = a i j) ->
  (forall m, (m < dim)%nat -> f1 (d m) = Rsum dim (fun p => f (d p) * v m p)) ->
  (forall i, ~ in_group dim d i -> f1 i = f i) ->
  mtx_inv a1 ndc a2 -> rhs_inv a1 f1 b ndc f2 ->
  (forall k, (k < ndc)%nat -> Rsum ndc (fun k' => if (k <? k')%nat then coupling dim v d w a k k' * b k' else 0) = 0) ->
  (solves n c a2 f2 x <-> vector_constrained n c dim a f x v d ndc w b).
Proof.
  intros a f b a1 f1 a2 f2 x A1 A2 F1 F2 HM (R1 & R2) Hc.
  assert (HS : forall k k', (k < ndc)%nat -> (k' < ndc)%nat -> Sk a1 k' (d (w k)) = coupling dim v d w a k k').
  { intros k k' Hk Hk'. unfold Sk, coupling. apply Rsum_ext. intros p Hp. rewrite A1 by (try apply wdim; try apply dc; assumption).
    rewrite <- Rsum_scal_r. apply Rsum_ext. intros r Hr. lra. }
  assert (R1' : forall k, (k < ndc)%nat -> f2 (d (w k)) = b k).
  { intros k Hk. rewrite R1 by assumption. rewrite (Rsum_ext ndc _ (fun k' => if (k <? k')%nat then coupling dim v d w a k k' * b k' else 0)); [rewrite Hc by assumption; lra|].
    intros k' Hk'. now rewrite HS. }
  assert (Hrow : forall m, (m < dim)%nat -> row_times c a1 (d m) x = Rsum dim (fun p => v m p * row_times c a (d p) x)).
  { intros m Hm. unfold row_times. rewrite (Rsum_ext c _ (fun j => Rsum dim (fun p => v m p * (a (d p) j * x j)))).
    - rewrite Rsum_swap. apply Rsum_ext. intros p Hp. now rewrite Rsum_scal.
    - intros j Hj. rewrite A1 by assumption. rewrite <- Rsum_scal_r. apply Rsum_ext. intros; lra. }
  assert (Hfree : (forall k, (k < ndc)%nat -> proj dim v d (w k) x = b k) -> forall i, (i < n)%nat -> (forall k, (k < ndc)%nat -> i <> d (w k)) ->
     (row_times c a2 i x = f2 i <-> row_times c a1 i x = f1 i)).
  { intros Hp i Hi Hne. rewrite (row_free a1 a2 x i HM Hi Hne), R2 by assumption.
    rewrite (Rsum_ext ndc (fun k => Sk a1 k i * proj dim v d (w k) x) (fun k => Sk a1 k i * b k)); [split; lra|]. intros k Hk. now rewrite Hp. }
  assert (Hdirs : forall m, (m < dim)%nat -> (row_times c a1 (d m) x = f1 (d m) <-> Rsum dim (fun p => v m p * (row_times c a (d p) x - f (d p))) = 0)).
  { intros m Hm. rewrite Hrow, F1 by assumption.
    rewrite (Rsum_ext dim (fun p => v m p * (row_times c a (d p) x - f (d p))) (fun p => v m p * row_times c a (d p) x - f (d p) * v m p)) by (intros; lra).
    rewrite Rsum_minus. split; lra. }
  split.
  - intros H. assert (Hp : forall k, (k < ndc)%nat -> proj dim v d (w k) x = b k).
    { intros k Hk. rewrite <- (row_constrained a1 a2 x k HM Hk), <- R1' by assumption. apply H. apply dn. now apply wdim. }
    split; [exact Hp|]. split.
    + intros i Hi Hn. assert (E : row_times c a1 i x = f1 i).
      { apply Hfree; [exact Hp|exact Hi| |now apply H]. intros k Hk ->. apply Hn. exists (w k). split; [now apply wdim|reflexivity]. }
      rewrite F2 in E by assumption. rewrite <- E. unfold row_times. apply Rsum_ext. intros j Hj. now rewrite A2.
    + intros m Hm Hne. apply Hdirs; [exact Hm|]. apply Hfree; [exact Hp|now apply dn| |apply H; now apply dn].
      intros k Hk C. apply dinj in C; [|assumption|now apply wdim]. now apply (Hne k).
  - intros (Hp & Ho & Hf) i Hi. destruct (in_group_dec dim d i) as [(m & Hm & ->)|Hn].
    + assert (Hdec : (exists k, (k < ndc)%nat /\ m = w k) \/ forall k, (k < ndc)%nat -> m <> w k).
      { clear. induction ndc as [|t IH]; [right; intros; lia|]. destruct IH as [(k & Hk & E)|H]; [left; exists k; split; [lia|exact E]|].
        destruct (Nat.eq_dec m (w t)) as [->|]; [left; exists t; split; [lia|reflexivity]|right]. intros k Hk. destruct (Nat.eq_dec k t); [now subst|]. apply H. lia. }
      destruct Hdec as [(k & Hk & ->)|Hne].
      * rewrite (row_constrained a1 a2 x k HM Hk), R1', Hp by assumption. reflexivity.
      * apply Hfree; [exact Hp|exact Hi| |apply Hdirs; [exact Hm|now apply Hf]]. intros k Hk C. apply dinj in C; [|assumption|now apply wdim]. now apply (Hne k).
    + apply Hfree; [exact Hp|exact Hi| |].
      * intros k Hk ->. apply Hn. exists (w k). split; [now apply wdim|reflexivity].
      * rewrite F2 by assumption. rewrite <- (Ho i Hi Hn). unfold row_times. apply Rsum_ext. intros j Hj. now rewrite A2.
Qed.

(** *** Extra columns and rows *)
Lemma ext_col_ok : forall B (g : nat -> R) msz nb, (forall m, (m < dim)%nat -> (d m < nb)%nat) -> (dim <= msz)%nat ->
  exists B', vector_dir_ext_col dim (arr nb B) (arr dim d) (store dim dim v) (arr msz g) ndc id = Some (arr nb B') /\
    (forall k, (k < ndc)%nat -> B' (d (w k)) = 0) /\
    (forall m, (m < dim)%nat -> (forall k, (k < ndc)%nat -> m <> w k) -> B' (d m) = Rsum dim (fun p => B (d p) * v m p)) /\
    (forall i, ~ in_group dim d i -> B' i = B i).
Proof.
  intros B g msz nb Hb Hm. unfold vector_dir_ext_col.
  match goal with |- context [for_ dim ?b (arr msz g)] =>
    destruct (for_rep0 (arr msz) (fun m0 g' => forall m, (m < m0)%nat -> g' m = B (d m)) dim b g) as (g1 & E1 & H1) end.
  - intros; lia.
  - intros m0 g0 Hm0 A. exists (upd g0 m0 (B (d m0))). split.
    + rewrite rd_arr by assumption. cbn [obind]. rewrite rd_arr by now apply Hb. cbn [obind]. apply wr_arr. lia.
    + intros m Hm'. unfold upd. destruct (Nat.eqb_spec m m0); [congruence|]. apply A. lia.
  - rewrite E1. cbn [obind].
    match goal with |- context [for_ dim ?b (arr nb B)] =>
      destruct (for_rep0 (arr nb) (fun m0 f' => (forall m, (m < m0)%nat -> f' (d m) = Rsum dim (fun p => B (d p) * v m p)) /\
        (forall i, ~ in_group dim d i -> f' i = B i)) dim b B) as (B1 & E & H2 & H3) end.
    + split; [intros; lia|reflexivity].
    + intros m0 b Hm0 (A & C). rewrite (for_sum dim (fun p => B (d p) * v m0 p)).
      2: { intros p s Hp. rewrite rd_arr by lia. cbn [obind]. rewrite mrd_store by assumption. cbn [obind]. now rewrite H1. }
      cbn [obind]. rewrite rd_arr by assumption. cbn [obind]. rewrite wr_arr by now apply Hb. rewrite Rplus_0_l. eexists. split; [reflexivity|]. unfold upd. split.
      * intros m Hm'. destruct (Nat.eqb_spec (d m) (d m0)) as [D|D]; [apply dinj in D; [now subst|lia|assumption]|]. apply A. destruct (Nat.eq_dec m m0); [congruence|lia].
      * intros i Hi. destruct (Nat.eqb_spec i (d m0)) as [->|]; [exfalso; apply Hi; now exists m0|now apply C].
    + rewrite E. cbn [obind].
      match goal with |- context [for_ ndc ?b (arr nb B1)] =>
        destruct (for_rep0 (arr nb) (fun k0 f' => (forall k, (k < k0)%nat -> f' (d (w k)) = 0) /\
          (forall i, (forall k, (k < ndc)%nat -> i <> d (w k)) -> f' i = B1 i)) ndc b B1) as (B2 & E2 & H4 & H5) end.
      * split; [intros; lia|reflexivity].
      * intros k0 b Hk (A & C). rewrite Hid by assumption. cbn [obind]. rewrite rd_arr by now apply wdim. cbn [obind]. rewrite wr_arr by (apply Hb; now apply wdim).
        eexists. split; [reflexivity|]. unfold upd. split.
        -- intros k Hk'. destruct (Nat.eqb_spec (d (w k)) (d (w k0))); [reflexivity|]. apply A. destruct (Nat.eq_dec k k0); [congruence|lia].
        -- intros i Hi. destruct (Nat.eqb_spec i (d (w k0))) as [->|]; [exfalso; now apply (Hi k0)|now apply C].
      * exists B2. split; [exact E2|]. split; [exact H4|]. split.
        -- intros m Hm' Hne. rewrite H5; [now apply H2|]. intros k Hk D. apply dinj in D; [|assumption|now apply wdim]. now apply (Hne k).
        -- intros i Hi. rewrite H5; [now apply H3|]. intros k Hk ->. apply Hi. exists (w k). split; [now apply wdim|reflexivity].
Qed.

Lemma ext_row_ok : forall C nb, (forall m, (m < dim)%nat -> (d m < nb)%nat) ->
  exists C', vector_dir_ext_row dim (arr nb C) (arr dim d) (store dim dim v) ndc id = Some (arr nb C') /\
    (forall l, (l < dim)%nat -> C' (d l) = C (d l) - Rsum ndc (fun k => Rsum dim (fun p => C (d p) * v (w k) p) * v (w k) l)) /\
    (forall i, ~ in_group dim d i -> C' i = C i).
Proof.
  intros C nb Hb. unfold vector_dir_ext_row.
  match goal with |- context [for_ ndc ?b (arr nb C)] =>
    destruct (for_rep0 (arr nb) (fun k0 f' => (forall l, (l < dim)%nat -> f' (d l) = C (d l) - Rsum k0 (fun k => Rsum dim (fun p => C (d p) * v (w k) p) * v (w k) l)) /\
      (forall i, ~ in_group dim d i -> f' i = C i)) ndc b C) as (C' & E & H1 & H2) end.
  - split; [intros; cbn; lra|reflexivity].
  - intros k0 f Hk (A & B). rewrite Hid by assumption. cbn [obind]. pose proof (wdim k0 Hk) as Hw.
    rewrite (for_sum dim (fun p => f (d p) * v (w k0) p)).
    2: { intros p s Hp. rewrite rd_arr by assumption. cbn [obind]. rewrite rd_arr by now apply Hb. cbn [obind]. now rewrite mrd_store. }
    cbn [obind]. rewrite Rplus_0_l.
    assert (HS : Rsum dim (fun p => f (d p) * v (w k0) p) = Rsum dim (fun p => C (d p) * v (w k0) p)).
    { rewrite (Rsum_ext dim _ (fun p => C (d p) * v (w k0) p - Rsum k0 (fun k => Rsum dim (fun p => C (d p) * v (w k) p) * (v (w k) p * v (w k0) p)))).
      - rewrite Rsum_minus, Rsum_swap. rewrite (Rsum_zero k0); [lra|]. intros k' Hk'. rewrite Rsum_scal.
        destruct (proj2 Hd k' k0 ltac:(lia) Hk ltac:(lia)) as [_ O]. unfold orthogonal in O. rewrite O. lra.
      - intros p Hp. rewrite A by assumption. rewrite Rmult_minus_distr_r, <- Rsum_scal_r. f_equal. apply Rsum_ext. intros; lra. }
    rewrite HS. set (s := Rsum dim (fun p => C (d p) * v (w k0) p)).
    match goal with |- context [for_ dim ?b (arr nb f)] =>
      destruct (for_rep0 (arr nb) (fun l0 f' => (forall l, (l < l0)%nat -> f' (d l) = f (d l) - s * v (w k0) l) /\
        (forall i, (forall l, (l < l0)%nat -> i <> d l) -> f' i = f i)) dim b f) as (f' & E & K1 & K2) end.
    + split; [intros; lia|reflexivity].
    + intros l0 f1 Hl (D & F). rewrite rd_arr by assumption. cbn [obind]. rewrite rd_arr by now apply Hb. cbn [obind]. rewrite mrd_store by assumption. cbn [obind].
      rewrite wr_arr by now apply Hb. eexists. split; [reflexivity|]. unfold upd. split.
      * intros l Hl'. destruct (Nat.eqb_spec (d l) (d l0)) as [G|G].
        -- apply dinj in G; [|lia|assumption]. subst. rewrite F; [reflexivity|]. intros l Hl0 G. apply dinj in G; lia.
        -- apply D. destruct (Nat.eq_dec l l0); [congruence|lia].
      * intros i Hi. destruct (Nat.eqb_spec i (d l0)) as [->|]; [exfalso; apply (Hi l0); [lia|reflexivity]|]. apply F. intros l Hl'. apply Hi. lia.
    + exists f'. split; [exact E|]. split.
      * intros l Hl. rewrite K1, A by assumption. cbn [Rsum]. fold s. lra.
      * intros i Hi. rewrite K2; [now apply B|]. intros l Hl ->. apply Hi. now exists l.
  - exists C'. auto.
Qed.

Lemma residual_ok : forall f (g : nat -> R) msz, (dim <= msz)%nat ->
  exists f', vector_dir_residual dim (arr n f) (arr dim d) (store dim dim v) (arr msz g) ndc id = Some (arr n f') /\
    (forall k, (k < ndc)%nat -> f' (d (w k)) = 0) /\
    (forall m, (m < dim)%nat -> (forall k, (k < ndc)%nat -> m <> w k) -> f' (d m) = Rsum dim (fun p => f (d p) * v m p)) /\
    (forall i, ~ in_group dim d i -> f' i = f i).
Proof.
  intros f g msz Hm. unfold vector_dir_residual. destruct (reorth_rhs_ok f g msz Hm) as (f1 & g1 & E1 & H1 & H2). rewrite E1. cbn [obind fst].
  unfold set_dir_residual.
  match goal with |- context [for_ ndc ?b (arr n f1)] =>
    destruct (for_rep0 (arr n) (fun k0 f' => (forall k, (k < k0)%nat -> f' (d (w k)) = 0) /\
      (forall i, (forall k, (k < ndc)%nat -> i <> d (w k)) -> f' i = f1 i)) ndc b f1) as (B2 & E2 & H4 & H5) end.
  * split; [intros; lia|reflexivity].
  * intros k0 b Hk (A & C). rewrite Hid by assumption. cbn [obind]. rewrite rd_arr by now apply wdim. cbn [obind]. rewrite wr_arr by (apply dn; now apply wdim).
    eexists. split; [reflexivity|]. unfold upd. split.
    -- intros k Hk'. destruct (Nat.eqb_spec (d (w k)) (d (w k0))); [reflexivity|]. apply A. destruct (Nat.eq_dec k k0); [congruence|lia].
    -- intros i Hi. destruct (Nat.eqb_spec i (d (w k0))) as [->|]; [exfalso; now apply (Hi k0)|now apply C].
  * exists B2. split; [exact E2|]. split; [exact H4|]. split.
    -- intros m Hm' Hne. rewrite H5; [now apply H1|]. intros k Hk D. apply dinj in D; [|assumption|now apply wdim]. now apply (Hne k).
    -- intros i Hi. rewrite H5; [now apply H2|]. intros k Hk ->. apply Hi. exists (w k). split; [now apply wdim|reflexivity].
Qed.
End Group.
