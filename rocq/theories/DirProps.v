(** C09-C11: imposing Dirichlet values. Every array of n*c reals is [store n c a]
    for some a (list_store), every array of n reals is [arr n f] (list_arr). *)
From Coq Require Import Permutation.
From Verif Require Import RSum DirModel DirSpec DirProofs DirProofs2.
Local Open Scope R_scope.

(** * C09 *)
Theorem C09_solutions : forall n c a f k bc, (k < n)%nat -> (k < c)%nat ->
  exists a' f', apply_dir n c (store n c a) (arr n f) k bc = Some (store n c a', arr n f') /\
    forall x, solves n c a' f' x <-> constrained n c a f x k bc.
Proof. intros. exists (dir_a a k), (dir_f a f k bc). split; [now apply apply_dir_ok|]. intros. now apply solves_dir. Qed.
Print Assumptions C09_solutions.
Theorem C09_entries : forall n c a f k bc A' F', (k < n)%nat -> (k < c)%nat ->
  apply_dir n c (store n c a) (arr n f) k bc = Some (A', F') ->
  length A' = (n * c)%nat /\ length F' = n /\
  (forall j, (j < c)%nat -> mrd A' n k j = Some (if (j =? k)%nat then 1 else 0)) /\
  (forall i, (i < n)%nat -> mrd A' n i k = Some (if (i =? k)%nat then 1 else 0)) /\
  (forall i j, (i < n)%nat -> (j < c)%nat -> i <> k -> j <> k -> mrd A' n i j = Some (a i j)) /\
  rd F' k = Some bc /\
  (forall i, (i < n)%nat -> i <> k -> rd F' i = Some (f i - a i k * bc)).
Proof.
  intros n c a f k bc A' F' Hn Hc E. rewrite apply_dir_ok in E by assumption. injection E as <- <-.
  rewrite store_length, arr_length. split; [reflexivity|]. split; [reflexivity|].
  split; [|split; [|split; [|split]]].
  - intros j Hj. rewrite mrd_store by assumption. unfold dir_a, eye. rewrite Nat.eqb_refl. cbn [orb]. now rewrite Nat.eqb_sym.
  - intros i Hi. rewrite mrd_store by assumption. unfold dir_a, eye. rewrite Nat.eqb_refl, Bool.orb_true_r. reflexivity.
  - intros i j Hi Hj Hik Hjk. rewrite mrd_store by assumption. unfold dir_a. destruct (Nat.eqb_spec i k); [contradiction|]. destruct (Nat.eqb_spec j k); [contradiction|reflexivity].
  - rewrite rd_arr by assumption. unfold dir_f. now rewrite Nat.eqb_refl.
  - intros i Hi Hik. rewrite rd_arr by assumption. unfold dir_f. destruct (Nat.eqb_spec i k); [contradiction|reflexivity].
Qed.
Print Assumptions C09_entries.
Theorem C09_symmetric : forall n a f k bc A' F', (k < n)%nat -> (forall i j, (i < n)%nat -> (j < n)%nat -> a i j = a j i) ->
  apply_dir n n (store n n a) (arr n f) k bc = Some (A', F') ->
  forall i j, (i < n)%nat -> (j < n)%nat -> mrd A' n i j = mrd A' n j i.
Proof.
  intros n a f k bc A' F' Hk Hs E i j Hi Hj. rewrite apply_dir_ok in E by assumption. injection E as <- <-.
  rewrite !mrd_store by assumption. unfold dir_a, eye. rewrite (Nat.eqb_sym i j), (Bool.orb_comm (i =? k)%nat), Hs by assumption. reflexivity.
Qed.
Print Assumptions C09_symmetric.
(** The matrix-only and the residual calls. *)
Theorem C09_matrix : forall n c a f k bc A' F', (k < n)%nat -> (k < c)%nat ->
  apply_dir n c (store n c a) (arr n f) k bc = Some (A', F') -> dir_matrix n c (store n c a) k = Some A'.
Proof. intros n c a f k bc A' F' Hn Hc E. rewrite apply_dir_ok in E by assumption. injection E as <- <-. now apply dir_matrix_ok. Qed.
Print Assumptions C09_matrix.
Theorem C09_residual : forall n f k, (k < n)%nat ->
  exists F', dir_residual (arr n f) k = Some F' /\ length F' = n /\ forall i, (i < n)%nat -> rd F' i = Some (if (i =? k)%nat then 0 else f i).
Proof.
  intros n f k Hk. exists (arr n (upd f k 0)). split; [now apply wr_arr|]. split; [apply arr_length|]. intros i Hi. now rewrite rd_arr.
Qed.
Print Assumptions C09_residual.
(** A dof that does not exist is cut out: its row, column and right-hand side vanish. *)
Theorem C09_non_exists : forall n c a f k, (k < n)%nat -> (k < c)%nat ->
  exists A' F', dir_non_exists_rhs n c (store n c a) (arr n f) k = Some (A', F') /\ dir_non_exists n c (store n c a) k = Some A' /\
    (forall i j, (i < n)%nat -> (j < c)%nat -> mrd A' n i j = Some (if ((i =? k) || (j =? k))%bool%nat then 0 else a i j)) /\
    (forall i, (i < n)%nat -> rd F' i = Some (if (i =? k)%nat then 0 else f i)).
Proof.
  intros n c a f k Hn Hc. unfold dir_non_exists_rhs. rewrite non_exists_ok by assumption. cbn [obind]. rewrite wr_arr by assumption. cbn [obind].
  eexists. eexists. split; [reflexivity|]. split; [reflexivity|]. split; [intros; now rewrite mrd_store|intros; now rewrite rd_arr].
Qed.
Print Assumptions C09_non_exists.
(** Calls with k outside the matrix are not defined. *)
Example C09_case : apply_dir 2 2 [2; -1; -1; 2] [5; 7] 0 3 = Some ([1; 0; 0; 2], [3; 7 - -1 * 3]).
Proof. reflexivity. Qed.
Example C09_outside : dir_residual [5; 7] 2 = None.
Proof. reflexivity. Qed.

(** * C10 *)
Theorem C10_order : forall n c a f l l', NoDup (map fst l) -> (forall k, In k (map fst l) -> (k < n)%nat /\ (k < c)%nat) ->
  Permutation l l' -> dir_all n c l (store n c a, arr n f) = dir_all n c l' (store n c a, arr n f).
Proof. exact dir_all_perm. Qed.
Print Assumptions C10_order.
Theorem C10_again : forall n c a f l k b, NoDup (map fst l) -> (forall k, In k (map fst l) -> (k < n)%nat /\ (k < c)%nat) ->
  In (k, b) l -> dir_all n c (l ++ [(k, b)]) (store n c a, arr n f) = dir_all n c l (store n c a, arr n f).
Proof. exact dir_all_again. Qed.
Print Assumptions C10_again.
Theorem C10_solutions : forall n c a f l, NoDup (map fst l) -> (forall k, In k (map fst l) -> (k < n)%nat /\ (k < c)%nat) ->
  exists a' f', dir_all n c l (store n c a, arr n f) = Some (store n c a', arr n f') /\
    forall x, solves n c a' f' x <-> constrained_all n c a f x l.
Proof. intros n c a f l Hn Hk. exists (all_a a l), (all_f a f l). split; [now apply dir_all_ok|]. intros x. now apply solves_dir_all. Qed.
Print Assumptions C10_solutions.
Example C10_case : dir_all 3 3 [(0%nat, 4); (2%nat, 5)] ([2; 1; 0; 1; 2; 1; 0; 1; 2], [0; 0; 0])
  = Some ([1; 0; 0; 0; 2; 0; 0; 0; 1], [4 - 0 * 5; 0 - 1 * 4 - 1 * 5; 5]).
Proof. reflexivity. Qed.

(** * C11 *)
Section C11.
Variables (n c dim ndc msz : nat) (d w : nat -> nat) (v : nat -> nat -> R) (id : option (list nat)) (g : nat -> R).
Hypothesis Hg : good_group n c dim d.
Hypothesis Hd : good_dirs dim v ndc w.
Hypothesis Hid : forall k, (k < ndc)%nat -> get_id id k = Some (w k).
Hypothesis Hm : (dim * Nat.max c n <= msz)%nat.
Hypothesis Hm2 : (n + n <= msz)%nat.

(** The full statement is: for every prescribed values b the solutions are exactly
    [vector_constrained]. Proved when the constrained directions are not coupled
    through the matrix by nonzero values (see the corollaries and the refutation). *)
Theorem C11_solutions_partial : forall a f b,
  (forall k, (k < ndc)%nat -> Rsum ndc (fun k' => if (k <? k')%nat then coupling dim v d w a k k' * b k' else 0) = 0) ->
  exists a' f', vector_dir n c dim (store n c a) (arr n f) (arr dim d) (store dim dim v) (arr ndc b) (arr msz g) ndc id
      = Some (store n c a', arr n f') /\
    forall x, solves n c a' f' x <-> vector_constrained n c dim a f x v d ndc w b.
Proof.
  intros a f b Hc. unfold vector_dir. destruct (reorth_matrix_ok n c dim d v Hg a g msz Hm) as (a1 & g1 & E1 & A1 & A2). rewrite E1. cbn [obind fst snd].
  assert (Hdm : (dim <= msz)%nat) by (destruct (Nat.eq_dec dim 0); [lia|]; pose proof (proj1 Hg 0%nat ltac:(lia)); nia).
  destruct (reorth_rhs_ok n c dim d v Hg f g1 msz Hdm) as (f1 & g2 & E2 & F1 & F2). rewrite E2. cbn [obind fst snd].
  destruct (set_dir_rhs_ok n c dim d v Hg ndc w id Hd Hid a1 f1 b) as (f2 & E3 & HR). rewrite E3. cbn [obind].
  destruct (set_dir_matrix_ok n c dim d v Hg ndc w id Hd Hid a1 g2 msz Hm2) as (a2 & g3 & E4 & HM). rewrite E4. cbn [obind fst].
  exists a2, f2. split; [reflexivity|]. intros x. exact (vector_solves n c dim d v Hg ndc w Hd a f b a1 f1 a2 f2 x A1 A2 F1 F2 HM HR Hc).
Qed.

(** One direction, any value. *)
Theorem C11_one_direction : forall a f b, ndc = 1%nat ->
  exists a' f', vector_dir n c dim (store n c a) (arr n f) (arr dim d) (store dim dim v) (arr ndc b) (arr msz g) ndc id
      = Some (store n c a', arr n f') /\
    forall x, solves n c a' f' x <-> vector_constrained n c dim a f x v d ndc w b.
Proof. intros a f b H1. apply C11_solutions_partial. intros k Hk. rewrite H1. cbn. destruct (Nat.ltb_spec k 0); lra || lia. Qed.

(** Any number of directions with zero prescribed values (slip walls, fixed points). *)
Theorem C11_homogeneous : forall a f b, (forall k, (k < ndc)%nat -> b k = 0) ->
  exists a' f', vector_dir n c dim (store n c a) (arr n f) (arr dim d) (store dim dim v) (arr ndc b) (arr msz g) ndc id
      = Some (store n c a', arr n f') /\
    forall x, solves n c a' f' x <-> vector_constrained n c dim a f x v d ndc w b.
Proof.
  intros a f b Hb. apply C11_solutions_partial. intros k Hk. apply Rsum_zero. intros k' Hk'. rewrite Hb by assumption. destruct (k <? k')%nat; lra.
Qed.

(** What the code computes for the right-hand side in every case. *)
Theorem C11_rhs : forall a f b,
  exists a' f', vector_dir n c dim (store n c a) (arr n f) (arr dim d) (store dim dim v) (arr ndc b) (arr msz g) ndc id
      = Some (store n c a', arr n f') /\
    forall k, (k < ndc)%nat -> f' (d (w k)) = b k - Rsum ndc (fun k' => if (k <? k')%nat then coupling dim v d w a k k' * b k' else 0).
Proof.
  intros a f b. unfold vector_dir. destruct (reorth_matrix_ok n c dim d v Hg a g msz Hm) as (a1 & g1 & E1 & A1 & A2). rewrite E1. cbn [obind fst snd].
  assert (Hdm : (dim <= msz)%nat) by (destruct (Nat.eq_dec dim 0); [lia|]; pose proof (proj1 Hg 0%nat ltac:(lia)); nia).
  destruct (reorth_rhs_ok n c dim d v Hg f g1 msz Hdm) as (f1 & g2 & E2 & F1 & F2). rewrite E2. cbn [obind fst snd].
  destruct (set_dir_rhs_ok n c dim d v Hg ndc w id Hd Hid a1 f1 b) as (f2 & E3 & HR). rewrite E3. cbn [obind].
  destruct (set_dir_matrix_ok n c dim d v Hg ndc w id Hd Hid a1 g2 msz Hm2) as (a2 & g3 & E4 & HM). rewrite E4. cbn [obind fst].
  exists a2, f2. split; [reflexivity|]. intros k Hk. rewrite (proj1 HR k Hk). f_equal. apply Rsum_ext. intros k' Hk'. destruct (k <? k')%nat; [|reflexivity]. f_equal.
  unfold Sk, coupling. apply Rsum_ext. intros p Hp. rewrite A1 by (try apply (proj1 Hd); try apply (proj1 Hg); assumption).
  rewrite <- Rsum_scal_r. apply Rsum_ext. intros r Hr. lra.
Qed.

(** The matrix-only call, with any number of directions: constrained rows read off
    the projections; on vectors with vanishing projections the other rows act as
    the original matrix, the group rows being rotated to the directions. *)
Theorem C11_matrix : forall a,
  exists a', vector_dir_matrix n c dim (store n c a) (arr dim d) (store dim dim v) (arr msz g) ndc id = Some (store n c a') /\
    (forall k x, (k < ndc)%nat -> row_times c a' (d (w k)) x = proj dim v d (w k) x) /\
    (forall x, (forall k, (k < ndc)%nat -> proj dim v d (w k) x = 0) ->
       (forall i, (i < n)%nat -> ~ in_group dim d i -> row_times c a' i x = row_times c a i x) /\
       (forall m, (m < dim)%nat -> (forall k, (k < ndc)%nat -> m <> w k) ->
          row_times c a' (d m) x = Rsum dim (fun p => v m p * row_times c a (d p) x))).
Proof.
  intros a. unfold vector_dir_matrix. destruct (reorth_matrix_ok n c dim d v Hg a g msz Hm) as (a1 & g1 & E1 & A1 & A2). rewrite E1. cbn [obind fst snd].
  destruct (set_dir_matrix_ok n c dim d v Hg ndc w id Hd Hid a1 g1 msz Hm2) as (a2 & g3 & E4 & HM). rewrite E4. cbn [obind fst].
  exists a2. split; [reflexivity|]. split; [intros; now apply (row_constrained n c dim d v Hg ndc w a1)|].
  intros x Hx.
  assert (Hrow : forall i, (i < n)%nat -> (forall k, (k < ndc)%nat -> i <> d (w k)) -> row_times c a2 i x = row_times c a1 i x).
  { intros i Hi Hne. rewrite (row_free n c dim d v Hg ndc w a1 a2 x i HM Hi Hne). rewrite Rsum_zero; [lra|]. intros k Hk. rewrite Hx by assumption. lra. }
  split.
  - intros i Hi Hn. rewrite Hrow; [|assumption|intros k Hk ->; apply Hn; exists (w k); split; [now apply (proj1 Hd)|reflexivity]].
    unfold row_times. apply Rsum_ext. intros j Hj. now rewrite A2.
  - intros m Hmd Hne. rewrite Hrow; [|now apply (proj1 Hg)|intros k Hk C; apply (proj2 Hg) in C; [now apply (Hne k)|assumption|now apply (proj1 Hd)]].
    unfold row_times. rewrite (Rsum_ext c _ (fun j => Rsum dim (fun p => v m p * (a (d p) j * x j)))).
    + rewrite Rsum_swap. apply Rsum_ext. intros p Hp. now rewrite Rsum_scal.
    + intros j Hj. rewrite A1 by assumption. rewrite <- Rsum_scal_r. apply Rsum_ext. intros; lra.
Qed.

(** An extra column (a second right-hand side): constrained entries vanish, the free
    entries of the group are rotated, the others are kept. *)
Theorem C11_extra_column : forall B,
  exists B', vector_dir_ext_col dim (arr n B) (arr dim d) (store dim dim v) (arr msz g) ndc id = Some (arr n B') /\
    (forall k, (k < ndc)%nat -> B' (d (w k)) = 0) /\
    (forall m, (m < dim)%nat -> (forall k, (k < ndc)%nat -> m <> w k) -> B' (d m) = Rsum dim (fun p => B (d p) * v m p)) /\
    (forall i, ~ in_group dim d i -> B' i = B i).
Proof.
  intros B. apply (ext_col_ok n c dim d v Hg ndc w id Hd Hid); [intros; now apply (proj1 Hg)|].
  destruct (Nat.eq_dec dim 0); [lia|]; pose proof (proj1 Hg 0%nat ltac:(lia)); nia.
Qed.
(** An extra row (coupling to other equations): unchanged on vectors with vanishing
    projections, and blind to every constrained direction of length one. *)
Theorem C11_extra_row : forall C,
  exists C', vector_dir_ext_row dim (arr c C) (arr dim d) (store dim dim v) ndc id = Some (arr c C') /\
    (forall x, (forall k, (k < ndc)%nat -> proj dim v d (w k) x = 0) -> Rsum c (fun j => C' j * x j) = Rsum c (fun j => C j * x j)) /\
    (forall k, (k < ndc)%nat -> Rsum dim (fun p => v (w k) p * v (w k) p) = 1 -> Rsum dim (fun l => C' (d l) * v (w k) l) = 0).
Proof.
  intros C. destruct (ext_row_ok n c dim d v Hg ndc w id Hd Hid C c) as (C' & E & H1 & H2); [intros; now apply (proj1 Hg)|].
  exists C'. split; [exact E|]. split.
  - intros x Hx. rewrite (group_sum c dim d (fun j => C' j * x j) (dc n c dim d Hg) (dinj n c dim d Hg)), (group_sum c dim d (fun j => C j * x j) (dc n c dim d Hg) (dinj n c dim d Hg)).
    f_equal.
    + rewrite (Rsum_ext dim (fun m => C' (d m) * x (d m)) (fun m => C (d m) * x (d m) - Rsum ndc (fun k => Rsum dim (fun p => C (d p) * v (w k) p) * (v (w k) m * x (d m))))).
      * rewrite Rsum_minus, Rsum_swap. rewrite (Rsum_zero ndc); [lra|]. intros k Hk. rewrite Rsum_scal. fold (proj dim v d (w k) x). rewrite Hx by assumption. lra.
      * intros m Hmd. rewrite H1 by assumption. rewrite Rmult_minus_distr_r, <- Rsum_scal_r. f_equal. apply Rsum_ext. intros; lra.
    + apply Rsum_ext. intros q Hq. destruct (ingrp dim d q) eqn:Eq; [reflexivity|]. rewrite H2; [reflexivity|now apply ingrp_false].
  - intros k Hk Hn1. rewrite (Rsum_ext dim _ (fun l => C (d l) * v (w k) l - Rsum ndc (fun k' => Rsum dim (fun p => C (d p) * v (w k') p) * (v (w k') l * v (w k) l)))).
    + rewrite Rsum_minus, Rsum_swap. rewrite (Rsum_single ndc k _ Hk).
      * rewrite Rsum_scal, Hn1. lra.
      * intros k' Hk' Hne. rewrite Rsum_scal. destruct (proj2 Hd k' k Hk' Hk Hne) as [_ O]. unfold orthogonal in O. rewrite O. lra.
    + intros l Hl. rewrite H1 by assumption. rewrite Rmult_minus_distr_r, <- Rsum_scal_r. f_equal. apply Rsum_ext. intros; lra.
Qed.
Theorem C11_residual : forall f,
  exists f', vector_dir_residual dim (arr n f) (arr dim d) (store dim dim v) (arr msz g) ndc id = Some (arr n f') /\
    (forall k, (k < ndc)%nat -> f' (d (w k)) = 0) /\
    (forall m, (m < dim)%nat -> (forall k, (k < ndc)%nat -> m <> w k) -> f' (d m) = Rsum dim (fun p => f (d p) * v m p)) /\
    (forall i, ~ in_group dim d i -> f' i = f i).
Proof.
  intros f. apply (residual_ok n c dim d v Hg ndc w id Hd Hid).
  destruct (Nat.eq_dec dim 0); [lia|]; pose proof (proj1 Hg 0%nat ltac:(lia)); nia.
Qed.
End C11.
Print Assumptions C11_solutions_partial.
Print Assumptions C11_one_direction.
Print Assumptions C11_homogeneous.
Print Assumptions C11_rhs.
Print Assumptions C11_matrix.
Print Assumptions C11_extra_column.
Print Assumptions C11_extra_row.
Print Assumptions C11_residual.

(* the identity directions on the group {0,1} of a 2 x 2 system *)
Lemma two_group : good_group 2 2 2 (fun m => m).
Proof. split; [intros; lia|intros; assumption]. Qed.
Lemma two_dirs : good_dirs 2 eye 2 (fun k => k).
Proof.
  split; [intros; assumption|]. intros k k' Hk Hk' Hne. split; [exact Hne|]. unfold orthogonal, eye. cbn.
  destruct k as [|[|]], k' as [|[|]]; try lia; cbn; lra.
Qed.
(** Two prescribed values coupled by the matrix: the first one is lost. The unique
    solution of the transformed system does not satisfy the first condition. *)
Theorem C11_two_directions_refuted : exists n c dim ndc a f d v b g msz a' f',
  good_group n c dim d /\ good_dirs dim v ndc (fun k => k) /\ (forall k, (k < ndc)%nat -> Rsum dim (fun p => v k p * v k p) = 1) /\
  (dim * Nat.max c n <= msz)%nat /\
  vector_dir n c dim (store n c a) (arr n f) (arr dim d) (store dim dim v) (arr ndc b) (arr msz g) ndc None = Some (store n c a', arr n f') /\
  exists k, (k < ndc)%nat /\ forall x, solves n c a' f' x -> proj dim v d k x <> b k.
Proof.
  set (a := fun _ _ : nat => 1). set (b := fun k : nat => INR k).
  assert (Hid : forall k, (k < 2)%nat -> get_id None k = Some k) by reflexivity.
  destruct (C11_rhs 2 2 2 2 4 (fun m => m) (fun k => k) eye None (fun _ => 0) two_group two_dirs Hid ltac:(cbn; lia) ltac:(lia) a (fun _ => 0) b) as (a' & f' & E & H).
  assert (Ha : a' 0%nat 0%nat = 1 /\ a' 0%nat 1%nat = 0).
  { destruct (C11_matrix 2 2 2 2 4 (fun m => m) (fun k => k) eye None (fun _ => 0) two_group two_dirs Hid ltac:(cbn; lia) ltac:(lia) a) as (a2 & E2 & K & _).
    assert (Es : store 2 2 a' = store 2 2 a2).
    { unfold vector_dir in E. unfold vector_dir_matrix in E2. destruct (reorth_matrix_ok 2 2 2 (fun m => m) eye two_group a (fun _ => 0) 4 ltac:(cbn; lia)) as (r1 & g1 & R1 & _ & _).
      rewrite R1 in E, E2. cbn [obind fst snd] in E, E2.
      destruct (reorth_rhs_ok 2 2 2 (fun m => m) eye two_group (fun _ => 0) g1 4 ltac:(lia)) as (f1 & g2 & R2 & _ & _). rewrite R2 in E. cbn [obind fst snd] in E.
      destruct (set_dir_rhs _ _ _ _ _ _ _ _ _); [|discriminate E]. cbn [obind] in E.
      destruct (set_dir_matrix_ok 2 2 2 (fun m => m) eye two_group 2 (fun k => k) None two_dirs Hid r1 g2 4 ltac:(lia)) as (r2 & g3 & R3 & M3).
      destruct (set_dir_matrix_ok 2 2 2 (fun m => m) eye two_group 2 (fun k => k) None two_dirs Hid r1 g1 4 ltac:(lia)) as (r4 & g4 & R4 & M4).
      rewrite R3 in E. rewrite R4 in E2. cbn [obind fst] in E, E2. apply Some_inj' in E. apply (f_equal fst) in E. cbn [fst] in E. apply Some_inj' in E2.
      assert (forall i j, (i < 2)%nat -> (j < 2)%nat -> r2 i j = r4 i j).
      { intros i j Hi Hj. rewrite (proj1 M3 i j Hi Hj), (proj1 M4 i j Hi Hj). reflexivity. }
      rewrite <- E, <- E2. now apply store_ext. }
    assert (Ei : forall i j, (i < 2)%nat -> (j < 2)%nat -> a' i j = a2 i j) by (intros i j Hi Hj; exact (store_inj 2 2 a' a2 Es i j Hi Hj)).
    pose proof (K 0%nat (fun q => if (q =? 0)%nat then 1 else 0) ltac:(lia)) as K0. pose proof (K 0%nat (fun q => if (q =? 0)%nat then 0 else 1) ltac:(lia)) as K1.
    unfold row_times, proj, eye in K0, K1. cbn in K0, K1. rewrite !Ei by lia. lra. }
  exists 2%nat, 2%nat, 2%nat, 2%nat, a, (fun _ => 0), (fun m => m), eye, b, (fun _ => 0), 4%nat, a', f'.
  split; [exact two_group|]. split; [exact two_dirs|]. split; [|split; [cbn; lia|split; [exact E|]]].
  - intros k Hk. unfold eye. destruct k as [|[|]]; try lia; cbn; lra.
  - exists 0%nat. split; [lia|]. intros x Hx C. specialize (Hx 0%nat ltac:(lia)). specialize (H 0%nat ltac:(lia)).
    unfold row_times in Hx. cbn [Rsum] in Hx. destruct Ha as [Ha0 Ha1]. rewrite Ha0, Ha1, H in Hx. unfold proj, coupling, eye, a, b in *. cbn in *. lra.
Qed.
Print Assumptions C11_two_directions_refuted.
(** The code accepts a work memory of dim * max(nRow, nCol) reals; for a group of
    one dof it then writes behind it. *)
Theorem C11_memory_refuted : exists n c dim A F dof V bc mem ndc,
  length mem = (dim * Nat.max c n)%nat /\ length A = (n * c)%nat /\ length F = n /\ length V = (dim * dim)%nat /\ length bc = ndc /\ length dof = dim /\
  (forall k, In k dof -> (k < n)%nat /\ (k < c)%nat) /\ (ndc <= dim)%nat /\ (0 < dim)%nat /\
  vector_dir n c dim A F dof V bc mem ndc None = None.
Proof.
  exists 1%nat, 1%nat, 1%nat, [2], [3], [0%nat], [1], [5], [0], 1%nat. repeat split; try reflexivity; try lia; intros.
  - destruct H as [<-|[]]. lia.
  - destruct H as [<-|[]]. lia.
Qed.
Print Assumptions C11_memory_refuted.
(* a rotated pair of directions in a 3 x 3 system meets the hypotheses *)
Example C11_case : good_group 3 3 2 (fun m => if (m =? 0)%nat then 2%nat else 0%nat) /\
  good_dirs 2 (fun m p => match m, p with 0%nat, 0%nat => 3/5 | 0%nat, _ => 4/5 | _, 0%nat => - (4/5) | _, _ => 3/5 end) 2 (fun k => (1 - k)%nat).
Proof.
  split.
  - split; [intros m Hm; destruct m; cbn; lia|]. intros m m' Hm Hm'. destruct m as [|[|]], m' as [|[|]]; cbn; lia.
  - split; [intros; lia|]. intros k k' Hk Hk' Hne. split; [lia|]. unfold orthogonal. destruct k as [|[|]], k' as [|[|]]; try lia; cbn; lra.
Qed.
