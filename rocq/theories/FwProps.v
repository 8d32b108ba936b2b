(** * C54: elemental functions with sparse results *)
From Verif Require Import Prelude MemModel MemSpec FwModel FwSpec FwProofs FwProofs2 FwProofs3 FwProofs4.
From Coq Require Import ZArith Lia.
Open Scope nat_scope.

(** A 3 x 4 matrix in compressed columns; column 1 is empty. *)
Definition ex_view : view := make_as_sparse 5 3 4 [0; 2; 2; 3; 5] [0; 2; 1; 0; 1].
Example ex_valid : valid ex_view.
Proof.
  unfold valid. cbn. repeat (split; [lia|]). split; [|split].
  - intros [|[|[|[|c]]]] H; cbn; lia.
  - intros [|[|[|[|c]]]] j Hc; cbn; intros H1 H2; try lia; destruct j as [|[|[|[|j]]]]; cbn; lia.
  - intros [|[|[|[|[|j]]]]] H; cbn; lia.
Qed.

(** ** Conversions *)
(** Compressed numbers expand to the dense column-major matrix, with the given number
    where nothing is stored, and nothing behind the matrix is touched. *)
Theorem C54_densify : forall (V : Type) v (from to : list V) fill, valid v -> v_nnz v <= length from -> v_sz1 v * v_sz2 v <= length to ->
  exists out, densify v from to fill = Some out /\ dense_of v fill from out /\ kept_from (v_sz1 v * v_sz2 v) to out.
Proof. intros. now apply densify_ok. Qed.
Print Assumptions C54_densify.
(** The same when the dense matrix takes the place of the compressed numbers: no number
    is overwritten before it has been moved. *)
Theorem C54_densify_in_place : forall (V : Type) v (buf : list V) fill, valid v -> v_sz1 v * v_sz2 v <= length buf ->
  exists out, densify_in v buf fill = Some out /\ dense_of v fill buf out /\ kept_from (v_sz1 v * v_sz2 v) buf out.
Proof. intros V v buf fill Hv H. apply densify_in_ok; [exact Hv| |exact H]. pose proof (nnz_le v Hv). lia. Qed.
Print Assumptions C54_densify_in_place.
Example C54_densify_met : densify_in ex_view [1; 2; 3; 4; 5; 9; 9; 9; 9; 9; 9; 9; 8] 0 = Some [1; 0; 2; 0; 0; 0; 0; 3; 0; 4; 5; 0; 8].
Proof. reflexivity. Qed.
(** Compression takes every stored element of the dense matrix to its number. *)
Theorem C54_sparsify : forall (V : Type) v (from to : list V), valid v -> v_sz1 v * v_sz2 v <= length from -> v_nnz v <= length to ->
  exists out, sparsify v from to = Some out /\ kept_from (v_nnz v) to out /\
    forall r c j, stored v r c j -> rd out j = rd from (c * v_sz1 v + r).
Proof.
  intros V v from to Hv Hf Ht. destruct (sparsify_ok v from to Hv Hf Ht) as (out & E & K & S). exists out. split; [exact E|]. split; [exact K|].
  intros r c j St. destruct (stored_lt v r c j Hv St) as (Hr & Hc & _). now apply S.
Qed.
Print Assumptions C54_sparsify.
(** Expanding and compressing again gives back every number. *)
Theorem C54_round_trip : forall (V : Type) v (from dense to : list V) fill, valid v -> v_nnz v <= length from ->
  v_sz1 v * v_sz2 v <= length dense -> v_nnz v <= length to ->
  exists d out, densify v from dense fill = Some d /\ sparsify v d to = Some out /\ forall j, j < v_nnz v -> rd out j = rd from j.
Proof.
  intros V v from dense to fill Hv Hf Hd Ht. destruct (densify_ok v from dense fill Hv Hf Hd) as (d & Ed & D & Ld & _).
  destruct (C54_sparsify V v d to Hv) as (out & Eo & _ & S); [lia|exact Ht|]. exists d, out. split; [exact Ed|]. split; [exact Eo|].
  intros j Hj. destruct (stored_in v j Hv Hj) as (r & c & Hr & Hc & St). rewrite (S r c j St). apply (D r c Hr Hc). exact St.
Qed.
Print Assumptions C54_round_trip.
(** The mask is true exactly at the stored elements. *)
Theorem C54_mask : forall v beg, valid v -> v_sz1 v * v_sz2 v <= length beg ->
  exists out, fill_template v beg = Some out /\ mask_of v out /\ kept_from (v_sz1 v * v_sz2 v) beg out.
Proof. exact fill_template_ok. Qed.
Print Assumptions C54_mask.
(** Copied compressed columns, also those of a dense matrix, describe the same matrix. *)
Theorem C54_copy_csc : forall v colind row, valid v -> length colind = S (v_sz2 v) -> length row = v_nnz v ->
  exists ci ro, copy_csc v colind row = Some (ci, ro) /\
    valid (make_as_sparse (v_nnz v) (v_sz1 v) (v_sz2 v) ci ro) /\ same_view v (make_as_sparse (v_nnz v) (v_sz1 v) (v_sz2 v) ci ro).
Proof.
  intros v colind row Hv Lc Lr. destruct (copy_csc_ok v colind row Hv Lc Lr) as (ci & ro & E & W & S). exists ci, ro.
  split; [exact E|]. split; [exact W|]. split; [reflexivity|]. split; [reflexivity|]. split; [reflexivity|exact S].
Qed.
Print Assumptions C54_copy_csc.
Example C54_copy_csc_met : valid (make_as_dense 2 3) /\ copy_csc (make_as_dense 2 3) [7; 7; 7; 7] [7; 7; 7; 7; 7; 7] = Some ([0; 2; 4; 6], [0; 1; 0; 1; 0; 1]).
Proof. split; reflexivity. Qed.
(** Every element is stored at most once, and the numbers fit into the dense matrix. *)
Theorem C54_view : forall v, valid v -> v_nnz v <= v_sz1 v * v_sz2 v /\
  (forall r c j, stored v r c j -> r < v_sz1 v /\ c < v_sz2 v /\ j < v_nnz v) /\
  (forall r c j j', stored v r c j -> stored v r c j' -> j = j') /\
  (forall j, j < v_nnz v -> exists r c, stored v r c j) /\
  (forall r c, (exists j, stored v r c j) \/ (forall j, ~ stored v r c j)).
Proof.
  intros v Hv. split; [now apply nnz_le|]. split; [intros; now apply stored_lt|]. split; [intros; eapply stored_unique; eassumption|]. split.
  - intros j Hj. destruct (stored_in v j Hv Hj) as (r & c & _ & _ & S). eauto.
  - intros. now apply stored_dec.
Qed.
Print Assumptions C54_view.
(** A view made sparse in place of another forgets the number of stored elements
    (func_wrap.h:48): the caller's view of one element claims all four, is taken for
    full, and compressed numbers are left where they are. *)
Theorem C54_view_make_as_sparse_refuted :
  let good := make_as_sparse 1 2 2 [0; 0; 1] [1] in
  let bad := view_make_as_sparse 1 2 2 [0; 0; 1] [1] in
  valid good /\ v_nnz bad = 4 /\
  densify_in good [5; 9; 9; 9] 0 = Some [0; 0; 0; 5] /\ densify_in bad [5; 9; 9; 9] 0 = Some [5; 9; 9; 9].
Proof.
  cbv zeta. split; [|repeat split]. unfold valid. cbn. repeat (split; [lia|]). split; [|split].
  - intros [|[|c]] H; cbn; lia.
  - intros [|[|c]] j Hc; cbn; intros; lia.
  - intros [|j] H; cbn; lia.
Qed.
Print Assumptions C54_view_make_as_sparse_refuted.

(** ** The element matrix and vector *)
(** Whatever the arrays hold from the previous element, the matrix of the element is the
    dense matrix of the function's numbers, zero where the function stores nothing, and
    the mask says where that is. *)
Theorem C54_matrix : forall (V : Type) (zero : V) v f A Ab, valid v -> length (f (repeat zero (v_nnz v))) = v_nnz v ->
  v_sz1 v * v_sz2 v <= length A -> v_sz1 v * v_sz2 v <= length Ab ->
  exists out mask, compute_mat zero v f A Ab = Some (out, mask) /\ dense_of v zero (f (repeat zero (v_nnz v))) out /\ mask_of v mask /\
    forall r c, r < v_sz1 v -> c < v_sz2 v -> rd mask (c * v_sz1 v + r) = Some false -> rd out (c * v_sz1 v + r) = Some zero.
Proof.
  intros V zero v f A Ab Hv Hf Ha Hb. pose proof (nnz_le v Hv). destruct (compute_mat_ok zero v f A Ab Hv Hf Ha ltac:(lia) Hb) as (out & mask & E & D & M).
  exists out, mask. split; [exact E|]. split; [exact D|]. split; [exact M|]. intros r c Hr Hc Hm. apply (D r c Hr Hc). now apply (M r c Hr Hc).
Qed.
Print Assumptions C54_matrix.
Theorem C54_vector : forall (V : Type) (zero : V) v f F, valid v -> length (f (repeat zero (v_nnz v))) = v_nnz v -> v_sz1 v * v_sz2 v <= length F ->
  exists out, compute_rhs zero v f F = Some out /\ dense_of v zero (f (repeat zero (v_nnz v))) out /\ kept_from (v_sz1 v * v_sz2 v) F out.
Proof.
  intros V zero v f F Hv Hf Hl. pose proof (nnz_le v Hv). destruct (compute_rhs_ok zero v f F Hv Hf Hl ltac:(lia)) as (out & E & D & L & K).
  exists out. split; [exact E|]. split; [exact D|]. split; [exact L|]. intros p Hp. apply K; lia.
Qed.
Print Assumptions C54_vector.
(** The previous contents do not matter. *)
Theorem C54_independent : forall (V : Type) (zero : V) v f A A' Ab Ab' out out' mask mask', valid v -> length (f (repeat zero (v_nnz v))) = v_nnz v ->
  v_sz1 v * v_sz2 v <= length A -> v_sz1 v * v_sz2 v <= length Ab -> v_sz1 v * v_sz2 v <= length A' -> v_sz1 v * v_sz2 v <= length Ab' ->
  compute_mat zero v f A Ab = Some (out, mask) -> compute_mat zero v f A' Ab' = Some (out', mask') ->
  forall p, p < v_sz1 v * v_sz2 v -> rd out p = rd out' p /\ rd mask p = rd mask' p.
Proof.
  intros V zero v f A A' Ab Ab' out out' mask mask' Hv Hf Ha Hb Ha' Hb' E E' p Hp.
  destruct (C54_matrix V zero v f A Ab Hv Hf Ha Hb) as (o1 & m1 & E1 & D1 & M1 & _). rewrite E in E1. injection E1 as <- <-.
  destruct (C54_matrix V zero v f A' Ab' Hv Hf Ha' Hb') as (o2 & m2 & E2 & D2 & M2 & _). rewrite E' in E2. injection E2 as <- <-.
  assert (P : exists r c, r < v_sz1 v /\ c < v_sz2 v /\ p = c * v_sz1 v + r).
  { assert (v_sz1 v <> 0) by (intros Z; rewrite Z in Hp; lia). exists (p mod v_sz1 v), (p / v_sz1 v).
    split; [now apply Nat.mod_upper_bound|]. split; [apply Nat.div_lt_upper_bound; lia|]. rewrite (Nat.div_mod p (v_sz1 v) H) at 1. lia. }
  destruct P as (r & c & Hr & Hc & ->). destruct (D1 r c Hr Hc) as (A1 & B1). destruct (D2 r c Hr Hc) as (A2 & B2).
  destruct (M1 r c Hr Hc) as (T1 & F1). destruct (M2 r c Hr Hc) as (T2 & F2).
  destruct (stored_dec v r c Hv) as [(j & S)|N].
  - split; [rewrite (A1 j S), (A2 j S); reflexivity|]. rewrite (proj2 T1), (proj2 T2) by eauto. reflexivity.
  - split; [rewrite (B1 N), (B2 N); reflexivity|]. rewrite (proj2 F1), (proj2 F2) by exact N. reflexivity.
Qed.
Print Assumptions C54_independent.
(* the numbers 1..5 added to the zeroes the function finds; old contents 9 *)
Example C54_matrix_met : valid ex_view /\
  compute_mat 0 ex_view (fun l => map (fun p => fst p + snd p) (List.combine l [1; 2; 3; 4; 5])) (repeat 9 12) (repeat true 12) =
    Some ([1; 0; 2; 0; 0; 0; 0; 3; 0; 4; 5; 0], [true; false; true; false; false; false; false; true; false; true; true; false]).
Proof. split; [exact ex_valid|reflexivity]. Qed.

(** ** Sparsity kept by the assembler *)
(** The views the elements get describe the results of the functions: of the matrix
    function and the right-hand side function if no function for both is given, else of
    the two results of that function.  Missing: a function for both whose matrix is full
    and whose vector is sparse, and the matrix function or right-hand side function that is
    given besides it; see the refutations. *)
Theorem C54_prepared_partial : forall mat rhs sys,
  (forall v, mat = Some v -> valid v) -> (forall v, rhs = Some v -> valid v) -> (forall vm vr, sys = Some (vm, vr) -> valid vm /\ valid vr) ->
  (forall vm vr, sys = Some (vm, vr) -> is_sparse vm = true \/ is_sparse vr = false) ->
  exists k, prepare_sparsity mat rhs sys = Some k /\
    (forall v, (sys = None /\ mat = Some v) \/ (exists vr, sys = Some (v, vr)) ->
       valid (used_view v (colindA k) (rowA k)) /\ same_view v (used_view v (colindA k) (rowA k))) /\
    (forall v, (sys = None /\ rhs = Some v) \/ (exists vm, sys = Some (vm, v)) ->
       valid (used_view v (colindF k) (rowF k)) /\ same_view v (used_view v (colindF k) (rowF k))).
Proof.
  intros mat rhs sys Hm Hr Hs Hp. unfold prepare_sparsity. destruct sys as [(vm, vr)|].
  - destruct (Hs vm vr eq_refl) as (Vm & Vr). destruct (is_sparse vm) eqn:Em.
    + destruct (used_sparse vm Vm Em) as (ca & Ea & Pa).
      assert (Q : exists cf, out_csc vr = Some cf /\ valid (used_view vr (fst cf) (snd cf)) /\ same_view vr (used_view vr (fst cf) (snd cf))).
      { destruct (is_sparse vr) eqn:Er; [now apply used_sparse|].
        destruct (copy_csc_ok vr (repeat 0 (v_sz2 vr + 1)) (repeat 0 (v_nnz vr)) Vr) as (ci & ro & E & _); [rewrite repeat_length; lia|apply repeat_length|].
        exists (ci, ro). split; [exact E|]. now apply used_full. }
      destruct Q as (cf & Ef & Pf). rewrite Ea, Ef. cbn [obind]. eexists. split; [reflexivity|]. cbn [colindA rowA colindF rowF]. split.
      * intros v [(? & _)|(x & [= -> _])]; [discriminate|exact Pa].
      * intros v [(? & _)|(x & [= _ ->])]; [discriminate|exact Pf].
    + assert (Er : is_sparse vr = false) by (destruct (Hp vm vr eq_refl); congruence).
      eexists. split; [reflexivity|]. cbn [colindA rowA colindF rowF]. split.
      * intros v [(? & _)|(x & [= -> _])]; [discriminate|now apply used_full].
      * intros v [(? & _)|(x & [= _ ->])]; [discriminate|now apply used_full].
  - assert (Q : forall o : option view, (forall v, o = Some v -> valid v) -> exists ca,
       match o with Some v => if is_sparse v then out_csc v else Some ([], []) | None => Some ([], []) end = Some ca /\
       forall v, o = Some v -> valid (used_view v (fst ca) (snd ca)) /\ same_view v (used_view v (fst ca) (snd ca))).
    { intros [v|] H; [|exists ([], []); split; [reflexivity|discriminate]]. destruct (prepared_one v (H v eq_refl)) as (ca & E & P).
      exists ca. split; [exact E|]. intros w [= <-]. exact P. }
    destruct (Q mat Hm) as (ca & Ea & Pa). destruct (Q rhs Hr) as (cf & Ef & Pf). rewrite Ea, Ef. cbn [obind]. eexists. split; [reflexivity|].
    cbn [colindA rowA colindF rowF]. split; (intros v [(_ & E)|(x & E)]; [|discriminate]); auto.
Qed.
Print Assumptions C54_prepared_partial.
Definition sparse_rhs : view := make_as_sparse 1 2 1 [0; 1] [1].
Definition sparse_mat : view := make_as_sparse 2 2 2 [0; 1; 2] [0; 1].
Example C54_prepared_met : valid sparse_rhs /\ valid sparse_mat /\ prepare_sparsity (Some sparse_mat) (Some sparse_rhs) None = Some (mkKept [0; 1; 2] [0; 1] [0; 1] [1]) /\
  is_sparse sparse_mat = true /\ prepare_sparsity None None (Some (sparse_mat, sparse_rhs)) = Some (mkKept [0; 1; 2] [0; 1] [0; 1] [1]).
Proof.
  split; [|split; [|repeat split]]; unfold valid; cbn; repeat (split; [lia|]); (split; [|split]).
  - intros [|c] H; cbn; lia.
  - intros [|c] j Hc; cbn; intros; lia.
  - intros [|j] H; cbn; lia.
  - intros [|[|c]] H; cbn; lia.
  - intros [|[|c]] j Hc; cbn; intros; lia.
  - intros [|[|j]] H; cbn; lia.
Qed.
(** A function for both with a full matrix and a sparse vector: nothing is kept for the
    vector, the conversion of the vector reads past the empty arrays. *)
Theorem C54_prepared_refuted : exists k, prepare_sparsity None None (Some (make_as_dense 2 2, sparse_rhs)) = Some k /\
  valid (make_as_dense 2 2) /\ valid sparse_rhs /\
  compute_rhs 0 (used_view sparse_rhs (colindF k) (rowF k)) (fun _ => [7]) [0; 0] = None /\
  compute_rhs 0 sparse_rhs (fun _ => [7]) [0; 0] = Some [0; 7].
Proof. eexists. split; [reflexivity|]. split; [reflexivity|]. split; [apply C54_prepared_met|]. split; reflexivity. Qed.
Print Assumptions C54_prepared_refuted.
(** A sparse matrix function given besides a function for both: the matrix is assembled
    by the former with the sparsity of the latter. *)
Theorem C54_prepared_both_refuted : exists k,
  prepare_sparsity (Some sparse_mat) None (Some (make_as_dense 2 2, make_as_dense 2 1)) = Some k /\
  compute_mat 0 (used_view sparse_mat (colindA k) (rowA k)) (fun _ => [5; 7]) [0; 0; 0; 0] [true; true; true; true] = None /\
  compute_mat 0 sparse_mat (fun _ => [5; 7]) [0; 0; 0; 0] [true; true; true; true] = Some ([5; 0; 0; 7], [true; false; false; true]).
Proof. eexists. split; [reflexivity|]. split; reflexivity. Qed.
Print Assumptions C54_prepared_both_refuted.

(** ** Functions for both made from two, and the reverse *)
(** A matrix function and a right-hand side function together fill the element matrix
    with the numbers of the first and the element vector with those of the second. *)
Theorem C54_system : forall (V : Type) (A F a b : list V) na nr, length A <= length a -> length F <= length b ->
  element_system (mkFunc [A] na) (mkFunc [F] nr) [a; b] = Some [A ++ skipn (length A) a; F ++ skipn (length F) b].
Proof.
  intros V A F a b na nr Ha Hb. unfold element_system, call_system, call. cbn. rewrite (copy_over A a Ha). cbn. rewrite (copy_over F b Hb). reflexivity.
Qed.
Print Assumptions C54_system.
(** The matrix alone from a function for both: right if the function skips results that
    are not wanted, or a place for the vector is there.  Missing: a function that always
    writes both. *)
Theorem C54_matrix_from_system_partial : forall (V : Type) (A F a b : list V) skip, length A <= length a -> length F <= length b ->
  (skip = true -> element_mat_of_system (mkFunc [A; F] skip) None [a; b] = Some [A ++ skipn (length A) a; b]) /\
  element_mat_of_system (mkFunc [A; F] skip) (Some 1) [a; b] = Some [A ++ skipn (length A) a; F ++ skipn (length F) b].
Proof.
  intros V A F a b skip Ha Hb. unfold element_mat_of_system, call. split.
  - intros ->. cbn. rewrite (copy_over A a Ha). reflexivity.
  - cbn. rewrite (copy_over A a Ha). cbn. rewrite (copy_over F b Hb). reflexivity.
Qed.
Print Assumptions C54_matrix_from_system_partial.
Theorem C54_matrix_from_system_refuted : element_mat_of_system (mkFunc [[5]; [7]] false) None [[0]; [0]] = None.
Proof. reflexivity. Qed.
Print Assumptions C54_matrix_from_system_refuted.
(** The right-hand side alone from a function for both: the place of the vector is given
    as the place of the matrix, and the pointers are exchanged after the call instead of
    before.  The vector gets the numbers of the matrix, for two unknowns past its end. *)
Theorem C54_vector_from_system_refuted :
  element_rhs_of_system (mkFunc [[5]; [7]] true) None [[0]; [0]] = Some [[0]; [5]] /\
  element_rhs_of_system (mkFunc [[1; 2; 3; 4]; [7; 8]] true) None [[0; 0; 0; 0]; [0; 0]] = None.
Proof. split; reflexivity. Qed.
Print Assumptions C54_vector_from_system_refuted.

(** ** Work memory *)
Theorem C54_ids : forall a b, (0 <= a < 65536)%Z -> (0 <= b)%Z -> decode_id (encode_id a b) = (a, b).
Proof. exact ids_ok. Qed.
Print Assumptions C54_ids.
(** When both functions ask for work memory and nothing is in use, every thread gets a
    pool of each function, no two threads the same, and afterwards everything is returned.
    Missing: a matrix function that asks for no memory; see the refutation. *)
Theorem C54_memory_partial : forall n fm fr, m_required fm = true -> m_required fr = true -> reach (m_mem fm, []) -> reach (m_mem fr, []) -> (Z.of_nat n < 65536)%Z ->
  exists lo hi fm' fr', system_setup_range n fm fr = Some ((lo, hi), (fm', fr')) /\
    (forall t, t < n -> exists a b, system_pools t fm' fr' = Some (Some a, Some b)) /\
    (forall t t' a a' b b', t < n -> t' < n -> system_pools t fm' fr' = Some (Some a, Some b) -> system_pools t' fm' fr' = Some (Some a', Some b') ->
       (a = a' \/ b = b') -> t = t') /\
    (exists fm2 fr2, system_release_range lo hi fm' fr' = Some (fm2, fr2) /\ reach (m_mem fm2, []) /\ reach (m_mem fr2, [])).
Proof. exact system_memory_ok. Qed.
Print Assumptions C54_memory_partial.
Example C54_memory_met : reach (par_init, []) /\ exists r, system_setup_range 3 (mkFmem true par_init) (mkFmem true par_init) = Some r /\
  system_pools 2 (fst (snd r)) (snd (snd r)) = Some (Some 2, Some 2).
Proof. split; [apply reach_init|]. eexists. split; reflexivity. Qed.
(** A matrix function without memory and a right-hand side function with: no memory is
    allocated for the latter, the first element aborts. *)
Theorem C54_memory_refuted : exists r, system_setup_range 2 (mkFmem false par_init) (mkFmem true par_init) = Some r /\
  system_pools 0 (fst (snd r)) (snd (snd r)) = None.
Proof. eexists. split; reflexivity. Qed.
Print Assumptions C54_memory_refuted.
(** After an element a thread tidies its own pool of the matrix function. *)
Theorem C54_defragment_matrix : forall t fm fr a b a' b', (Z.of_nat t < 65536)%Z ->
  system_pools t fm fr = Some (a, b) -> system_defragmented t fm fr = Some (a', b') -> a' = a.
Proof.
  intros t fm fr a b a' b' Ht. unfold system_defragmented, decode_id. cbn [fst snd].
  change 65535%Z with (Z.ones 16). rewrite Z.land_ones by lia. rewrite Z.mod_small by (change (2 ^ 16)%Z with 65536%Z; lia).
  unfold system_pools. generalize (pool_of t fr), (defragmented (Z.shiftr (Z.of_nat t) 16) fr). intros y z.
  unfold defragmented, pool_of. rewrite (proj2 (Z.leb_le 0 (Z.of_nat t))) by lia. rewrite Nat2Z.id, Bool.andb_true_r.
  destruct (m_required fm); [destruct (par_get t (m_mem fm)); [|discriminate]|]; cbn [obind];
    (destruct y as [y|]; [|discriminate]); (destruct z as [z|]; [|discriminate]); cbn [obind]; intros [= <- _] [= <- _]; reflexivity.
Qed.
Print Assumptions C54_defragment_matrix.
(** Of the right-hand side function every thread tidies the pool of thread 0, which
    that thread may be using. *)
Theorem C54_defragment_vector_refuted : exists r, system_setup_range 2 (mkFmem true par_init) (mkFmem true par_init) = Some r /\
  let fm := fst (snd r) in let fr := snd (snd r) in
  system_pools 0 fm fr = Some (Some 0, Some 0) /\ system_pools 1 fm fr = Some (Some 1, Some 1) /\
  system_defragmented 1 fm fr = Some (Some 1, Some 0).
Proof. eexists. split; [reflexivity|]. repeat split. Qed.
Print Assumptions C54_defragment_vector_refuted.

(** ** Copies *)
(** A copy keeps the sizes of the work arrays when constructed, not when assigned. *)
Theorem C54_copy : forall a, copy_construct a = a.
Proof. now intros (w, iw). Qed.
Print Assumptions C54_copy.
Theorem C54_assign_refuted : exists this a, copy_assign this a <> a /\ sz_w (copy_assign this a) < sz_w a /\ sz_iw (copy_assign this a) < sz_iw a.
Proof. exists (mkSizes 0 0), (mkSizes 10 3). cbn. split; [discriminate|lia]. Qed.
Print Assumptions C54_assign_refuted.
