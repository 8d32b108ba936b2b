(** C53: assembly adds to the global matrix and vector exactly the sum of the
    signed element contributions, in every insertion mode and for every order of
    the row updates. *)
From Verif Require Import Prelude RSum AsmModel AsmSpec AsmProofs AsmProofs2 AsmProofs3 AsmProofs4 AsmProofs5 AsmProofs6.
From Coq Require Import Reals Sorted Permutation Lra.
Open Scope R_scope.

(** The matrix and the right-hand side after Assemble, and the stored positions. *)
Theorem C53_assemble : forall p o cells m rhs, input_ok p o cells (m, rhs) ->
  (forall e, In e cells -> cell_finite (p_n p) e) ->
  exists m' rhs', assemble p o cells (m, rhs) = Ok (m', rhs') /\
    assembled p o cells (m, rhs) (m', rhs') /\ positions p o cells m m'.
Proof.
  intros p o cells m rhs H F. rewrite assemble_updates. apply whole_ok; auto.
Qed.
Print Assumptions C53_assemble.

(** With several threads: whatever the order in which the (locked) row updates happen. *)
Theorem C53_schedule : forall p o cells m rhs sched, input_ok p o cells (m, rhs) ->
  (forall e, In e cells -> cell_finite (p_n p) e) ->
  Permutation sched (row_updates p cells) ->
  exists m' rhs', assemble_sched p o sched (m, rhs) = Ok (m', rhs') /\
    assembled p o cells (m, rhs) (m', rhs') /\ positions p o cells m m'.
Proof. intros. apply whole_ok; auto. Qed.
Print Assumptions C53_schedule.

(** With the ordered insertion not even the storage depends on the order. *)
Theorem C53_deterministic : forall p o cells m rhs sched, input_ok p o cells (m, rhs) ->
  (forall e, In e cells -> cell_finite (p_n p) e) -> use_ordered_insert o = true ->
  Permutation sched (row_updates p cells) ->
  assemble_sched p o sched (m, rhs) = assemble p o cells (m, rhs).
Proof.
  intros p o cells m rhs sched H F O P.
  destruct (C53_assemble p o cells m rhs H F) as (m1 & r1 & -> & (L1 & L2 & A1 & B1) & (_ & S1 & C1)).
  destruct (C53_schedule p o cells m rhs sched H F P) as (m2 & r2 & -> & (L3 & L4 & A2 & B2) & (_ & S2 & C2)).
  specialize (S1 O). specialize (S2 O). destruct H as (L & _). do 2 f_equal.
  - apply (nth_ext _ _ [] []); [exact (eq_trans L3 (eq_sym L1))|]. intros k Hk.
    assert (K : (k < length m)%nat) by exact (eq_ind _ (fun z => (k < z)%nat) Hk _ L3).
    apply row_unique; [apply S2; apply nth_In; exact Hk|apply S1; apply nth_In; exact (eq_ind_r (fun z => (k < z)%nat) K L1)| |]; intros c.
    + specialize (C1 (p_beg p + k)%nat c). specialize (C2 (p_beg p + k)%nat c). unfold row_of in *.
      replace (p_beg p + k - p_beg p)%nat with k in * by lia. rewrite C1, C2 by lia. reflexivity.
    + specialize (A1 (p_beg p + k)%nat c). specialize (A2 (p_beg p + k)%nat c). unfold mat_at, row_of in *.
      replace (p_beg p + k - p_beg p)%nat with k in * by lia.
      exact (eq_trans (A2 ltac:(lia)) (eq_sym (A1 ltac:(lia)))).
  - apply (nth_ext _ _ 0 0); [congruence|]. intros k Hk. specialize (B1 (p_beg p + k)%nat). specialize (B2 (p_beg p + k)%nat).
    unfold vec_at in *. replace (p_beg p + k - p_beg p)%nat with k in * by lia. rewrite B1, B2 by (rewrite <- L, <- L4; lia). reflexivity.
Qed.
Print Assumptions C53_deterministic.

(** The insertion modes (any, ordered by merging, ordered into present positions) give the same entries. *)
Theorem C53_modes : forall p o1 o2 cells m rhs, drop_val o1 = drop_val o2 ->
  input_ok p o1 cells (m, rhs) -> input_ok p o2 cells (m, rhs) -> (forall e, In e cells -> cell_finite (p_n p) e) ->
  exists m1 m2 r, assemble p o1 cells (m, rhs) = Ok (m1, r) /\ assemble p o2 cells (m, rhs) = Ok (m2, r) /\
    forall i c, (p_beg p <= i < p_beg p + length m)%nat -> mat_at (p_beg p) m1 i c = mat_at (p_beg p) m2 i c.
Proof.
  intros p o1 o2 cells m rhs D H1 H2 F.
  destruct (C53_assemble p o1 cells m rhs H1 F) as (m1 & r1 & E1 & (_ & L1 & A1 & B1) & _).
  destruct (C53_assemble p o2 cells m rhs H2 F) as (m2 & r2 & E2 & (_ & L2 & A2 & B2) & _).
  assert (r1 = r2) as <-.
  { apply (nth_ext _ _ 0 0); [congruence|]. intros k Hk. specialize (B1 (p_beg p + k)%nat). specialize (B2 (p_beg p + k)%nat).
    destruct H1 as (L & _). unfold vec_at in *. replace (p_beg p + k - p_beg p)%nat with k in * by lia. rewrite B1, B2 by lia. reflexivity. }
  exists m1, m2, r1. split; [exact E1|]. split; [exact E2|]. intros i c Hi. rewrite A1, A2, D by exact Hi. reflexivity.
Qed.
Print Assumptions C53_modes.

(** The error status is returned exactly when a number that would be used is not finite. *)
Theorem C53_status : forall p o cells m rhs, input_ok p o cells (m, rhs) ->
  (assemble p o cells (m, rhs) = Fail <-> ~ (forall e, In e cells -> cell_finite (p_n p) e)) /\
  assemble p o cells (m, rhs) <> Abort.
Proof.
  intros p o cells m rhs H.
  assert (D : (forall e, In e cells -> cell_finite (p_n p) e) \/ ~ (forall e, In e cells -> cell_finite (p_n p) e)).
  { assert (Q : forall l, (forall e, In e l -> cell_finite (p_n p) e) \/ ~ (forall e, In e l -> cell_finite (p_n p) e)).
    { induction l as [|e l [IH|IH]]; [left; intros ? []| |right; intros N; apply IH; intros; apply N; now right].
      assert (R : forall k, (forall i, (i < k)%nat -> owned e i = true -> row_finite (p_n p) e i) \/
                            ~ (forall i, (i < k)%nat -> owned e i = true -> row_finite (p_n p) e i)).
      { induction k as [|k [IHk|IHk]]; [left; intros; lia| |right; intros N; apply IHk; intros; apply N; auto; lia].
        destruct (owned e k) eqn:O.
        - destruct (row_finite_dec p e k) as [Fk|Fk].
          + left. intros i Hi Oi. destruct (Nat.eq_dec i k) as [->|]; [exact Fk|]. apply IHk; [lia|exact Oi].
          + right. intros N. destruct (N k (Nat.lt_succ_diag_r k) O) as (V & M).
            destruct Fk as [(j & L & Mj & Nj)|[_ Vk]]; [exact (M j L Mj Nj)|contradiction].
        - left. intros i Hi Oi. destruct (Nat.eq_dec i k) as [->|]; [congruence|]. apply IHk; [lia|exact Oi]. }
      destruct (R (p_n p)) as [Re|Re].
      - left. intros e' [<-|I']; [exact Re|now apply IH].
      - right. intros N. apply Re. apply N. now left. }
    apply Q. }
  destruct D as [D|D].
  - destruct (C53_assemble p o cells m rhs H D) as (m' & r' & -> & _). split; [split; [discriminate|contradiction]|discriminate].
  - rewrite assemble_updates, (whole_fail p o cells m rhs _ H (Permutation_refl _) D). split; [tauto|discriminate].
Qed.
Print Assumptions C53_status.

(** AssembleMatrix and AssembleRHS: the same without the other part. *)
Lemma with_F_ok : forall p o cells m, input_ok p o cells (m, map (fun _ => 0) m) ->
  input_ok p o (map (with_F (p_n p)) cells) (m, map (fun _ => 0) m).
Proof.
  intros p o cells m (L & C & D & G & N & S & T). split; [exact L|]. split; [|split; [|split; [|split; [exact N|split; [exact S|]]]]].
  - intros e I. apply in_map_iff in I as (x & <- & I). destruct (C x I) as (A1 & A2 & A3 & A4 & A5 & A6 & A7 & A8).
    split; [exact A1|]. split; [exact A2|]. split; [exact A3|]. split; [exact A4|]. split; [exact A5|].
    split; [apply repeat_length|]. split; [exact A7|exact A8].
  - intros O e I. apply in_map_iff in I as (x & <- & I). exact (D O x I).
  - intros O e i I Hi. apply in_map_iff in I as (x & <- & I). exact (G O x i I Hi).
  - intros O1 O2 e r c I Ht. apply in_map_iff in I as (x & <- & I). exact (T O1 O2 x r c I Ht).
Qed.
Theorem C53_matrix : forall p o cells m, input_ok p o cells (m, map (fun _ => 0) m) ->
  (forall e i j, In e cells -> (i < p_n p)%nat -> (j < p_n p)%nat -> owned e i = true -> in_mask (p_n p) e i j = true -> mat (p_n p) e i j <> None) ->
  exists m', assemble_matrix p o cells m = Ok m' /\ length m' = length m /\
    (forall r c, (p_beg p <= r < p_beg p + length m)%nat ->
       mat_at (p_beg p) m' r c = mat_at (p_beg p) m r c + lsum (map (fun e => contribution (drop_val o) (p_n p) e r c) cells)) /\
    positions p o cells m m'.
Proof.
  intros p o cells m H F. pose proof (with_F_ok p o cells m H) as H'.
  destruct (C53_assemble p o _ m _ H') as (m' & r' & E & (L1 & L2 & A & _) & (P1 & P2 & P3)).
  - intros e I i Hi O. apply in_map_iff in I as (x & <- & I). split.
    + unfold vec. cbn. rewrite nth_repeat_lt by exact Hi. discriminate.
    + intros j Hj M. exact (F x i j I Hi Hj O M).
  - destruct (assemble_parts p o (map (with_F (p_n p)) cells) m (map (fun _ => 0) m) m' r') as (Em & _); [now rewrite map_length|exact E|].
    rewrite matrix_with_F in Em. exists m'. split; [exact Em|]. split; [exact L1|]. split.
    + intros r c Hr. rewrite A by exact Hr. rewrite map_map. reflexivity.
    + split; [exact P1|]. split; [exact P2|]. intros r c Hr. rewrite P3 by exact Hr.
      split; (intros [J|[J|(e & I & K)]]; [auto|auto|right; right]).
      * apply in_map_iff in I as (x & <- & I). exists x. split; [exact I|exact K].
      * exists (with_F (p_n p) e). split; [now apply in_map|exact K].
Qed.
Print Assumptions C53_matrix.

Definition only_F (n : nat) (e : cell) : cell :=
  mkCell (c_dof e) (c_flip e) (c_ghost e) (repeat (Some 0) (n * n)) (c_F e) (repeat false (n * n)).
Theorem C53_rhs : forall p cells rhs,
  (forall e, In e cells -> cell_ok p (length rhs) e) ->
  (p_same p = false -> forall e i, In e cells -> (i < p_n p)%nat -> owned e i = true) ->
  (forall e i, In e cells -> (i < p_n p)%nat -> owned e i = true -> vec e i <> None) ->
  exists rhs', assemble_rhs p cells rhs = Ok rhs' /\ length rhs' = length rhs /\
    forall r, (p_beg p <= r < p_beg p + length rhs)%nat ->
      vec_at (p_beg p) rhs' r = vec_at (p_beg p) rhs r + lsum (map (fun e => load (p_n p) e r) cells).
Proof.
  intros p cells rhs C G F. set (o := mkOpts 0 false false false). set (m := map (fun _ => [] : row) rhs).
  assert (Lm : length m = length rhs) by apply map_length.
  destruct (C53_assemble p o (map (only_F (p_n p)) cells) m rhs) as (m' & r' & E & (L1 & L2 & _ & B) & _).
  - split; [now rewrite Lm|]. rewrite Lm. split; [|split; [discriminate|split; [|split; [|split; discriminate]]]].
    + intros e I. apply in_map_iff in I as (x & <- & I). destruct (C x I) as (A1 & A2 & A3 & A4 & A5 & A6 & A7 & A8).
      split; [exact A1|]. split; [exact A2|]. split; [exact A3|]. split; [apply repeat_length|]. split; [apply repeat_length|].
      split; [exact A6|]. split; [exact A7|exact A8].
    + intros O e i I Hi. apply in_map_iff in I as (x & <- & I). exact (G O x i I Hi).
    + intros q I. apply in_map_iff in I as (x & <- & _). constructor.
  - intros e I i Hi O. apply in_map_iff in I as (x & <- & I). split; [exact (F x i I Hi O)|].
    intros j Hj M. unfold in_mask in M. cbn in M. rewrite nth_repeat_lt in M by now apply idx_lt. discriminate.
  - destruct (assemble_parts p o (map (only_F (p_n p)) cells) m rhs m' r') as (_ & Er); [now rewrite Lm|exact E|].
    exists r'. split.
    + rewrite <- Er. unfold assemble_rhs. rewrite each_map. apply each_ext. intros e s _.
      change (has_active (only_F (p_n p) e)) with (has_active e). destruct (has_active e); [|reflexivity].
      rewrite !each_map. reflexivity.
    + split; [exact L2|]. intros r Hr. rewrite <- Lm in Hr. rewrite B by exact Hr. rewrite map_map. reflexivity.
Qed.
Print Assumptions C53_rhs.

(** AssembleTemplate keeps the values and makes every position of the mask present, in order. *)
Theorem C53_template : forall p cells m,
  (forall e, In e cells -> cell_ok p (length m) e /\ NoDup (c_dof e)) ->
  (p_same p = false -> forall e i, In e cells -> (i < p_n p)%nat -> owned e i = true) ->
  (forall q, In q m -> NoDup (cols q)) ->
  exists m', assemble_template p cells m = Ok m' /\ template_of p cells m m'.
Proof.
  intros p cells m C G N.
  destruct (C53_matrix p opts_templ (map (zero_AF (p_n p)) cells) m) as (m' & E & L & A & (P1 & P2 & P3)).
  - split; [apply map_length|]. split; [|split; [|split; [|split; [exact N|split; discriminate]]]].
    + intros e I. apply in_map_iff in I as (x & <- & I). apply zero_ok. now apply C.
    + intros _ e I. apply in_map_iff in I as (x & <- & I). exact (proj2 (C x I)).
    + intros O e i I Hi. apply in_map_iff in I as (x & <- & I). exact (G O x i I Hi).
  - intros e i j I Hi Hj _ _. apply in_map_iff in I as (x & <- & I). rewrite zero_mat by assumption. discriminate.
  - exists m'. split.
    + rewrite template_matrix by (intros; now apply C). exact E.
    + split; [exact L|]. split; [now apply P2|]. split.
      * intros r c Hr. rewrite A by exact Hr. rewrite map_map, lsum_zero; [lra|]. intros x I. unfold contribution.
        apply Rsum_zero. intros i Hi. apply Rsum_zero. intros j Hj. rewrite zero_mat by assumption. cbn [value].
        destruct (_ && _ && _ && _); lra.
      * intros r c Hr. rewrite P3 by exact Hr. split.
        -- intros [J|[[_ ->]|(e & I & i & j & Hi & Hj & O & D & D' & K)]]; [auto|auto|]. right. right.
           apply in_map_iff in I as (x & <- & I). exists x. split; [exact I|]. exists i, j. cbn in K. rewrite zero_kept in K by assumption.
           repeat split; assumption.
        -- intros [J|[->|(e & I & i & j & Hi & Hj & O & D & D' & K)]]; [auto|right; left; auto|]. right. right.
           exists (zero_AF (p_n p) e). split; [now apply in_map|]. exists i, j. cbn [drop_val opts_templ]. rewrite zero_kept by assumption.
           repeat split; assumption.
Qed.
Print Assumptions C53_template.

(** Positions prepared by AssembleTemplate suffice for the insertion that requires them. *)
Theorem C53_template_then_assemble : forall p cells m rhs drop,
  length rhs = length m ->
  (forall e, In e cells -> cell_ok p (length m) e /\ NoDup (c_dof e) /\ cell_finite (p_n p) e) ->
  (p_same p = false -> forall e i, In e cells -> (i < p_n p)%nat -> owned e i = true) ->
  (forall q, In q m -> NoDup (cols q)) ->
  exists m1 m2 rhs2, assemble_template p cells m = Ok m1 /\
    assemble p (mkOpts drop true true true) cells (m1, rhs) = Ok (m2, rhs2) /\
    assembled p (mkOpts drop true true true) cells (m, rhs) (m2, rhs2) /\
    (forall r c, (p_beg p <= r < p_beg p + length m)%nat ->
       In c (cols (row_of (p_beg p) m2 r)) <-> In c (cols (row_of (p_beg p) m1 r))).
Proof.
  intros p cells m rhs drop L C G N.
  destruct (C53_template p cells m) as (m1 & E1 & L1 & S1 & A1 & P1); auto.
  { intros e I. destruct (C e I) as (? & ? & _). auto. }
  destruct (C53_assemble p (mkOpts drop true true true) cells m1 rhs) as (m2 & r2 & E2 & (L2 & L3 & A2 & B2) & (_ & _ & P2)).
  - split; [congruence|]. rewrite L1. split; [intros e I; now apply C|]. split; [intros _ e I; now apply C|]. split; [exact G|].
    split; [intros q I; apply sorted_nodup; now apply S1|]. split; [intros _; exact S1|].
    intros _ _ e r c I (i & j & Hi & Hj & O & D & D' & K).
    assert (Hr : (p_beg p <= r < p_beg p + length m)%nat).
    { destruct (C e I) as ((_ & _ & _ & _ & _ & _ & _ & B) & _). rewrite <- D. now apply B. }
    apply P1; [exact Hr|]. right. right. exists e. split; [exact I|]. exists i, j.
    apply andb_true_iff in K as [K _]. repeat split; assumption.
  - intros e I. now apply C.
  - exists m1, m2, r2. split; [exact E1|]. split; [exact E2|]. rewrite L1 in *. split.
    + split; [congruence|]. split; [exact L3|]. split; [|exact B2]. intros r c Hr. rewrite A2, A1 by exact Hr. reflexivity.
    + intros r c Hr. rewrite P2 by exact Hr. split; [|auto]. intros [J|[[J _]|(e & I & i & j & Hi & Hj & O & D & D' & K)]]; [exact J|discriminate|].
      apply P1; [exact Hr|]. right. right. exists e. split; [exact I|]. exists i, j.
      apply andb_true_iff in K as [K _]. repeat split; assumption.
Qed.
Print Assumptions C53_template_then_assemble.

(** Several processes: each assembles the cells it stores, ghost ones included, and
    the rows it owns come out as in the matrix of the whole problem. *)
Lemma view_owned : forall beg rows g i, (i < length (c_dof g))%nat ->
  owned (view beg rows g) i = (beg <=? dof g i)%nat && (dof g i <? beg + rows)%nat.
Proof.
  intros. unfold owned, view, dof. cbn. rewrite (nth_map_lt _ _ _ 0%nat) by assumption. now rewrite negb_involutive.
Qed.
Theorem C53_distributed : forall p o mesh here m rhs,
  let cells := map (view (p_beg p) (length m)) here in
  (forall g, In g here -> length (c_dof g) = p_n p) ->
  stores p (length m) mesh here ->
  input_ok p o cells (m, rhs) -> (forall e, In e cells -> cell_finite (p_n p) e) ->
  exists m' rhs', assemble p o cells (m, rhs) = Ok (m', rhs') /\
    (forall r c, (p_beg p <= r < p_beg p + length m)%nat ->
       mat_at (p_beg p) m' r c = mat_at (p_beg p) m r c + lsum (map (fun g => global_contribution (drop_val o) (p_n p) g r c) mesh)) /\
    (forall r, (p_beg p <= r < p_beg p + length m)%nat ->
       vec_at (p_beg p) rhs' r = vec_at (p_beg p) rhs r + lsum (map (fun g => global_load (p_n p) g r) mesh)).
Proof.
  intros p o mesh here m rhs cells Ln (others & Fo & P) H F. rewrite Forall_forall in Fo.
  destruct (C53_assemble p o cells m rhs H F) as (m' & r' & E & (_ & _ & A & B) & _).
  exists m', r'. split; [exact E|]. split.
  - intros r c Hr. rewrite A by exact Hr. f_equal.
    rewrite (lsum_perm _ _ (Permutation_map (fun g => global_contribution (drop_val o) (p_n p) g r c) P)).
    rewrite map_app, lsum_app, (lsum_zero _ others), Rplus_0_r.
    + unfold cells. rewrite map_map. apply lsum_ext. intros g I. unfold contribution, global_contribution.
      apply Rsum_ext. intros i Hi. apply Rsum_ext. intros j Hj. rewrite view_owned by (rewrite Ln; assumption).
      change (dof (view (p_beg p) (length m) g)) with (dof g). destruct (dof g i =? r)%nat eqn:D; [|now rewrite andb_false_r].
      apply Nat.eqb_eq in D. rewrite D, (proj2 (Nat.leb_le _ _)), (proj2 (Nat.ltb_lt _ _)) by lia. reflexivity.
    + intros g I. apply Rsum_zero. intros i Hi. apply Rsum_zero. intros j Hj.
      destruct (dof g i =? r)%nat eqn:D; [|reflexivity]. apply Nat.eqb_eq in D. exfalso. apply (Fo g I i Hi). lia.
  - intros r Hr. rewrite B by exact Hr. f_equal.
    rewrite (lsum_perm _ _ (Permutation_map (fun g => global_load (p_n p) g r) P)).
    rewrite map_app, lsum_app, (lsum_zero _ others), Rplus_0_r.
    + unfold cells. rewrite map_map. apply lsum_ext. intros g I. unfold load, global_load.
      apply Rsum_ext. intros i Hi. rewrite view_owned by (rewrite Ln; assumption).
      change (dof (view (p_beg p) (length m) g)) with (dof g). destruct (dof g i =? r)%nat eqn:D; [|now rewrite andb_false_r].
      apply Nat.eqb_eq in D. rewrite D, (proj2 (Nat.leb_le _ _)), (proj2 (Nat.ltb_lt _ _)) by lia. reflexivity.
    + intros g I. apply Rsum_zero. intros i Hi.
      destruct (dof g i =? r)%nat eqn:D; [|reflexivity]. apply Nat.eqb_eq in D. exfalso. apply (Fo g I i Hi). lia.
Qed.
Print Assumptions C53_distributed.

(** *** A concrete case: two cells with two dofs each, a shared dof of opposite
    orientation, one ghost dof, rows 1 and 2 of a 4 x 4 matrix. *)
Definition ex_p : prob := mkProb 2 1 4 true.
Definition ex_cells : list cell :=
  [mkCell [1; 2]%nat [false; true] [false; false] [Some 2; Some 3; Some 5; Some 7] [Some 1; Some 4] [true; true; true; true];
   mkCell [2; 3]%nat [false; false] [false; true] [Some 11; Some 13; Some 17; None] [Some 6; None] [true; true; false; true]].
Definition ex_o (ord : bool) : opts := mkOpts (1/2) false false ord.
Lemma ex_input : forall ord, input_ok ex_p (ex_o ord) ex_cells ([[(3%nat, 1)]; []], [0; 0]).
Proof.
  intros ord. split; [reflexivity|]. split; [|split; [|split; [discriminate|split; [|split; [discriminate|discriminate]]]]].
  - intros e [<-|[<-|[]]]; (repeat split; cbn; try lia); destruct i as [|[|i]]; cbn in *; try lia; discriminate.
  - intros _ e [<-|[<-|[]]]; cbn; repeat constructor; cbn; intuition lia.
  - intros q [<-|[<-|[]]]; cbn; repeat constructor; intros [].
Qed.
Lemma ex_finite : forall e, In e ex_cells -> cell_finite (p_n ex_p) e.
Proof.
  intros e [<-|[<-|[]]] i Hi O; destruct i as [|[|i]]; cbn in Hi; try lia; try discriminate O; (split; [discriminate|]);
    intros j Hj; destruct j as [|[|j]]; cbn in *; try lia; discriminate.
Qed.
(** Entry (2, 2) gets 7 from the first cell and 11 from the second, entry (1, 2) gets -5. *)
Example C53_met : forall ord, exists m' rhs', assemble ex_p (ex_o ord) ex_cells ([[(3%nat, 1)]; []], [0; 0]) = Ok (m', rhs') /\
  mat_at 1 m' 2 2 = 18 /\ mat_at 1 m' 1 2 = -5 /\ mat_at 1 m' 1 3 = 1 /\ vec_at 1 rhs' 2 = 2.
Proof.
  intros ord. destruct (C53_assemble ex_p (ex_o ord) ex_cells _ _ (ex_input ord) ex_finite) as (m' & r' & E & (_ & _ & A & B) & _).
  exists m', r'. split; [exact E|]. cbn [ex_p p_beg] in A, B. rewrite !A, B by (cbn; lia).
  assert (K : forall x, 1 <= x -> (if Rlt_dec (1 / 2) (Rabs x) then true else false) = true).
  { intros x Hx. rewrite Rabs_right by lra. destruct (Rlt_dec (1/2) x); [reflexivity|lra]. }
  unfold mat_at, vec_at, row_of, entry, contribution, load, kept, in_mask, mat, dof, sgn, owned, vec.
  cbn -[Rlt_dec Rabs Rdiv Rinv]. rewrite !K by lra. cbn -[Rlt_dec Rabs Rdiv Rinv]. repeat split; lra.
Qed.

(** With different trial and test spaces the rows of ghost entities are not marked:
    a process that stores a ghost cell writes outside its interval of rows. *)
Theorem C53_distinct_spaces_refuted : ~ (forall p o cells m rhs,
  length rhs = length m -> (forall e, In e cells -> cell_ok p (length m) e /\ NoDup (c_dof e) /\ cell_finite (p_n p) e) ->
  matrix_ok p o cells m -> assemble p o cells (m, rhs) <> Abort).
Proof.
  intros H.
  apply (H (mkProb 2 0 2 false) (mkOpts 0 false false false)
    [mkCell [0; 1]%nat [false; false] [false; true] [Some 1; Some 1; Some 1; Some 1] [Some 1; Some 1] [true; true; true; true]]
    [[]] [0]).
  - reflexivity.
  - intros e [<-|[]]. split; [|split].
    + repeat split; cbn; try lia; destruct i as [|[|i]]; cbn in *; try lia; discriminate.
    + cbn. repeat constructor; cbn; intuition lia.
    + intros i Hi O. split; destruct i as [|[|i]]; cbn in Hi; try lia; try discriminate; intros j Hj; destruct j as [|[|j]]; cbn in *; try lia; discriminate.
  - split; [|split; discriminate]. intros q [<-|[]]. constructor.
  - reflexivity.
Qed.
Print Assumptions C53_distinct_spaces_refuted.
