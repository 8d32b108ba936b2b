(** From the options and the cells to the sequence of row updates. *)
From Verif Require Import Prelude RSum AsmModel AsmSpec AsmProofs AsmProofs2 AsmProofs3 AsmProofs4.
From Coq Require Import Reals Sorted Permutation Lra.
Open Scope R_scope.

Lemma map_from_length : forall {A B} (f : nat -> A -> B) l k, length (map_from f k l) = length l.
Proof. induction l; intros; cbn; auto. Qed.
Lemma map_from_nth : forall {A B} (f : nat -> A -> B) l k i d d', (i < length l)%nat -> nth i (map_from f k l) d' = f (k + i)%nat (nth i l d).
Proof.
  induction l; intros k i d d' H; cbn in *; [lia|]. destruct i; [now rewrite Nat.add_0_r|].
  rewrite (IHl _ _ d) by lia. f_equal. lia.
Qed.

Lemma nth_map_lt : forall {A B} (f : A -> B) l k d d', (k < length l)%nat -> nth k (map f l) d' = f (nth k l d).
Proof. induction l; intros k d d' H; cbn in *; [lia|]. destruct k; [reflexivity|]. apply IHl. lia. Qed.

(** *** The preparation *)
Lemma prepare_row : forall p o m k, (k < length m)%nat ->
  nth k (prepare p o m) [] =
  (if use_ordered_insert o && negb (is_mtx_sorted o) then sort_by fst else fun q => q) (set_diag o (p_beg p + k) (nth k m [])).
Proof.
  intros p o m k Hk. unfold prepare. destruct (use_ordered_insert o && negb (is_mtx_sorted o)).
  - etransitivity; [apply (nth_map_lt (sort_by fst) _ k ([] : row)); now rewrite map_from_length|].
    f_equal. now apply map_from_nth.
  - now apply map_from_nth.
Qed.
Lemma prepare_length : forall p o m, length (prepare p o m) = length m.
Proof. intros. unfold prepare. destruct (use_ordered_insert o && _); rewrite ?map_length; apply map_from_length. Qed.

Lemma prepare_ok : forall p o cells m, matrix_ok p o cells m ->
  (forall q, In q (prepare p o m) -> row_ok o q) /\
  (forall k c, (k < length m)%nat -> entry (nth k (prepare p o m) []) c = entry (nth k m []) c) /\
  (forall k c, (k < length m)%nat -> In c (cols (nth k (prepare p o m) [])) <->
     In c (cols (nth k m [])) \/ (is_mtx_include_template o = false /\ c = (p_beg p + k)%nat)).
Proof.
  intros p o cells m (N & S & _).
  assert (H : forall k, (k < length m)%nat ->
    row_ok o (nth k (prepare p o m) []) /\ (forall c, entry (nth k (prepare p o m) []) c = entry (nth k m []) c) /\
    (forall c, In c (cols (nth k (prepare p o m) [])) <-> In c (cols (nth k m [])) \/ (is_mtx_include_template o = false /\ c = (p_beg p + k)%nat))).
  { intros k Hk. rewrite prepare_row by exact Hk. assert (I : In (nth k m []) m) by now apply nth_In.
    destruct (set_diag_ok o (p_beg p + k) (nth k m []) (N _ I)) as (A & C & N' & S'); [intros; now apply S|].
    set (q := set_diag o (p_beg p + k) (nth k m [])) in *.
    destruct (use_ordered_insert o) eqn:O; cbn [andb].
    - destruct (is_mtx_sorted o); cbn [negb].
      + split; [split; [exact N'|intros _; now apply S']|]. split; [exact A|exact C].
      + pose proof (sort_perm fst q) as P. pose proof (Permutation_map fst P) as P'. fold (cols q) (cols (sort_by fst q)) in P'.
        split; [split|split].
        * eapply Permutation_NoDup; eassumption.
        * intros _. unfold sorted. apply sort_sorted. exact N'.
        * intros c. rewrite <- A. symmetry. now apply entry_perm.
        * intros c. rewrite <- C. split; apply Permutation_in; [now symmetry|assumption].
    - split; [split; [exact N'|intros Hx; rewrite O in Hx; discriminate]|]. split; [exact A|exact C]. }
  split; [|split].
  - intros q I. apply (In_nth _ _ []) in I as (k & Hk & <-). rewrite prepare_length in Hk. now apply H.
  - intros k c Hk. now apply H.
  - intros k c Hk. now apply H.
Qed.

(** *** Cells and their row updates *)
Lemma each_app : forall {X S} (f : X -> S -> res S) a b s, each f (a ++ b) s = rbind (each f a s) (each f b).
Proof. induction a as [|x a IH]; intros b s; cbn; [reflexivity|]. destruct (f x s); cbn; auto. Qed.
Lemma each_flat : forall {X Y S} (f : Y -> S -> res S) (g : X -> list Y) l s, each (fun x s => each f (g x) s) l s = each f (flat_map g l) s.
Proof. induction l as [|x l IH]; intros s; cbn; [reflexivity|]. rewrite each_app. destruct (each f (g x) s); cbn; auto. Qed.
Lemma each_ext : forall {X S} (f g : X -> S -> res S) l s, (forall x s, In x l -> f x s = g x s) -> each f l s = each g l s.
Proof.
  induction l as [|x l IH]; intros s H; cbn; [reflexivity|]. rewrite (H x s) by now left.
  destruct (g x s); cbn; auto. apply IH. intros; apply H. now right.
Qed.
Definition ups (p : prob) (e : cell) : list (cell * nat) :=
  if has_active e then map (fun i => (e, i)) (seq 0 (p_n p)) else [].
Lemma cells_updates : forall {S} p (f : cell * nat -> S -> res S) cells s,
  each (fun e r => if has_active e then each f (map (fun i => (e, i)) (seq 0 (p_n p))) r else Ok r) cells s =
  each f (row_updates p cells) s.
Proof.
  intros. unfold row_updates. rewrite <- each_flat. apply each_ext. intros e r _. unfold has_active. destruct (existsb _ _); reflexivity.
Qed.
Lemma assemble_updates : forall p o cells s, assemble p o cells s = assemble_sched p o (row_updates p cells) s.
Proof. intros. unfold assemble, assemble_sched, cell_step. now rewrite <- cells_updates. Qed.

Lemma in_updates : forall p cells e i, In (e, i) (row_updates p cells) <-> In e cells /\ (i < p_n p)%nat /\ has_active e = true.
Proof.
  intros. unfold row_updates. rewrite in_flat_map. split.
  - intros (x & I & J). destruct (has_active x) eqn:A; [|destruct J]. apply in_map_iff in J as (k & E & K). injection E as <- <-.
    apply in_seq in K. repeat split; auto; lia.
  - intros (I & L & A). exists e. split; [exact I|]. rewrite A. apply in_map_iff. exists i. split; [reflexivity|]. apply in_seq. lia.
Qed.
Lemma inactive_owned : forall e i, has_active e = false -> owned e i = false.
Proof.
  intros e i H. unfold owned. destruct (nth i (c_ghost e) true) eqn:G; [reflexivity|]. exfalso.
  unfold has_active in H. assert (existsb negb (c_ghost e) = true); [|congruence].
  apply existsb_exists. exists false. split; [|reflexivity]. rewrite <- G. apply nth_In.
  destruct (Nat.lt_ge_cases i (length (c_ghost e))) as [|L]; [assumption|]. rewrite nth_overflow in G by exact L. discriminate.
Qed.

Lemma Rsum_if : forall n (b : bool) f, Rsum n (fun j => if b then f j else 0) = if b then Rsum n f else 0.
Proof. intros n b f. destruct b; [reflexivity|]. now apply Rsum_zero. Qed.
Lemma cell_rowc : forall p o e r c, Rsum (p_n p) (fun i => rowc p o (e, i) r c) = contribution (drop_val o) (p_n p) e r c.
Proof.
  intros. unfold contribution. apply Rsum_ext. intros i Hi. unfold rowc. rewrite <- Rsum_if. apply Rsum_ext. intros j Hj.
  destruct (owned e i && (dof e i =? r)%nat); cbn [andb]; reflexivity.
Qed.
Lemma updates_rowc : forall p o cells r c,
  lsum (map (fun ei => rowc p o ei r c) (row_updates p cells)) = lsum (map (fun e => contribution (drop_val o) (p_n p) e r c) cells).
Proof.
  intros. unfold row_updates. induction cells as [|e cells IH]; [reflexivity|]. cbn [flat_map map].
  rewrite map_app, lsum_app, IH. change (lsum (?x :: ?l)) with (x + lsum l). f_equal. destruct (has_active e) eqn:A.
  - rewrite map_map, lsum_Rsum. apply cell_rowc.
  - cbn. rewrite <- cell_rowc. symmetry. apply Rsum_zero. intros i _. unfold rowc. now rewrite inactive_owned.
Qed.
Lemma updates_loadc : forall p cells r,
  lsum (map (fun ei => loadc ei r) (row_updates p cells)) = lsum (map (fun e => load (p_n p) e r) cells).
Proof.
  intros. unfold row_updates. induction cells as [|e cells IH]; [reflexivity|]. cbn [flat_map map].
  rewrite map_app, lsum_app, IH. change (lsum (?x :: ?l)) with (x + lsum l). f_equal. destruct (has_active e) eqn:A.
  - rewrite map_map, lsum_Rsum. reflexivity.
  - cbn. symmetry. apply Rsum_zero. intros i _. now rewrite inactive_owned.
Qed.
Lemma updates_touch : forall p o cells r c, (forall e, In e cells -> True) ->
  (exists ei, In ei (row_updates p cells) /\ touch p o ei r c) <-> exists e, In e cells /\ touches (drop_val o) (p_n p) e r c.
Proof.
  intros p o cells r c _. split.
  - intros ((e, i) & I & O & D & j & L & D' & K). apply in_updates in I as (I & Li & _). exists e. split; [exact I|].
    exists i, j. repeat split; assumption.
  - intros (e & I & i & j & Li & Lj & O & D & D' & K). exists (e, i). split.
    + apply in_updates. repeat split; auto. destruct (has_active e) eqn:A; [reflexivity|].
      rewrite (inactive_owned e i A) in O. discriminate.
    + split; [exact O|]. split; [exact D|]. exists j. auto.
Qed.

(** *** The whole assembly, for any order of the row updates *)
Section Whole.
Variables (p : prob) (o : opts) (cells : list cell) (m : list row) (rhs : list R) (sched : list (cell * nat)).
Hypothesis Hin : input_ok p o cells (m, rhs).
Hypothesis Hs : Permutation sched (row_updates p cells).
Definition T (r c : nat) : Prop := exists e, In e cells /\ touches (drop_val o) (p_n p) e r c.

Lemma sched_ok : forall ei, In ei sched -> step_ok p o (length m) T ei.
Proof using Hin Hs.
  intros (e, i) I. eapply Permutation_in in I; [|exact Hs]. apply in_updates in I as (I & L & _).
  destruct Hin as (_ & C & D & G & _). split; [now apply C|]. split; [exact L|]. split; [intros; now apply G|].
  split; [intros; now apply D|]. intros r c (O & E & j & Lj & Ej & K). exists e. split; [exact I|]. exists i, j. repeat split; assumption.
Qed.
Lemma start_inv : inv p o (length m) T (prepare p o m, rhs).
Proof using Hin.
  destruct Hin as (L & C & D & G & M). destruct (prepare_ok p o cells m M) as (A & B & E).
  split; [apply prepare_length|]. split; [exact L|]. split; [exact A|]. intros O1 O2 r c (e & I & Tc). cbn [fst].
  destruct M as (_ & _ & M). pose proof (M O1 O2 e r c I Tc) as J. unfold row_of in *.
  destruct (Nat.lt_ge_cases (r - p_beg p) (length m)) as [Lr|Lr].
  - apply E; [exact Lr|]. now left.
  - rewrite (nth_overflow m) in J by exact Lr. destruct J.
Qed.

Lemma whole_ok : (forall e, In e cells -> cell_finite (p_n p) e) ->
  exists m' rhs', assemble_sched p o sched (m, rhs) = Ok (m', rhs') /\
    assembled p o cells (m, rhs) (m', rhs') /\ positions p o cells m m'.
Proof using Hin Hs.
  intros F. destruct (steps_ok p o (length m) T sched (prepare p o m, rhs) sched_ok) as ((m', rhs') & E & I & A).
  - intros (e, i) J Ho. eapply Permutation_in in J; [|exact Hs]. apply in_updates in J as (J & L & _). now apply F.
  - exact start_inv.
  - exists m', rhs'. split; [exact E|]. destruct I as (L1 & L2 & R & _). destruct A as (A & B & C). cbn [fst snd] in *.
    destruct Hin as (L & _ & _ & _ & M). destruct (prepare_ok p o cells m M) as (_ & PE & PC).
    split; [split; [exact L1|]; split; [congruence|]; split|split; [|split]].
    + intros r c Hr. unfold mat_at, row_of. rewrite A by lia. rewrite PE by lia.
      replace (p_beg p + (r - p_beg p))%nat with r by lia. f_equal.
      rewrite <- updates_rowc. apply lsum_perm. now apply Permutation_map.
    + intros r Hr. unfold vec_at. rewrite B by lia. replace (p_beg p + (r - p_beg p))%nat with r by lia. f_equal.
      rewrite <- updates_loadc. apply lsum_perm. now apply Permutation_map.
    + intros q J. now apply R.
    + intros O q J. now apply R.
    + intros r c Hr. unfold row_of. rewrite C by lia. rewrite PC by lia.
      replace (p_beg p + (r - p_beg p))%nat with r by lia.
      rewrite <- (updates_touch p o cells r c (fun _ _ => Logic.I)). split.
      * intros [[J|J]|(x & J & K)]; [auto|auto|]. right. right. exists x. split; [|exact K]. eapply Permutation_in; eassumption.
      * intros [J|[J|(x & J & K)]]; [auto|auto|]. right. exists x. split; [|exact K].
        eapply Permutation_in; [apply Permutation_sym; exact Hs|exact J].
Qed.
Lemma whole_fail : ~ (forall e, In e cells -> cell_finite (p_n p) e) -> assemble_sched p o sched (m, rhs) = Fail.
Proof using Hin Hs.
  intros NF. unfold assemble_sched. apply (steps_fail p o (length m) T); [exact sched_ok|exact start_inv|].
  assert (Dec : forall l, (forall e, In e l -> cell_finite (p_n p) e) \/
    exists e i, In e l /\ (i < p_n p)%nat /\ owned e i = true /\ ~ row_finite (p_n p) e i).
  { induction l as [|e l [IH|IH]].
    - left. intros ? [].
    - assert (D : forall k, (k <= p_n p)%nat -> (forall i, (i < k)%nat -> owned e i = true -> row_finite (p_n p) e i) \/
         exists i, (i < p_n p)%nat /\ owned e i = true /\ ~ row_finite (p_n p) e i).
      { induction k; intros Hk; [left; intros; lia|]. destruct IHk as [IHk|IHk]; [lia| |now right].
        destruct (owned e k) eqn:O.
        - destruct (row_finite_dec p e k) as [Fk|Fk].
          + left. intros i Hi Oi. destruct (Nat.eq_dec i k) as [->|]; [exact Fk|]. apply IHk; [lia|exact Oi].
          + right. exists k. split; [lia|]. split; [exact O|]. intros (V & M).
            destruct Fk as [(j & L & Mj & Nj)|[_ Vk]]; [exact (M j L Mj Nj)|contradiction].
        - left. intros i Hi Oi. destruct (Nat.eq_dec i k) as [->|]; [congruence|]. apply IHk; [lia|exact Oi]. }
      destruct (D (p_n p) (Nat.le_refl _)) as [De|(i & De)].
      + left. intros e' [<-|I']; [exact De|now apply IH].
      + right. exists e, i. cbn. tauto.
    - right. destruct IH as (e' & i & I' & R). exists e', i. cbn. tauto. }
  destruct (Dec cells) as [D|(e & i & I & L & O & N)]; [contradiction|].
  exists e, i. split; [|auto]. eapply Permutation_in; [apply Permutation_sym; exact Hs|]. apply in_updates. repeat split; auto.
  destruct (has_active e) eqn:A; [reflexivity|]. rewrite (inactive_owned e i A) in O. discriminate.
Qed.
End Whole.
