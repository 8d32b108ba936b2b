(** Sequences of row updates: the assembled matrix and vector. *)
From Verif Require Import Prelude RSum AsmModel AsmSpec AsmProofs AsmProofs2 AsmProofs3.
From Coq Require Import Reals Sorted Permutation Lra.
Open Scope R_scope.

Lemma wr_nth : forall {A} (l : list A) k v l' d, wr l k v = Some l' ->
  length l' = length l /\ (k < length l)%nat /\ forall i, nth i l' d = if (i =? k)%nat then v else nth i l d.
Proof.
  intros A. induction l as [|x l IH]; intros k v l' d W; [destruct k; discriminate|].
  destruct k; cbn in W.
  - injection W as <-. cbn. split; [reflexivity|]. split; [lia|]. intros [|i]; reflexivity.
  - destruct (wr l k v) as [t|] eqn:E; [|discriminate]. injection W as <-.
    destruct (IH k v t d E) as (L & K & H). cbn [length]. split; [congruence|]. split; [lia|]. intros [|i]; [reflexivity|]. cbn. apply H.
Qed.
Lemma wr_in : forall {A} (l : list A) k v l' x, wr l k v = Some l' -> In x l' -> x = v \/ In x l.
Proof.
  intros A. induction l as [|y l IH]; intros k v l' x W I; [destruct k; discriminate|].
  destruct k; cbn in W.
  - injection W as <-. destruct I; cbn; auto.
  - destruct (wr l k v) as [t|] eqn:E; [|discriminate]. injection W as <-. destruct I as [->|I]; [cbn; auto|].
    destruct (IH _ _ _ _ E I); cbn; auto.
Qed.

Lemma lsum1 : forall x, lsum [x] = x.
Proof. intros. unfold lsum. cbn. lra. Qed.

Definition rowc (p : prob) (o : opts) (ei : cell * nat) (r c : nat) : R :=
  let (e, i) := ei in
  if owned e i && (dof e i =? r)%nat
  then Rsum (p_n p) (fun j => if (dof e j =? c)%nat && kept (drop_val o) (p_n p) e i j then term p e i j else 0) else 0.
Definition loadc (ei : cell * nat) (r : nat) : R :=
  let (e, i) := ei in if owned e i && (dof e i =? r)%nat then sgn e i * value (vec e i) else 0.
Definition touch (p : prob) (o : opts) (ei : cell * nat) (r c : nat) : Prop :=
  let (e, i) := ei in
  owned e i = true /\ dof e i = r /\ exists j, (j < p_n p)%nat /\ dof e j = c /\ kept (drop_val o) (p_n p) e i j = true.

Section Steps.
Variables (p : prob) (o : opts) (rows : nat) (T : nat -> nat -> Prop).
Local Notation n := (p_n p).
Local Notation beg := (p_beg p).

(** What is assumed of an update. *)
Definition step_ok (ei : cell * nat) : Prop :=
  let (e, i) := ei in
  cell_ok p rows e /\ (i < n)%nat /\ (p_same p = false -> owned e i = true) /\
  (use_ordered_insert o = true -> NoDup (c_dof e)) /\
  (forall r c, touch p o (e, i) r c -> T r c).
Definition step_fin (ei : cell * nat) : Prop :=
  let (e, i) := ei in owned e i = true -> row_finite n e i.

Definition inv (s : state) : Prop :=
  length (fst s) = rows /\ length (snd s) = rows /\ (forall q, In q (fst s) -> row_ok o q) /\
  (use_ordered_insert o = true -> is_mtx_include_template o = true ->
   forall r c, T r c -> In c (cols (row_of beg (fst s) r))).

Definition added (ups : list (cell * nat)) (s s' : state) : Prop :=
  (forall k c, (k < rows)%nat ->
     entry (nth k (fst s') []) c = entry (nth k (fst s) []) c + lsum (map (fun ei => rowc p o ei (beg + k) c) ups)) /\
  (forall k, (k < rows)%nat ->
     nth k (snd s') 0 = nth k (snd s) 0 + lsum (map (fun ei => loadc ei (beg + k)) ups)) /\
  (forall k c, (k < rows)%nat ->
     In c (cols (nth k (fst s') [])) <-> In c (cols (nth k (fst s) [])) \/ exists ei, In ei ups /\ touch p o ei (beg + k) c).

Lemma added_nil : forall s, added [] s s.
Proof using.
  intros s. split; [|split]; intros; cbn [map]; change (lsum []) with 0; try lra.
  split; [auto|]. intros [|(? & [] & _)]. assumption.
Qed.
Lemma added_cons : forall ei ups s s1 s2, added [ei] s s1 -> added ups s1 s2 -> added (ei :: ups) s s2.
Proof using.
  intros ei ups s s1 s2 (A1 & B1 & C1) (A2 & B2 & C2). split; [|split]; intros.
  - rewrite A2, A1 by assumption. cbn. unfold lsum. lra.
  - rewrite B2, B1 by assumption. cbn. unfold lsum. lra.
  - rewrite C2, C1 by assumption. split.
    + intros [[I|(x & [->|[]] & H')]|(x & I & H')]; [now left|right; exists x; cbn; auto|right; exists x; cbn; auto].
    + intros [I|(x & [->|I] & H')]; [auto|left; right; exists x; cbn; auto|right; eauto].
Qed.

Lemma local_row_ok : forall e i, cell_ok p rows e -> (i < n)%nat -> owned e i = true ->
  local_row p rows (Z.of_nat (dof e i)) = Ok (dof e i - beg)%nat /\ (beg <= dof e i < beg + rows)%nat.
Proof using.
  intros e i (_ & _ & _ & _ & _ & _ & _ & D) Hi Ho. specialize (D i Hi Ho). split; [|exact D].
  unfold local_row. rewrite (proj2 (Z.leb_le _ _)) by lia. rewrite (proj2 (Z.ltb_lt _ _)) by lia. cbn [andb].
  now rewrite Nat2Z.id.
Qed.

Lemma row_step_skip : forall e i s, step_ok (e, i) -> owned e i = false -> row_step p o (e, i) s = Ok s.
Proof using.
  intros e i (m, rhs) (Hc & Hi & Hs & _) Ho. unfold row_step.
  rewrite (codes_R_rd p rows e Hc i Hi Hs), Ho. reflexivity.
Qed.

Lemma row_step_ok : forall ei s, step_ok ei -> step_fin ei -> inv s ->
  exists s', row_step p o ei s = Ok s' /\ inv s' /\ added [ei] s s'.
Proof using.
  intros (e, i) s Hok Hfin Hinv. destruct (owned e i) eqn:Ho; cycle 1.
  { exists s. split; [now apply row_step_skip|]. split; [exact Hinv|]. split; [|split]; intros; cbn [map].
    - unfold rowc. rewrite Ho. cbn [andb]. rewrite lsum1. lra.
    - unfold loadc. rewrite Ho. cbn [andb]. rewrite lsum1. lra.
    - split; [auto|]. intros [|(x & [<-|[]] & H')]; [assumption|]. cbn in H'. rewrite Ho in H'. destruct H'. discriminate. }
  destruct s as (m, rhs). pose proof Hok as Hok'. destruct Hok as (Hc & Hi & Hs & Hnd & Ht). destruct Hinv as (Lm & Lr & Rq & Tq). cbn [fst snd] in *.
  destruct (local_row_ok e i Hc Hi Ho) as (Er & Bd).
  specialize (Hfin Ho). destruct Hfin as (Fv & Fm).
  assert (Hv : rd (c_F e) i = Some (vec e i)).
  { unfold vec. apply rd_nth_lt. destruct Hc as (_ & _ & _ & _ & _ & L & _). lia. }
  unfold row_step. rewrite (codes_R_rd p rows e Hc i Hi Hs), Ho. cbn [get rbind]. rewrite encode_defined, decode_encode, Lm, Er.
  cbn [rbind]. rewrite Hv. cbn [get rbind]. set (k := (dof e i - beg)%nat) in *. assert (Kl : (k < rows)%nat) by (unfold k; lia).
  rewrite (rd_nth_lt rhs k 0) by lia. cbn [get rbind].
  destruct (wr_some rhs k (nth k rhs 0 + signR (sz e i) * value (vec e i))) as (rhs' & Wr & _ & _); [lia|].
  rewrite Wr. cbn [get rbind]. rewrite (rd_nth_lt m k []) by lia. cbn [get rbind].
  destruct (row_update_ok p o rows e Hc i Hi (nth k m [])) as (q' & Eu & Rq' & A & C).
  { apply Rq. apply nth_In. lia. }
  { exact Hnd. }
  { exact Fm. }
  { intros O1 O2 j Hj K. specialize (Tq O1 O2 (dof e i) (dof e j)). apply Tq. apply Ht.
    split; [exact Ho|]. split; [reflexivity|]. exists j. auto. }
  rewrite Eu. cbn [rbind]. destruct (wr_some m k q') as (m' & Wm & _ & _); [lia|]. rewrite Wm. cbn [get rbind].
  destruct (vec e i) as [f|] eqn:Ev; [|congruence].
  destruct (wr_nth _ _ _ _ [] Wm) as (Lm' & _ & Nm). destruct (wr_nth _ _ _ _ 0 Wr) as (Lr' & _ & Nr).
  assert (Dk : forall k', (k' < rows)%nat -> (dof e i =? beg + k')%nat = (k' =? k)%nat).
  { intros k' Hk'. unfold k. destruct (k' =? _)%nat eqn:E1; [apply Nat.eqb_eq in E1; apply Nat.eqb_eq; lia|].
    apply Nat.eqb_neq in E1. apply Nat.eqb_neq. lia. }
  exists (m', rhs'). split; [reflexivity|].
  assert (Cm : forall k' c, (k' < rows)%nat -> In c (cols (nth k' m' [])) <-> In c (cols (nth k' m [])) \/ exists ei, In ei [(e, i)] /\ touch p o ei (beg + k') c).
  { intros k' c Hk'. rewrite Nm. specialize (Dk k' Hk'). destruct (k' =? k)%nat eqn:E1.
    - apply Nat.eqb_eq in E1; subst k'. apply Nat.eqb_eq in Dk. rewrite C. split.
      + intros [I|(j & Hj)]; [now left|]. right. exists (e, i). split; [now left|]. split; [exact Ho|]. split; [exact Dk|]. exists j. exact Hj.
      + intros [I|(x & [<-|[]] & _ & _ & j & Hj)]; [now left|]. right. exists j. exact Hj.
    - split; [auto|]. intros [I|(x & [<-|[]] & _ & D & _)]; [exact I|]. apply Nat.eqb_neq in Dk. contradiction. }
  split.
  - split; [exact (eq_trans Lm' Lm)|]. split; [exact (eq_trans Lr' Lr)|]. split.
    + intros q I. cbn in I. destruct (wr_in _ _ _ _ _ Wm I) as [->|I']; [exact Rq'|now apply Rq].
    + intros O1 O2 r c HT. specialize (Tq O1 O2 r c HT). cbn [fst]. unfold row_of in *.
      destruct (Nat.lt_ge_cases (r - beg) rows) as [Hr|Hr].
      * apply Cm; [exact Hr|]. now left.
      * rewrite (nth_overflow m) in Tq by lia. destruct Tq.
  - split; [|split].
    + intros k' c Hk'. cbn [fst map]. rewrite Nm. unfold rowc. rewrite Ho, (Dk k' Hk'). cbn [andb].
      rewrite lsum1. destruct (k' =? k)%nat eqn:E1; [|rewrite Rplus_0_r; reflexivity]. apply Nat.eqb_eq in E1; subst k'. rewrite A. reflexivity.
    + intros k' Hk'. cbn [snd map]. rewrite Nr. unfold loadc. rewrite Ho, (Dk k' Hk'). cbn [andb].
      rewrite lsum1. destruct (k' =? k)%nat eqn:E1; [|rewrite Rplus_0_r; reflexivity]. apply Nat.eqb_eq in E1; subst k'. rewrite sz_sgn, Ev. reflexivity.
    + exact Cm.
Qed.

Lemma steps_ok : forall ups s, (forall ei, In ei ups -> step_ok ei) -> (forall ei, In ei ups -> step_fin ei) -> inv s ->
  exists s', each (row_step p o) ups s = Ok s' /\ inv s' /\ added ups s s'.
Proof using.
  induction ups as [|ei ups IH]; intros s H F I.
  - exists s. split; [reflexivity|]. split; [exact I|apply added_nil].
  - destruct (row_step_ok ei s (H _ (or_introl eq_refl)) (F _ (or_introl eq_refl)) I) as (s1 & E1 & I1 & A1).
    destruct (IH s1) as (s2 & E2 & I2 & A2); auto; [intros; apply H; now right|intros; apply F; now right|].
    exists s2. split; [cbn; rewrite E1; exact E2|]. split; [exact I2|]. eapply added_cons; eassumption.
Qed.

(** An update of an owned row that contains a number that is not finite reports it. *)
Lemma dec_list : forall (P : nat -> bool) l, (exists x, In x l /\ P x = true) \/ (forall x, In x l -> P x = false).
Proof using.
  intros P l. destruct (existsb P l) eqn:E.
  - left. apply existsb_exists in E. exact E.
  - right. intros x I. destruct (P x) eqn:Px; [|reflexivity].
    assert (existsb P l = true) by (apply existsb_exists; eauto). congruence.
Qed.
Lemma row_finite_dec : forall e i,
  row_finite n e i \/ (exists j, (j < n)%nat /\ in_mask n e i j = true /\ mat n e i j = None) \/
  ((forall j, (j < n)%nat -> in_mask n e i j = true -> mat n e i j <> None) /\ vec e i = None).
Proof using.
  intros e i.
  destruct (dec_list (fun j => in_mask n e i j && match mat n e i j with None => true | _ => false end) (seq 0 n)) as [(j & I & H)|H].
  - right. left. apply andb_true_iff in H as [M N]. exists j. apply in_seq in I. split; [lia|]. split; [exact M|].
    destruct (mat n e i j); [discriminate|reflexivity].
  - assert (F : forall j, (j < n)%nat -> in_mask n e i j = true -> mat n e i j <> None).
    { intros j Hj M N. specialize (H j). rewrite M, N in H. discriminate H. apply in_seq. lia. }
    destruct (vec e i) eqn:V; [left; split; [congruence|exact F]|right; right; auto].
Qed.
Lemma row_step_fail : forall e i s, step_ok (e, i) -> inv s -> owned e i = true -> ~ row_finite n e i ->
  row_step p o (e, i) s = Fail.
Proof using.
  intros e i (m, rhs) (Hc & Hi & Hs & Hnd & Ht) (Lm & Lr & Rq & Tq) Ho NF. cbn [fst snd] in *.
  destruct (local_row_ok e i Hc Hi Ho) as (Er & Bd).
  assert (Hv : rd (c_F e) i = Some (vec e i)).
  { unfold vec. apply rd_nth_lt. destruct Hc as (_ & _ & _ & _ & _ & L & _). lia. }
  unfold row_step. rewrite (codes_R_rd p rows e Hc i Hi Hs), Ho. cbn [get rbind]. rewrite encode_defined, decode_encode, Lm, Er.
  cbn [rbind]. rewrite Hv. cbn [get rbind]. set (k := (dof e i - beg)%nat) in *. assert (Kl : (k < rows)%nat) by (unfold k; lia).
  rewrite (rd_nth_lt rhs k 0) by lia. cbn [get rbind].
  destruct (wr_some rhs k (nth k rhs 0 + signR (sz e i) * value (vec e i))) as (rhs' & Wr & _ & _); [lia|].
  rewrite Wr. cbn [get rbind]. rewrite (rd_nth_lt m k []) by lia. cbn [get rbind].
  destruct (row_finite_dec e i) as [F|[F|[F V]]]; [contradiction| |].
  - now rewrite (row_update_fail p o rows e Hc i Hi (nth k m []) F).
  - destruct (row_update_ok p o rows e Hc i Hi (nth k m [])) as (q' & Eu & Rq' & A & C).
    { apply Rq. apply nth_In. lia. }
    { exact Hnd. }
    { exact F. }
    { intros O1 O2 j Hj K. specialize (Tq O1 O2 (dof e i) (dof e j)). apply Tq. apply Ht.
      split; [exact Ho|]. split; [reflexivity|]. exists j. auto. }
    rewrite Eu. cbn [rbind]. destruct (wr_some m k q') as (m' & Wm & _ & _); [lia|]. rewrite Wm. cbn [get rbind].
    now rewrite V.
Qed.
Lemma steps_fail : forall ups s, (forall ei, In ei ups -> step_ok ei) -> inv s ->
  (exists e i, In (e, i) ups /\ owned e i = true /\ ~ row_finite n e i) ->
  each (row_step p o) ups s = Fail.
Proof using.
  induction ups as [|[e i] ups IH]; intros s H I (e0 & i0 & In0 & O0 & N0); [destruct In0|]. cbn [each].
  destruct (owned e i) eqn:Ho.
  - destruct (row_finite_dec e i) as [F|F].
    + destruct (row_step_ok (e, i) s (H _ (or_introl eq_refl))) as (s1 & -> & I1 & _); [intros _; exact F|exact I|].
      cbn [rbind]. apply IH; [intros; apply H; now right|exact I1|]. exists e0, i0.
      destruct In0 as [E|In0]; [injection E as -> ->; contradiction|auto].
    + rewrite row_step_fail; [reflexivity|apply H; now left|exact I|exact Ho|].
      intros (Fv & Fm). destruct F as [(j & L & M & N)|[_ V]]; [exact (Fm j L M N)|contradiction].
  - rewrite row_step_skip; [|apply H; now left|exact Ho]. cbn [rbind].
    apply IH; [intros; apply H; now right|exact I|]. exists e0, i0.
    destruct In0 as [E|In0]; [injection E as -> ->; congruence|auto].
Qed.
End Steps.
