(** Evaluation of the tensors and all the overloads of applyDU. *)
From Verif Require Import Prelude RSum DirProofs2 DenseProofs2 DenseProofs3 CoreModel CoreSpec CoreProofs CoreProofs2.
Local Open Scope R_scope.

Definition compatP (jdim idim nfa : nat) : Prop := jdim = idim \/ (nfa = 1 /\ idim = 1)%nat.
Lemma compat_true : forall jdim idim nfa, compatP jdim idim nfa -> compat idim jdim nfa = true.
Proof. unfold compat. intros jdim idim nfa [->|[-> ->]]; [now rewrite Nat.eqb_refl|]. cbn. now rewrite orb_true_r. Qed.
Lemma compat_le : forall jdim idim nfa, (0 < jdim)%nat -> compatP jdim idim nfa -> (idim <= jdim)%nat.
Proof. intros jdim idim nfa H [->|[_ ->]]; lia. Qed.

Section DU2.
Variables (q f jdim idim nfa : nat) (U : band) (u : nat -> nat -> nat -> nat -> R) (w mes : list R) (wt vol : nat -> R).
Hypothesis HU : band_of U idim nfa q f u.
Hypothesis Hw : forall n, (n < q)%nat -> rd w n = Some (wt n).
Hypothesis Hmes : forall r, (r < f)%nat -> rd mes r = Some (vol r).
Hypothesis Hq : (0 < q)%nat.
Hypothesis Hf : (0 < f)%nat.
Hypothesis Hi0 : (0 < idim)%nat.
Hypothesis Hj0 : (0 < jdim)%nat.
Variable Dm : nat -> nat -> nat -> nat -> R. (* element, point, row, column *)
Definition vv (k n i r : nat) : R := wt n * vol r * Rsum idim (fun j => Dm r n k j * u r n j i).
Local Notation CP := (compatP jdim idim nfa).
Local Notation ix := (idx4 jdim q nfa).
Local Notation PV := (Pv q f jdim nfa vv).
Local Notation SR := (Sr q jdim nfa).
Local Notation READY := (ready q f jdim nfa U vv).

Lemma unit_sum : forall (s : R) (g : nat -> R) k, CP -> (k < jdim)%nat ->
  Rsum idim (fun j => s * unit_entry jdim idim k j * g j) = s * g (if (jdim =? idim)%nat then k else 0%nat).
Proof.
  intros s g k Hc Hk. unfold unit_entry. destruct (Nat.eqb_spec jdim idim) as [E|E].
  - rewrite (Rsum_single idim k); [rewrite Nat.eqb_refl; lra|lia|]. intros j Hj Hne. destruct (Nat.eqb_spec k j); [lia|lra].
  - destruct Hc as [|[_ Ei]]; [lia|]. rewrite Ei. cbn. lra.
Qed.
Lemma vv_diag : forall (s : nat -> R) r n i k, CP -> (r < f)%nat -> (n < q)%nat -> (forall k j, (k < jdim)%nat -> (j < idim)%nat -> Dm r n k j = s n * unit_entry jdim idim k j) ->
  (k < idim)%nat -> vv k n i r = s n * wt n * vol r * u r n k i.
Proof.
  intros s r n i k Hc Hr Hn HD Hk. pose proof (compat_le _ _ _ Hj0 Hc). unfold vv. rewrite (Rsum_ext idim _ (fun j => s n * unit_entry jdim idim k j * u r n j i)) by (intros j Hj; rewrite HD by lia; reflexivity).
  rewrite (unit_sum (s n) (fun j => u r n j i)) by (try exact Hc; lia). destruct (Nat.eqb_spec jdim idim); [lra|]. destruct Hc as [|[_ Ei]]; [lia|]. replace k with 0%nat by lia. lra.
Qed.
Lemma vv_rep : forall (s : nat -> R) r n k, CP -> jdim <> idim -> (r < f)%nat -> (n < q)%nat -> (forall k j, (k < jdim)%nat -> (j < idim)%nat -> Dm r n k j = s n * unit_entry jdim idim k j) ->
  (k < jdim)%nat -> vv k n 0%nat r = vv 0%nat n 0%nat r.
Proof.
  intros s r n k Hc Hne Hr Hn HD Hk. unfold vv. f_equal. apply Rsum_ext. intros j Hj. rewrite !HD by lia. unfold unit_entry. destruct (Nat.eqb_spec jdim idim); [lia|reflexivity].
Qed.
Lemma Sr_split : forall r c, CP -> SR r c <-> Sd q jdim idim nfa r c \/ Se q jdim idim nfa r c.
Proof.
  intros r c Hc. pose proof (compat_le _ _ _ Hj0 Hc). split.
  - intros (k & n & i & Hk & Hn & Hi & ->). destruct (Nat.lt_ge_cases k idim); [left; exists k, n, i; auto|]. right. exists n, k. destruct Hc as [|[E _]]; [lia|]. replace i with 0%nat by lia. auto.
  - intros [(k & n & i & Hk & Hn & Hi & ->)|(n & k & Hn & Hk & ->)]; [exists k, n, i; repeat split; auto; lia|]. destruct Hc as [|[E _]]; [lia|]. exists k, n, 0%nat. repeat split; auto; lia.
Qed.

(** diagonal tensor, one element (diff_tensor.h PerTetra) *)
Lemma diag_elem_ok : forall sc s r DU, (r < f)%nat -> CP -> (jdim * q * nfa * f <= length DU)%nat -> READY DU ->
  (forall n, (n < q)%nat -> sc n = Some (s n)) ->
  (forall n k j, (n < q)%nat -> (k < jdim)%nat -> (j < idim)%nat -> Dm r n k j = s n * unit_entry jdim idim k j) ->
  exists DU1 DU', du_diag q jdim nfa U w mes sc r DU = Some DU1 /\ du_expand q jdim idim nfa r DU1 = Some DU' /\ step (SR r) PV DU DU'.
Proof.
  intros sc s r DU Hr Hc HL HR Hsc HD.
  destruct (du_diag_ok q f jdim idim nfa U u w mes wt vol HU Hw Hmes vv sc s r DU Hr (compat_le _ _ _ Hj0 Hc) HL Hsc HR) as (DU1 & E1 & S1).
  { intros k n i Hk Hn Hi. apply vv_diag; auto. }
  destruct (du_expand_ok q f jdim idim nfa vv r DU1 Hr) as (DU2 & E2 & S2).
  - intros Hne. destruct Hc as [|[En Ei]]; [lia|]. repeat split; auto. intros k n Hk Hn. apply (vv_rep s); auto. now right.
  - exact (compat_le _ _ _ Hj0 Hc).
  - destruct S1 as (L & _). lia.
  - intros n Hn _ Hn0. destruct S1 as (_ & A & _). destruct (A (ix 0 n 0 r)) as (x & Ex & Hx); [exists 0%nat, n, 0%nat; auto|]. rewrite Ex. f_equal. apply (Pv_val q f jdim nfa vv 0 n 0 r x); auto.
  - exists DU1, DU2. split; [exact E1|]. split; [exact E2|]. eapply step_weak; [exact (step_trans _ _ _ _ _ _ S1 S2)| |auto]. intros c. symmetry. now apply Sr_split.
Qed.

Definition kind_ok (k : tkind) (DIFF : list R) (off : nat -> nat -> nat) : Prop :=
  match k with
  | KFull => forall r n k j, (r < f)%nat -> (n < q)%nat -> (k < jdim)%nat -> (j < idim)%nat -> rd DIFF (off r n + (j + idim * k)) = Some (Dm r n k j)
  | KScalar => CP /\ exists s : nat -> nat -> R, forall r n, (r < f)%nat -> (n < q)%nat -> rd DIFF (off r n) = Some (s r n) /\ forall k j, (k < jdim)%nat -> (j < idim)%nat -> Dm r n k j = s r n * unit_entry jdim idim k j
  | KNull => CP /\ forall r n k j, (r < f)%nat -> (n < q)%nat -> (k < jdim)%nat -> (j < idim)%nat -> Dm r n k j = unit_entry jdim idim k j
  end.
Lemma diag_all_ok : forall (sc : nat -> nat -> option R) (s : nat -> nat -> R) DU, CP -> (jdim * q * nfa * f <= length DU)%nat -> READY DU ->
  (forall r n, (r < f)%nat -> (n < q)%nat -> sc r n = Some (s r n)) ->
  (forall r n k j, (r < f)%nat -> (n < q)%nat -> (k < jdim)%nat -> (j < idim)%nat -> Dm r n k j = s r n * unit_entry jdim idim k j) ->
  exists DU1 DU', for_ f (fun r DU => du_diag q jdim nfa U w mes (sc r) r DU) DU = Some DU1 /\ for_ f (fun r DU => du_expand q jdim idim nfa r DU) DU1 = Some DU' /\
    step (fun c => exists r, (r < f)%nat /\ SR r c) PV DU DU'.
Proof.
  intros sc s DU Hc HL HR Hsc HD.
  destruct (for_step (Sd q jdim idim nfa) PV (fun l => length l = length DU /\ READY l) f (fun r DU => du_diag q jdim nfa U w mes (sc r) r DU) DU) as (DU1 & E1 & S1 & L1 & R1).
  { split; [reflexivity|exact HR]. }
  { intros r l Hr (Ll & Rl). destruct (du_diag_ok q f jdim idim nfa U u w mes wt vol HU Hw Hmes vv (sc r) (s r) r l Hr (compat_le _ _ _ Hj0 Hc)) as (l' & E & St); auto; [lia| |].
    - intros k n i Hk Hn Hi. apply vv_diag; auto.
    - exists l'. split; [exact E|]. split; [exact St|]. split; [destruct St; congruence|]. now apply (ready_step q f jdim nfa U vv (Sd q jdim idim nfa r) l). }
  assert (H0 : forall r n, (r < f)%nat -> (n < q)%nat -> (0 < nfa)%nat -> rd DU1 (ix 0 n 0 r) = Some (vv 0%nat n 0%nat r)).
  { intros r n Hr Hn Hn0. destruct S1 as (_ & A & _). destruct (A (ix 0 n 0 r)) as (x & Ex & Hx); [exists r; split; [exact Hr|]; exists 0%nat, n, 0%nat; auto|]. rewrite Ex. f_equal. apply (Pv_val q f jdim nfa vv 0 n 0 r x); auto. }
  destruct (for_step (Se q jdim idim nfa) PV (fun l => length l = length DU /\ forall r n, (r < f)%nat -> (n < q)%nat -> (0 < nfa)%nat -> rd l (ix 0 n 0 r) = Some (vv 0%nat n 0%nat r)) f
     (fun r DU => du_expand q jdim idim nfa r DU) DU1) as (DU2 & E2 & S2 & _).
  { split; [exact L1|exact H0]. }
  { intros r l Hr (Ll & Hl). destruct (du_expand_ok q f jdim idim nfa vv r l Hr) as (l' & E & St).
    - intros Hne. destruct Hc as [|[En Ei]]; [lia|]. repeat split; auto. intros k n Hk Hn. apply (vv_rep (s r)); auto. now right.
    - exact (compat_le _ _ _ Hj0 Hc).
    - lia.
    - intros n Hn _ Hn0. now apply Hl.
    - exists l'. split; [exact E|]. split; [exact St|]. split; [destruct St; congruence|]. intros r' n Hr' Hn Hn0. rewrite (step_keep _ _ _ _ _ St); [now apply Hl|].
      intros (n' & k' & Hn' & Hk' & Ec). apply idx4_inj in Ec; try lia. }
  exists DU1, DU2. split; [exact E1|]. split; [exact E2|]. eapply step_weak; [exact (step_trans _ _ _ _ _ _ S1 S2)| |auto]. intros c. split.
  - intros [(r & Hr & H)|(r & Hr & H)]; exists r; (split; [exact Hr|]); apply Sr_split; auto.
  - intros (r & Hr & H). apply Sr_split in H; [|exact Hc]. destruct H; [left|right]; now exists r.
Qed.
Lemma du_by_kind_ok : forall k DIFF off DU, (jdim * q * nfa * f <= length DU)%nat -> kind_ok k DIFF off -> (k = KFull \/ READY DU) ->
  exists DU', du_by_kind k q f jdim idim nfa U w mes DIFF off DU = Some DU' /\ step (fun c => exists r, (r < f)%nat /\ SR r c) PV DU DU'.
Proof.
  intros k DIFF off DU HL Hk HR. destruct k; cbn [du_by_kind kind_ok] in *.
  - destruct Hk as (Hc & HD). rewrite (compat_true _ _ _ Hc). cbn [guard obind]. destruct HR as [|HR]; [discriminate|].
    destruct (diag_all_ok (fun _ _ => Some 1) (fun _ _ => 1) DU Hc HL HR) as (DU1 & DU2 & E1 & E2 & St); [reflexivity| |].
    { intros. rewrite HD by assumption. lra. }
    cbn [obind]. rewrite E1. cbn [obind]. now exists DU2.
  - destruct Hk as (Hc & s & HD). rewrite (compat_true _ _ _ Hc). cbn [guard obind]. destruct HR as [|HR]; [discriminate|].
    destruct (diag_all_ok (fun r n => rd DIFF (off r n)) s DU Hc HL HR) as (DU1 & DU2 & E1 & E2 & St); [intros; now apply HD|intros; now apply HD|].
    rewrite E1. cbn [obind]. now exists DU2.
  - apply for_step_len. intros r l Hr Ll. apply (du_gen_ok q f jdim idim nfa U u w mes wt vol HU Hw Hmes vv DIFF (off r) (Dm r) r l Hr); [lia| |].
    + intros. now apply Hk.
    + reflexivity.
Qed.
End DU2.

(** *** dfunc *)
Section EV.
Variables (jdim idim nfa : nat).
Hypothesis Hi0 : (0 < idim)%nat.
Hypothesis Hj0 : (0 < jdim)%nat.
Local Notation B := (idim * jdim)%nat.
(** value left at offset e of the block of a tensor *)
Definition W (t : tensor) (e : nat) : option R :=
  match t with
  | TNull => None
  | TScalar s => if (e =? 0)%nat then Some s else None
  | _ => if (e <? B)%nat then Some (tmat t jdim idim (e / idim) (e mod idim)) else None
  end.
Lemma W_lt : forall t e x, W t e = Some x -> (e < B)%nat.
Proof. intros [|s|m|m] e x; cbn [W]; [discriminate| | |]; repeat match goal with |- context [(?a =? ?b)%nat] => destruct (Nat.eqb_spec a b) | |- context [(?a <? ?b)%nat] => destruct (Nat.ltb_spec a b) end; intros HH; try discriminate; nia. Qed.
Lemma W_full : forall t k j, (kind t = KFull) -> (k < jdim)%nat -> (j < idim)%nat -> W t (j + idim * k) = Some (tmat t jdim idim k j).
Proof.
  intros t k j Ht Hk Hj. pose proof (cell_lt idim jdim j k Hj Hk). destruct (cell_split idim j k Hj) as [E1 E2].
  destruct t; cbn in Ht; try discriminate; cbn [W]; (destruct (Nat.ltb_spec (j + idim * k) B); [|lia]); now rewrite E1, E2.
Qed.
Definition Wset (t : tensor) (off c : nat) : Prop := exists e x, W t e = Some x /\ c = (off + e)%nat.
Definition Wval (t : tensor) (off c : nat) (x : R) : Prop := exists e, W t e = Some x /\ c = (off + e)%nat.

Lemma rd_nth0 : forall (l : list R) i, (i < length l)%nat -> rd l i = Some (nth i l 0).
Proof. intros. now apply nth_error_nth'. Qed.

Lemma dfunc_ok : forall F X it D off, tensor_ok jdim idim nfa (F X it) -> (off + B <= length D)%nat ->
  exists D', dfunc F X jdim idim it D off = Some (kind (F X it), D') /\ step (Wset (F X it) off) (Wval (F X it) off) D D'.
Proof.
  intros F X it D off Ht HL. unfold dfunc. destruct (F X it) as [|s|m|m] eqn:ET; cbn [kind].
  - exists D. split; [reflexivity|]. apply (step_weak (fun _ => False) _ (Wval TNull off) (Wval TNull off)); [apply step_refl| |auto]. intros c. split; [intros []|]. intros (e & x & E & _). discriminate.
  - destruct (step_wr (Wval (TScalar s) off) D off s) as (D' & E & St); [nia|exists 0%nat; split; [reflexivity|lia]|]. exists D'. rewrite E. split; [reflexivity|].
    eapply step_weak; [exact St| |auto]. intros c. split.
    + intros ->. exists 0%nat, s. split; [reflexivity|lia].
    + intros (e & x & E' & ->). cbn in E'. destruct (Nat.eqb_spec e 0); [lia|discriminate].
  - destruct Ht as (Eij & Hm & Hs). rewrite (proj2 (Nat.eqb_eq jdim idim) Eij). cbn [guard obind].
    destruct (for_step_len (fun i c => c = (off + i)%nat) (Wval (TSym m) off) (jdim * idim) (fun i D => do v <- rd m i; wr D (off + i) v) D) as (D' & E & St).
    { intros i l Hi Ll. rewrite rd_nth0 by lia. cbn [obind]. apply step_wr; [lia|]. exists i. split; [|reflexivity]. cbn [W]. destruct (Nat.ltb_spec i B); [|nia].
      f_equal. cbn [tmat]. subst jdim. pose proof (Nat.div_mod i idim ltac:(lia)). pose proof (Nat.mod_upper_bound i idim ltac:(lia)).
      assert (i / idim < idim)%nat by (apply Nat.div_lt_upper_bound; lia). rewrite Hs by assumption. f_equal. lia. }
    exists D'. rewrite E. split; [reflexivity|]. eapply step_weak; [exact St| |auto]. intros c. split.
    + intros (i & Hi & ->). exists i. cbn [W]. destruct (Nat.ltb_spec i B); [|nia]. eexists. split; reflexivity.
    + intros (e & x & E' & ->). apply W_lt in E'. exists e. split; [nia|reflexivity].
  - cbn [tensor_ok] in Ht.
    destruct (for_step_len (fun i c => exists j, (j < jdim)%nat /\ c = (off + (i + idim * j))%nat) (Wval (TGen m) off) idim (fun i D => for_ jdim (fun j D => do v <- rd m (j + jdim * i); wr D (off + (i + idim * j)) v) D) D) as (D' & E & St).
    { intros i l Hi Ll. apply for_step_len. intros j l2 Hj L2. pose proof (cell_lt jdim idim j i Hj Hi). pose proof (cell_lt idim jdim i j Hi Hj). rewrite rd_nth0 by lia. cbn [obind]. apply step_wr; [lia|].
      exists (i + idim * j)%nat. split; [|reflexivity]. rewrite W_full by (auto; reflexivity). reflexivity. }
    exists D'. rewrite E. split; [reflexivity|]. eapply step_weak; [exact St| |auto]. intros c. split.
    + intros (i & Hi & j & Hj & ->). exists (i + idim * j)%nat. rewrite W_full by (auto; reflexivity). eexists. split; reflexivity.
    + intros (e & x & E' & ->). apply W_lt in E'. exists (e mod idim)%nat. split; [apply Nat.mod_upper_bound; lia|]. exists (e / idim)%nat. split; [apply Nat.div_lt_upper_bound; lia|].
      pose proof (Nat.div_mod e idim ltac:(lia)). lia.
Qed.

(** one evaluation per slot; slot m starts at B * m *)
Definition Sval (T : nat -> tensor) (c : nat) (x : R) : Prop := exists m e, c = (B * m + e)%nat /\ W (T m) e = Some x.
Lemma slot_inj : forall m e m' e', (e < B)%nat -> (e' < B)%nat -> (B * m + e = B * m' + e')%nat -> m = m' /\ e = e'.
Proof. intros m e m' e' He He' E. destruct (cell_inj B e m e' m' He He'); [lia|]. auto. Qed.
Lemma Sval_fun : forall T m e x y, Sval T (B * m + e) x -> W (T m) e = Some y -> x = y.
Proof. intros T m e x y (m' & e' & Ec & E) Ey. destruct (slot_inj m e m' e') as [-> ->]; auto; [eapply W_lt; eauto|eapply W_lt; eauto|]. congruence. Qed.
Lemma Wval_Sval : forall T m t c x, T m = t -> Wval t (B * m) c x -> Sval T c x.
Proof. intros T m t c x <- (e & E & ->). exists m, e. auto. Qed.

(** PerPoint: the block of every tensor is completed to a full matrix *)
Definition Fval (t : tensor) (off c : nat) (x : R) : Prop := exists e, (e < B)%nat /\ c = (off + e)%nat /\ x = tmat t jdim idim (e / idim) (e mod idim).
Lemma fill_ok : forall F X it D off, tensor_ok jdim idim nfa (F X it) -> (off + B <= length D)%nat ->
  exists kD D', dfunc F X jdim idim it D off = Some kD /\ fill_diag idim jdim nfa (fst kD) (snd kD) off = Some D' /\
    step (fun c => (off <= c < off + B)%nat) (Fval (F X it) off) D D'.
Proof.
  intros F X it D off Ht HL. destruct (dfunc_ok F X it D off Ht HL) as (D1 & E1 & S1). exists (kind (F X it), D1). set (t := F X it) in *. cbn [fst snd].
  assert (Full : kind t = KFull -> step (fun c => (off <= c < off + B)%nat) (Fval t off) D D1).
  { intros Hk. eapply step_weak; [exact S1| |].
    - intros c. split.
      + intros (e & x & E & ->). apply W_lt in E. lia.
      + intros Hc. exists (c - off)%nat. destruct t; cbn in Hk; try discriminate; cbn [W]; (destruct (Nat.ltb_spec (c - off) B); [|lia]); eexists; (split; [reflexivity|lia]).
    - intros c x _ (e & E & ->). exists e. split; [eapply W_lt; eauto|]. split; [reflexivity|].
      pose proof (W_lt _ _ _ E). destruct t; cbn in Hk; try discriminate; cbn [W] in E; (destruct (Nat.ltb_spec e B); [|lia]); congruence. }
  assert (Diag : forall s, compatP jdim idim nfa -> (forall k j, tmat t jdim idim k j = s * unit_entry jdim idim k j) -> exists D',
     (do D2 <- for_ B (fun i D => wr D (off + i) 0) D1; for_ jdim (fun i D => wr D (off + (i + i * (if (jdim =? idim)%nat then idim else 0%nat))) s) D2) = Some D' /\
     step (fun c => (off <= c < off + B)%nat) (Fval t off) D D').
  { intros s Hc Htm. set (stp := if (jdim =? idim)%nat then idim else 0%nat).
    assert (Hcell : forall i, (i < jdim)%nat -> (i + i * stp < B)%nat).
    { intros i Hi. unfold stp. destruct (Nat.eqb_spec jdim idim) as [E|E]; [subst; nia|]. destruct Hc as [|[_ Ei]]; [lia|]. nia. }
    destruct S1 as (L1 & _ & K1).
    destruct (for_step_len (fun i c => c = (off + i)%nat) (fun c x => x = 0) B (fun i D => wr D (off + i) 0) D1) as (D2 & E2 & L2 & A2 & K2).
    { intros i l Hi Ll. apply step_wr; [lia|reflexivity]. }
    rewrite E2. cbn [obind].
    destruct (for_step_len (fun i c => c = (off + (i + i * stp))%nat) (fun c x => x = s) jdim (fun i D => wr D (off + (i + i * stp)) s) D2) as (D3 & E3 & L3 & A3 & K3).
    { intros i l Hi Ll. apply step_wr; [specialize (Hcell i Hi); lia|reflexivity]. }
    exists D3. split; [exact E3|]. split; [congruence|]. split.
    - intros c Hcc. set (e := (c - off)%nat). assert (He : (e < B)%nat) by (unfold e; lia).
      assert (Hdec : (exists i, (i < jdim)%nat /\ e = (i + i * stp)%nat /\ unit_entry jdim idim (e / idim) (e mod idim) = 1) \/
                     ((forall i, (i < jdim)%nat -> e <> (i + i * stp)%nat) /\ unit_entry jdim idim (e / idim) (e mod idim) = 0)).
      { unfold stp, unit_entry. destruct (Nat.eqb_spec jdim idim) as [E|E].
        - pose proof (Nat.div_mod e idim ltac:(lia)). pose proof (Nat.mod_upper_bound e idim ltac:(lia)). assert (e / idim < jdim)%nat by (apply Nat.div_lt_upper_bound; lia).
          destruct (Nat.eqb_spec (e / idim) (e mod idim)) as [Ed|Ed].
          + left. exists (e / idim)%nat. split; [assumption|]. split; [lia|reflexivity].
          + right. split; [|reflexivity]. intros i Hi Ee. destruct (cell_split idim i i ltac:(lia)) as [M1 M2]. replace (i + i * idim)%nat with (i + idim * i)%nat in Ee by lia. rewrite Ee in Ed. lia.
        - left. exists e. destruct Hc as [|[_ Ei]]; [lia|]. split; [nia|]. split; [lia|reflexivity]. }
      destruct Hdec as [(i & Hi & Ee & Hu)|(Hn & Hu)].
      + destruct (A3 c) as (x & Ex & ->); [exists i; split; [exact Hi|unfold e in Ee; lia]|]. exists s. split; [exact Ex|]. exists e. split; [exact He|]. split; [unfold e; lia|]. rewrite Htm, Hu. lra.
      + destruct (K3 c) as [Ec|(i & Hi & Ec)]; [|exfalso; apply (Hn i Hi); unfold e; lia]. destruct (A2 c) as (x & Ex & ->); [exists e; split; [exact He|unfold e; lia]|].
        exists 0. split; [congruence|]. exists e. split; [exact He|]. split; [unfold e; lia|]. rewrite Htm, Hu. lra.
    - intros c. destruct (Nat.lt_ge_cases c off) as [|H1]; [left|destruct (Nat.lt_ge_cases c (off + B)) as [|H2]; [right; lia|left]].
      + destruct (K3 c) as [->|(i & Hi & ->)]; [|lia]. destruct (K2 c) as [->|(i & Hi & ->)]; [|lia]. destruct (K1 c) as [|(e & x & E & ->)]; [assumption|lia].
      + destruct (K3 c) as [->|(i & Hi & Ec)]; [|specialize (Hcell i Hi); lia]. destruct (K2 c) as [->|(i & Hi & ->)]; [|lia]. destruct (K1 c) as [|(e & x & E & ->)]; [assumption|]. apply W_lt in E. lia. }
  destruct (kind t) eqn:Ek; cbn [fill_diag].
  - destruct t as [|s|m|m] eqn:Et; cbn in Ek; try discriminate. rewrite (compat_true _ _ _ Ht). cbn [guard obind].
    destruct (Diag 1 Ht) as (D' & E' & St); [intros; cbn; lra|]. exists D'. auto.
  - destruct t as [|s|m|m] eqn:Et; cbn in Ek; try discriminate. rewrite (compat_true _ _ _ Ht). cbn [guard obind].
    destruct S1 as (_ & A1 & _). destruct (A1 off) as (x & Ex & (e & Ee & Ec)); [exists 0%nat, s; split; [reflexivity|lia]|]. replace e with 0%nat in Ee by lia. cbn in Ee. injection Ee as <-. rewrite Ex. cbn [obind].
    destruct (Diag s Ht) as (D' & E' & St); [reflexivity|]. exists D'. auto.
  - exists D1. split; [exact E1|]. split; [reflexivity|]. now apply Full.
Qed.
End EV.
