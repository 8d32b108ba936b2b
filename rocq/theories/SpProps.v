(** C34, C40, C42: operators of composite spaces. *)
From Verif Require Import Prelude RSum CoreModel CoreSpec SpModel SpSpec SpProofs SpProofs2 SpProofs3 SpProofs4 SpProofs5 SpProofs6 SpProofs7 SpProofs8 DofProofs.
Local Open Scope R_scope.

(** *** C40 *)
Lemma good_computes : forall f q o s, good f q o s -> computes f q o s (op_value o s).
Proof.
  intros f q o s (E & _ & G). exists (rqf f q o s). split; [exact E|]. intros m u Hf. destruct (G m u Hf) as (m' & b & Ea & (F & _ & _ & _ & _ & H) & _ & _).
  assert (Hl : (u + rU (rqf f q o s) <= length (hp m'))%nat) by (rewrite (proj1 F); apply Hf).
  destruct (holds_band f q m' b _ _ _ _ _ Hl H) as (U & R & B). exists m', b, U. auto.
Qed.
(** The operator matrices of every space built from library spaces by repetition, composition,
    union and derivation, for every operator defined for it. *)
Theorem C40_operator_matrix : forall f q s o, wf f q s -> supp o s -> computes f q o s (op_value o s).
Proof. intros f q s o Hw Hs. apply good_computes. now apply apply_ok. Qed.

(** n copies of s: a block diagonal matrix with n equal blocks *)
Theorem C40_repeated : forall f q s n o, wf f q s -> supp o s -> (1 <= n)%nat -> o <> DIV -> o <> CURL ->
  exists v w, computes f q o s v /\ computes f q o (SVec n s) w /\
  forall r p c c' k i, (c < n)%nat -> (c' < n)%nat -> (k < odim o s)%nat -> (i < snfa s)%nat ->
    w r p (c * odim o s + k)%nat (c' * snfa s + i)%nat = if (c =? c')%nat then v r p k i else 0.
Proof.
  intros f q s n o Hw Hs Hn H1 H2. exists (op_value o s), (op_value o (SVec n s)). split; [now apply C40_operator_matrix|]. split.
  - apply C40_operator_matrix; [now split|]. destruct o; try congruence; exact Hs.
  - assert (X : forall o', o' = IDEN \/ o' = GRAD -> forall r p c c' k i, (k < odim o' s)%nat -> (i < snfa s)%nat ->
      plain_value o' (SVec n s) r p (c * odim o' s + k)%nat (c' * snfa s + i)%nat = if (c =? c')%nat then plain_value o' s r p k i else 0).
    { intros o' _ r p c c' k i Hk Hi. cbn [plain_value]. rewrite !(Nat.add_comm (_ * _)). rewrite !Nat.div_add, !Nat.mod_add, !Nat.div_small, !Nat.mod_small by lia. reflexivity. }
    intros r p c c' k i Hc Hc' Hk Hi. destruct o as [| | | |x]; try congruence; [apply X; auto|apply X; auto|].
    unfold op_value, from_grad. assert (Hx := supp_dudx f q x s Hw Hs). specialize (X GRAD (or_intror eq_refl) r p c c' (3 * k + x)%nat i). unfold odim in *. cbn [dim_op] in *. rewrite <- X by lia. f_equal. lia.
Qed.

Lemma com_value_at : forall l1 d nf v l2 r p k i, (i < nf)%nat ->
  (k < d -> com_value (l1 ++ (d, nf, v) :: l2) r p (list_sum (map (fun t => fst (fst t)) l1) + k) (list_sum (map (fun t => snd (fst t)) l1) + i) = v r p k i)%nat /\
  forall k', ~ (list_sum (map (fun t => fst (fst t)) l1) <= k' < list_sum (map (fun t => fst (fst t)) l1) + d)%nat ->
    com_value (l1 ++ (d, nf, v) :: l2) r p k' (list_sum (map (fun t => snd (fst t)) l1) + i)%nat = 0.
Proof.
  induction l1 as [|[[d1 n1] v1] l1 IH]; intros d nf v l2 r p k i Hi.
  - cbn [map app com_value]. rewrite list_sum_nil. cbn [Nat.add]. split.
    + intros Hk. ltbc. reflexivity.
    + intros k' Hk. ltbc; reflexivity.
  - cbn [map app com_value fst snd]. rewrite !list_sum_cons. destruct (IH d nf v l2 r p k i Hi) as [A B]. split.
    + intros Hk. ltbc. rewrite <- A by exact Hk. f_equal; lia.
    + intros k' Hk. destruct (Nat.ltb_spec k' d1); destruct (Nat.ltb_spec (n1 + list_sum (map (fun t => snd (fst t)) l1) + i) n1); try lia; try reflexivity.
      replace (n1 + list_sum (map (fun t => snd (fst t)) l1) + i - n1)%nat with (list_sum (map (fun t => snd (fst t)) l1) + i)%nat by lia. apply B. lia.
Qed.
(** A composition: the blocks of the components, one after another *)
Theorem C40_composed : forall f q l o, wf f q (SCom l) -> supp o (SCom l) -> o <> DIV -> o <> CURL ->
  exists (v : space -> value) w, (forall s, In s l -> computes f q o s (v s)) /\ computes f q o (SCom l) w /\
  forall l1 s l2, l = l1 ++ s :: l2 -> forall r p i, (i < snfa s)%nat ->
    (forall k, (k < odim o s)%nat -> w r p (rows_of o l1 + k)%nat (dofs_of l1 + i)%nat = v s r p k i) /\
    (forall k, (k < odim o (SCom l))%nat -> ~ (rows_of o l1 <= k < rows_of o l1 + odim o s)%nat -> w r p k (dofs_of l1 + i)%nat = 0).
Proof.
  intros f q l o Hw Hs H1 H2. exists (op_value o), (op_value o (SCom l)). destruct (wf_com f q l Hw) as [Hl Hwl].
  assert (Hsl : forall s, In s l -> supp o s). { destruct o; try congruence; [intros s _; apply supp_plain; now left|intros s _; apply supp_plain; now right|]. exact (proj1 (fold_and _ l) Hs). }
  split; [intros s Hin; apply C40_operator_matrix; auto|]. split; [now apply C40_operator_matrix|].
  intros l1 s l2 El r p i Hi.
  assert (X := com_value_at (map (fun s => (odim o s, snfa s, op_value o s)) l1) (odim o s) (snfa s) (op_value o s) (map (fun s => (odim o s, snfa s, op_value o s)) l2) r p).
  assert (E1 : list_sum (map (fun t : nat * nat * value => fst (fst t)) (map (fun s => (odim o s, snfa s, op_value o s)) l1)) = rows_of o l1) by (rewrite map_map; reflexivity).
  assert (E2 : list_sum (map (fun t : nat * nat * value => snd (fst t)) (map (fun s => (odim o s, snfa s, op_value o s)) l1)) = dofs_of l1) by (rewrite map_map; reflexivity).
  rewrite E1, E2 in X. assert (E3 : map (fun s => (odim o s, snfa s, op_value o s)) l = map (fun s => (odim o s, snfa s, op_value o s)) l1 ++ (odim o s, snfa s, op_value o s) :: map (fun s => (odim o s, snfa s, op_value o s)) l2) by (rewrite El, map_app; reflexivity).
  rewrite <- E3 in X.
  assert (Hc : forall c, o = DUDX c -> (c < 3)%nat). { intros c ->. destruct l as [|s0 l0]; [congruence|]. exact (supp_dudx f q c s0 (Hwl s0 (or_introl eq_refl)) (Hsl s0 (or_introl eq_refl))). }
  assert (Y : forall k i', com_value (map (fun s => (odim o s, snfa s, op_value o s)) l) r p k i' = op_value o (SCom l) r p k i') by (intros k i'; apply com_value_op; assumption).
  split.
  - intros k Hk. rewrite <- Y. now apply X.
  - intros k Hk Hn. rewrite <- Y. destruct (X 0%nat i Hi) as [_ Z]. now apply Z.
Qed.

Lemma uni_value_at : forall l1 nf v l2 r p k i, (i < nf)%nat ->
  uni_value (l1 ++ (nf, v) :: l2) r p k (list_sum (map fst l1) + i)%nat = v r p k i.
Proof.
  induction l1 as [|[n1 v1] l1 IH]; intros nf v l2 r p k i Hi.
  - cbn [map app uni_value]. rewrite list_sum_nil. cbn [Nat.add]. ltbc. reflexivity.
  - cbn [map app uni_value fst]. rewrite !list_sum_cons. ltbc. rewrite <- (IH nf v l2 r p k i Hi). f_equal. lia.
Qed.
(** A union: the basis functions of the members, one after another, in the same rows *)
Theorem C40_united : forall f q l o, wf f q (SUni l) -> supp o (SUni l) ->
  exists (v : space -> value) w, (forall s, In s l -> computes f q o s (v s)) /\ computes f q o (SUni l) w /\
  forall l1 s l2, l = l1 ++ s :: l2 -> odim o (SUni l) = odim o s /\ forall r p k i, (i < snfa s)%nat -> (k < odim o s)%nat -> w r p k (dofs_of l1 + i)%nat = v s r p k i.
Proof.
  intros f q l o Hw Hs. exists (op_value o), (op_value o (SUni l)). destruct (wf_uni f q l Hw) as [Hl Hwl]. assert (Hsl := proj1 (fold_and (supp o) l) Hs).
  split; [intros s Hin; apply C40_operator_matrix; [apply Hwl; exact Hin|auto]|]. split; [now apply C40_operator_matrix|].
  intros l1 s l2 El. split.
  { unfold odim. f_equal. symmetry. apply Hwl. rewrite El. apply in_or_app. right. now left. }
  intros r p k i Hi Hk. rewrite <- (uni_value_op o l).
  replace (map (fun s => (snfa s, op_value o s)) l) with (map (fun s => (snfa s, op_value o s)) l1 ++ (snfa s, op_value o s) :: map (fun s => (snfa s, op_value o s)) l2) by (rewrite El, map_app; reflexivity).
  replace (dofs_of l1) with (list_sum (map fst (map (fun s => (snfa s, op_value o s)) l1))) by (rewrite map_map; reflexivity). now apply uni_value_at.
Qed.

(** Two operators one after the other, as in an elemental matrix: both matrices are there at the
    end.  Not for DIV first: see below.  The first operator starts with no view in use, as in
    fem3Dtet: the index arrays have one entry too few between later matrices. *)
Theorem C40_two_operators : forall f q s1 o1 s2 o2 r1 r2 m u1 u2,
  wf f q s1 -> supp o1 s1 -> wf f q s2 -> supp o2 s2 -> o1 <> DIV -> busy m = 0%nat -> mreq f q o1 s1 = Some r1 -> mreq f q o2 s2 = Some r2 ->
  fits m u1 {| rU := rU r1; rE := rE r1; rP := rP r1 + rP r2 |}%nat -> fits m u2 {| rU := rU r2; rE := rE r2; rP := rP r1 + rP r2 |}%nat ->
  (u1 + rU r1 <= u2 \/ u2 + rU r2 <= u1)%nat ->
  exists m1 b1 m2 b2 U1 U2, apply f q o1 s1 m u1 = Some (m1, b1) /\ apply f q o2 s2 m1 u2 = Some (m2, b2) /\
    read_band f m2 b1 = Some U1 /\ band_of U1 (odim o1 s1) (snfa s1) q f (op_value o1 s1) /\
    read_band f m2 b2 = Some U2 /\ band_of U2 (odim o2 s2) (snfa s2) q f (op_value o2 s2).
Proof.
  intros f q s1 o1 s2 o2 r1 r2 m u1 u2 W1 S1 W2 S2 Hd Hz E1 E2 F1 F2 D.
  destruct (apply_ok f q s1 W1 o1 S1) as (A1 & _ & G1). destruct (apply_ok f q s2 W2 o2 S2) as (A2 & _ & G2).
  rewrite E1 in A1. rewrite E2 in A2. apply Some_inj' in A1. apply Some_inj' in A2. rewrite <- A1 in G1. rewrite <- A2 in G2. unfold fits in F1, F2. cbn [rU rE rP] in F1, F2.
  destruct (G1 m u1) as (m1 & b1 & Ea1 & (Fr1 & O1 & O1' & P1 & B1 & H1) & N1 & X1). { unfold pre. lia. }
  assert (B1' : busy m1 = (busy m + np b1)%nat) by (apply X1; destruct o1; try congruence; reflexivity).
  assert (Fr1' := Fr1). destruct Fr1' as (L1 & _ & L2 & _ & L3 & _ & L4 & _ & L5 & L6).
  destruct (G2 m1 u2) as (m2 & b2 & Ea2 & (Fr2 & O2 & O2' & P2 & B2 & H2) & N2 & X2). { unfold pre. rewrite L1, L2, L3, L4, L5, L6, B1'. lia. }
  assert (K1 := holds_np _ _ _ _ _ _ _ _ _ H1).
  assert (H1' : holds f q m2 b1 (odim o1 s1) (snfa s1) (op_value o1 s1) u1 (u1 + rU r1)).
  { apply (holds_after f q m1 b1 _ _ _ _ _ u2 (rU r2) m2 H1 Fr2).
    - lia.
    - rewrite L5, L6. lia.
    - lia.
    - rewrite O1', B1', Hz. unfold sh. ltbc. }
  assert (L1' := proj1 Fr2). assert (Y1 : (u1 + rU r1 <= length (hp m2))%nat) by (rewrite L1', L1; lia). assert (Y2 : (u2 + rU r2 <= length (hp m2))%nat) by (rewrite L1', L1; lia).
  destruct (holds_band f q m2 b1 _ _ _ _ _ Y1 H1') as (U1 & R1 & Z1).
  destruct (holds_band f q m2 b2 _ _ _ _ _ Y2 H2) as (U2 & R2 & Z2).
  exists m1, b1, m2, b2, U1, U2. auto 10.
Qed.

(** *** C34: the derived operators and the gradient *)
Theorem C34_from_gradient : forall f q s o, wf f q s -> supp o s -> o <> IDEN -> o <> GRAD ->
  exists g w, computes f q GRAD s g /\ computes f q o s w /\
  (o = DIV -> forall r p i, w r p 0%nat i = g r p 0%nat i + g r p 4%nat i + g r p 8%nat i) /\
  (o = CURL -> forall r p i, w r p 0%nat i = g r p 7%nat i - g r p 5%nat i /\ w r p 1%nat i = g r p 2%nat i - g r p 6%nat i /\ w r p 2%nat i = g r p 3%nat i - g r p 1%nat i) /\
  (forall x, o = DUDX x -> forall r p k i, w r p k i = g r p (3 * k + x)%nat i).
Proof.
  intros f q s o Hw Hs H1 H2. exists (op_value GRAD s), (op_value o s). split; [apply C40_operator_matrix; [exact Hw|apply supp_plain; now right]|]. split; [now apply C40_operator_matrix|].
  split; [intros ->; reflexivity|]. split; [intros -> r p i; repeat split; reflexivity|]. intros x -> r p k i. reflexivity.
Qed.

(** *** Examples *)
(** a library space with given gradient *)
Definition ex_base (id d nf : nat) (g : value) : base := {|
  b_id := id; b_dim := d; b_nfa := nf;
  b_val := fun o => match o with IDEN => fun _ _ _ _ => 1 | GRAD => g | _ => from_grad o g end;
  b_usz := fun o f q => (dim_op o d * q * f * nf)%nat; b_esz := fun _ _ _ => 2%nat; b_junk := fun _ _ => 7 |}.
Lemma ex_base_ok : forall f q id d nf g, (1 <= d)%nat -> base_ok f q (ex_base id d nf g).
Proof.
  intros f q id d nf g Hd. split; [exact Hd|]. split; [intros o; cbn [ex_base b_dim b_nfa b_usz]; lia|]. intros o r n k i _ H1 H2 _ _. destruct o; try congruence; reflexivity.
Qed.
Definition ex_p1 := SBase (ex_base 1 1 4 (fun r n k i => INR k + INR n)).
Definition ex_b3 := SBase (ex_base 2 1 1 (fun r n k i => 2)).
Definition ex_v := SBase (ex_base 3 3 6 (fun r n k i => INR (k * i))).
Definition ex_mini := SUni [ex_p1; ex_b3].
Definition ex_stokes := SCom [SVec 3 ex_mini; ex_p1].
Definition ex_memory (h e p : nat) : mem := {| hp := repeat 0 (h + e); mtx := repeat (0, 0)%nat p; rowi := repeat 0%nat (p + 2); coli := repeat 0%nat (p + 2); busy := 0; edat := h; esz := e |}.
Example C40_nonvacuous : wf 2 4 ex_stokes /\ supp GRAD ex_stokes /\ supp (DUDX 1) ex_stokes /\ supp DIV (SVec 3 ex_mini) /\ supp CURL (SVec 3 ex_mini) /\
  wf 2 4 (SCom [ex_mini; SVec 2 ex_p1]) /\ supp DIV (SCom [ex_mini; SVec 2 ex_p1]) /\ supp CURL (SCom [ex_mini; SVec 2 ex_p1]) /\
  wf 2 4 (SUser ex_v) /\ supp CURL (SUser ex_v) /\ supp (DUDX 2) (SUser ex_v) /\ snfa ex_stokes = 19%nat /\
  (forall r, mreq 2 4 GRAD ex_stokes = Some r -> fits (ex_memory (rU r) (rE r) (rP r)) 0 r) /\ mreq 2 4 GRAD ex_stokes <> None.
Proof.
  assert (P1 : wf 2 4 ex_p1) by (apply ex_base_ok; lia). assert (P2 : wf 2 4 ex_b3) by (apply ex_base_ok; lia). assert (P3 : wf 2 4 ex_v) by (apply ex_base_ok; lia).
  assert (P4 : wf 2 4 ex_mini). { split; [discriminate|]. split; [split; [exact P1|]|split; [split; [exact P2|]|exact I]]; intros t [<- |[<- |[]]]; reflexivity. }
  split. { split; [discriminate|]. split; [split; [lia|exact P4]|]. split; [exact P1|exact I]. }
  split; [exact (supp_plain GRAD ex_stokes (or_intror eq_refl))|]. split; [cbn; repeat split; lia|]. split; [cbn; auto|]. split; [cbn; auto|].
  split. { split; [discriminate|]. split; [exact P4|]. split; [split; [lia|exact P1]|exact I]. }
  split; [cbn; repeat split; lia|]. split; [reflexivity|]. split; [exact P3|]. split; [reflexivity|]. split; [cbn; lia|]. split; [reflexivity|]. split.
  - intros r E. vm_compute in E. injection E as <-. unfold fits. cbn [rU rE rP ex_memory hp mtx rowi coli busy edat esz]. rewrite !repeat_length. lia.
  - vm_compute. discriminate.
Qed.

(** *** What does not hold *)
(** The divergence of a composition does not mark its view as busy: the next operator puts its
    own matrix there. *)
Definition ex_grad (c : R) := SBase (ex_base 1 1 1 (fun r n k i => c)).
Definition ex_com (c : R) := SCom [ex_grad c; ex_grad c; ex_grad c].
Definition ex_run1 (c : R) := Eval vm_compute in apply 1 1 DIV (ex_com c) (ex_memory 6 5 6) 0.
Definition ex_run2 (c c' : R) := Eval vm_compute in match ex_run1 c with Some (m1, _) => apply 1 1 DIV (ex_com c') m1 3 | None => None end.
Theorem C40_two_operators_refuted : forall c c', c <> c' -> exists m m1 b1 m2 b2 U1 U2, wf 1 1 (ex_com c) /\ supp DIV (ex_com c) /\
  apply 1 1 DIV (ex_com c) m 0 = Some (m1, b1) /\ read_band 1 m1 b1 = Some U1 /\ band_of U1 1 3 1 1 (op_value DIV (ex_com c)) /\
  apply 1 1 DIV (ex_com c') m1 3 = Some (m2, b2) /\ read_band 1 m2 b1 = Some U2 /\ ~ band_of U2 1 3 1 1 (op_value DIV (ex_com c)).
Proof.
  intros c c' Hc.
  assert (W : wf 1 1 (ex_com c)). { split; [discriminate|]. split; [apply ex_base_ok; lia|]. split; [apply ex_base_ok; lia|]. split; [apply ex_base_ok; lia|exact I]. }
  assert (S : supp DIV (ex_com c)) by (cbn; repeat split; lia).
  assert (E1 : apply 1 1 DIV (ex_com c) (ex_memory 6 5 6) 0 = ex_run1 c) by (vm_compute; reflexivity).
  destruct (ex_run1 c) as [[m1 b1]|] eqn:R1; [|discriminate].
  assert (E2 : apply 1 1 DIV (ex_com c') m1 3 = ex_run2 c c'). { assert (X : (match ex_run1 c with Some (m1, _) => apply 1 1 DIV (ex_com c') m1 3 | None => None end) = ex_run2 c c') by (vm_compute; reflexivity). rewrite R1 in X. exact X. }
  destruct (ex_run2 c c') as [[m2 b2]|] eqn:R2; [|discriminate]. unfold ex_run1 in R1. unfold ex_run2 in R2. apply Some_inj' in R1. apply Some_inj' in R2. injection R1 as <- <-. injection R2 as <- <-.
  exists (ex_memory 6 5 6). do 4 eexists. eexists. eexists. split; [exact W|]. split; [exact S|]. split; [exact E1|]. split; [reflexivity|]. split.
  - unfold band_of, nparts. cbn [parts st_row st_col length]. split; [lia|]. do 6 (split; [reflexivity|]). split; [intros [|d] Hd; [cbn; lia|lia]|]. split.
    + intros [|d] Hd; [|lia]. eexists. split; [reflexivity|]. intros [|r] [|n] [|k] i Hr Hn Hk Hi; cbn in Hr, Hn, Hk, Hi; try lia. destruct i as [|[|[|i]]]; try lia; cbn; f_equal; lra.
    + intros [|d] [|d'] r n k i Hd Hd' Hne; lia.
  - split; [exact E2|]. split; [reflexivity|]. intros (_ & _ & _ & _ & _ & _ & _ & _ & H & _). destruct (H 0%nat) as (dt & E & V); [cbn; lia|].
    cbn in E. injection E as <-. specialize (V 0%nat 0%nat 0%nat 0%nat). cbn in V. assert (X : Some c' = Some (c + 0 + 0)) by (apply V; lia). injection X as X. apply Hc. lra.
Qed.

Lemma all_opt_len : forall A (l : list (option A)) r, all_opt l = Some r -> length r = length l.
Proof.
  intros A l. induction l as [|[x|] l IH]; intros r E; cbn [all_opt obind] in E; [now injection E as <-| |discriminate].
  destruct (all_opt l) as [ys|]; [cbn [obind] in E|discriminate]. injection E as <-. cbn. f_equal. now apply IH.
Qed.
(** A class derived from BaseFemSpace inherits a divergence whose matrix claims three rows. *)
Definition ex_run4 := Eval vm_compute in apply 1 1 DIV (SUser (SBase (ex_base 3 3 1 (fun _ _ _ _ => 1)))) (ex_memory 1 20 4) 0.
Theorem C34_inherited_div_refuted : (forall f q s m u m' b U nf v, apply f q DIV (SUser s) m u = Some (m', b) -> read_band f m' b = Some U -> ~ band_of U 1 nf q f v) /\
  exists m' b, apply 1 1 DIV (SUser (SBase (ex_base 3 3 1 (fun _ _ _ _ => 1)))) (ex_memory 1 20 4) 0 = Some (m', b) /\ read_band 1 m' b <> None.
Proof.
  split.
  - intros f q s m u m' b U nf v E R (_ & _ & _ & _ & H & _). cbn [apply] in E.
    repeat match type of E with obind ?e _ = _ => let X := fresh "X" in destruct e eqn:X; [cbn [obind] in E|discriminate] end. unfold def_div in E.
    destruct (with_work _ _ _) as [[m1 Vx]|]; [cbn [obind fst snd] in E|discriminate].
    destruct (fill _ _ _ _) as [h|]; [cbn [obind] in E|discriminate]. destruct (for_ (np Vx) _ h) as [h'|]; [cbn [obind] in E|discriminate].
    destruct (put_part _ _ _ _ _) as [m2|] eqn:Pp; [cbn [obind] in E|discriminate]. apply Some_inj' in E. injection E as <- <-.
    unfold put_part in Pp. destruct (wr (mtx _) _ _) as [l|]; [cbn [obind] in Pp|discriminate]. destruct (wr (rowi _) _ _) as [rr|] eqn:Wr; [cbn [obind] in Pp|discriminate].
    destruct (wr (coli _) _ _) as [cc|]; [cbn [obind] in Pp|discriminate]. apply Some_inj' in Pp. subst m2.
    unfold read_band in R. cbn [set_busy set_idx rowi coli np os od set_mtx] in R.
    destruct (slice rr (os Vx) 2) as [rs|] eqn:Sl; [cbn [obind] in R|discriminate]. destruct (slice cc (os Vx) 2) as [cs|]; [cbn [obind] in R|discriminate].
    cbn [seq map] in R. destruct (all_opt _) as [ps|] eqn:Ps; [cbn [obind] in R|discriminate]. apply Some_inj' in R. subst U. unfold nparts in H. cbn [parts st_row] in H.
    assert (Lp : length ps = 1%nat) by exact (all_opt_len _ _ _ Ps).
    rewrite Lp in H. assert (N : nth_error rs 1 = Some 3%nat).
    { unfold slice in Sl. destruct (Nat.leb_spec (os Vx + 2) (length rr)); [|discriminate]. apply Some_inj' in Sl. subst rs. rewrite OrdProofs2.nth_error_firstn', OrdProofs2.nth_error_skipn' by lia.
      destruct (Nat.lt_ge_cases (os Vx + 1) (length (rowi (set_mtx (set_hp m1 h') l)))) as [Hlt|Hge].
      - destruct (wr_some (rowi (set_mtx (set_hp m1 h') l)) (os Vx + 1) 3%nat Hlt) as (rr' & Wr' & _ & Wr''). cbn [set_mtx set_hp rowi] in *. rewrite Wr' in Wr. apply Some_inj' in Wr. subst rr'. specialize (Wr'' (os Vx + 1)%nat). rewrite Nat.eqb_refl in Wr''. exact Wr''.
      - cbn [set_mtx set_hp rowi] in *. rewrite wr_none in Wr by exact Hge. discriminate. }
    apply nth_error_nth with (d := 0%nat) in N. lia.
  - assert (E : apply 1 1 DIV (SUser (SBase (ex_base 3 3 1 (fun _ _ _ _ => 1)))) (ex_memory 1 20 4) 0 = ex_run4) by (vm_compute; reflexivity).
    eexists. eexists. split; [exact E|]. vm_compute. discriminate.
Qed.

(** The inherited partial derivative overwrites the first rows and columns of the gradient it is
    still reading: with a gradient in several parts the result is wrong. *)
Definition ex_parts (g : nat -> R) := SUser (SVec 2 (SBase (ex_base 1 1 1 (fun r n k i => g k)))).
Definition ex_run3 (g : nat -> R) := Eval vm_compute in apply 1 1 (DUDX 0) (ex_parts g) (ex_memory 4 20 6) 0.
Definition ex_band3 (g : nat -> R) := Eval vm_compute in match ex_run3 g with Some (m, b) => read_band 1 m b | None => None end.
Theorem C34_inherited_dudx_refuted : forall g, g 0%nat <> g 2%nat -> exists m' b U, wf 1 1 (ex_parts g) /\ apply 1 1 (DUDX 0) (ex_parts g) (ex_memory 4 20 6) 0 = Some (m', b) /\ read_band 1 m' b = Some U /\
  ~ band_of U 2 2 1 1 (op_value (DUDX 0) (ex_parts g)).
Proof.
  intros g Hg. assert (E : apply 1 1 (DUDX 0) (ex_parts g) (ex_memory 4 20 6) 0 = ex_run3 g) by (vm_compute; reflexivity).
  assert (B : (match ex_run3 g with Some (m, b) => read_band 1 m b | None => None end) = ex_band3 g) by (vm_compute; reflexivity).
  destruct (ex_run3 g) as [[m' b]|] eqn:R; [|discriminate]. exists m', b. unfold ex_band3 in B. eexists. split; [split; [lia|apply ex_base_ok; lia]|]. split; [exact E|]. split; [exact B|].
  unfold band_of. cbn [parts st_row st_col]. intros (_ & _ & _ & _ & _ & _ & _ & _ & H & _). destruct (H 1%nat) as (dt & E' & V); [unfold nparts; cbn [parts length]; lia|]. clear E B R H. cbn [nth_error nth] in E'. apply Some_inj' in E'. assert (E1 := f_equal fst E'). cbn [fst] in E1. subst dt. clear E'.
  specialize (V 0%nat 0%nat 1%nat 1%nat). cbn [nth] in V. assert (X : Some (g 2%nat) = Some (g 0%nat)) by (apply V; lia). injection X as X. congruence.
Qed.

(** *** C42: equality of spaces *)
Lemma fold_lib : forall lib l, fold_right (fun s P => from_lib lib s /\ P) True l <-> forall s, In s l -> from_lib lib s.
Proof. intros lib l. apply fold_and. Qed.
Lemma reps_len : forall s t, space_eq s t = true -> length (reps s) = length (reps t).
Proof.
  intros s. induction s as [b|n s IH|l IH|l IH|s IH] using space_ind'; intros [b'|n' t|l'|l'|t] E; try discriminate; cbn [reps].
  - reflexivity.
  - cbn [length]. f_equal. apply IH. exact E.
  - cbn [space_eq] in E. revert l' E. induction l as [|s l IHl]; intros [|t l'] E; try discriminate; [reflexivity|]. apply andb_prop in E. destruct E as [E1 E2]. cbn [flat_map]. rewrite !app_length.
    f_equal; [apply IH; [now left|exact E1]|apply IHl; [intros x Hx; apply IH; now right|exact E2]].
  - cbn [space_eq] in E. revert l' E. induction l as [|s l IHl]; intros [|t l'] E; try discriminate; [reflexivity|]. apply andb_prop in E. destruct E as [E1 E2]. cbn [flat_map]. rewrite !app_length.
    f_equal; [apply IH; [now left|exact E1]|apply IHl; [intros x Hx; apply IH; now right|exact E2]].
Qed.
Lemma app_split : forall A (a b a' b' : list A), length a = length a' -> a ++ b = a' ++ b' -> a = a' /\ b = b'.
Proof.
  intros A a. induction a as [|x a IH]; intros b [|y a'] b' L E; try discriminate; [now split|]. cbn in *. injection E as <- E. destruct (IH b a' b' ltac:(lia) E) as [-> ->]. now split.
Qed.
(** Spaces that compare equal are the same space, with the same operators, if their repetitions
    have the same length *)
Theorem C42_equal_spaces_partial : forall lib s t, from_lib lib s -> from_lib lib t -> space_eq s t = true -> reps s = reps t ->
  s = t /\ sdim s = sdim t /\ snfa s = snfa t /\ forall f q o m u, apply f q o s m u = apply f q o t m u.
Proof.
  intros lib s t Ls Lt E R. assert (X : s = t); [|subst t; auto].
  revert t Ls Lt E R. induction s as [b|n s IH|l IH|l IH|s IH] using space_ind'; intros [b'|n' t|l'|l'|t] Ls Lt E R; try discriminate.
  - cbn in Ls, Lt, E. apply Nat.eqb_eq in E. rewrite Ls, Lt, E. now rewrite <- E.
  - cbn [reps] in R. injection R as -> R. f_equal. now apply IH.
  - f_equal. cbn [from_lib] in Ls, Lt. rewrite fold_lib in Ls, Lt. cbn [space_eq] in E. cbn [reps] in R. revert l' Lt E R. induction l as [|s l IHl]; intros [|t l'] Lt E R; try discriminate; [reflexivity|].
    apply andb_prop in E. destruct E as [E1 E2]. cbn [flat_map] in R. destruct (app_split _ _ _ _ _ (reps_len s t E1) R) as [R1 R2].
    f_equal; [apply IH; try (now left); [apply Ls; now left|apply Lt; now left|exact E1|exact R1]|].
    apply IHl; [intros x Hx; apply IH; now right|intros x Hx; apply Ls; now right|intros x Hx; apply Lt; now right|exact E2|exact R2].
  - f_equal. cbn [from_lib] in Ls, Lt. rewrite fold_lib in Ls, Lt. cbn [space_eq] in E. cbn [reps] in R. revert l' Lt E R. induction l as [|s l IHl]; intros [|t l'] Lt E R; try discriminate; [reflexivity|].
    apply andb_prop in E. destruct E as [E1 E2]. cbn [flat_map] in R. destruct (app_split _ _ _ _ _ (reps_len s t E1) R) as [R1 R2].
    f_equal; [apply IH; try (now left); [apply Ls; now left|apply Lt; now left|exact E1|exact R1]|].
    apply IHl; [intros x Hx; apply IH; now right|intros x Hx; apply Ls; now right|intros x Hx; apply Lt; now right|exact E2|exact R2].
Qed.
Theorem C42_refl : forall lib s, from_lib lib s -> space_eq s s = true.
Proof.
  intros lib s. induction s as [b|n s IH|l IH|l IH|s IH] using space_ind'; intros Ls.
  - apply Nat.eqb_refl.
  - now apply IH.
  - cbn [from_lib] in Ls. rewrite fold_lib in Ls. cbn [space_eq]. induction l as [|s l IHl]; [reflexivity|]. rewrite IH; [|now left|apply Ls; now left]. apply IHl; [intros x Hx; apply IH; now right|intros x Hx; apply Ls; now right].
  - cbn [from_lib] in Ls. rewrite fold_lib in Ls. cbn [space_eq]. induction l as [|s l IHl]; [reflexivity|]. rewrite IH; [|now left|apply Ls; now left]. apply IHl; [intros x Hx; apply IH; now right|intros x Hx; apply Ls; now right].
  - contradiction.
Qed.
(** Two and three copies of the same space compare equal *)
Theorem C42_repetition_refuted : forall s n n', space_eq s s = true -> space_eq (SVec n s) (SVec n' s) = true /\
  ((1 <= snfa s)%nat -> n <> n' -> snfa (SVec n s) <> snfa (SVec n' s)) /\ ((1 <= sdim s)%nat -> n <> n' -> sdim (SVec n s) <> sdim (SVec n' s)).
Proof. intros s n n' E. split; [exact E|]. cbn [snfa sdim]. split; intros H Hn; intros X; apply Hn; nia. Qed.
Definition ex_lib (i : nat) : base := match i with 1%nat => ex_base 1 1 4 (fun r n k i => INR k + INR n) | 2%nat => ex_base 2 1 1 (fun r n k i => 2) | _ => ex_base i 1 1 (fun _ _ _ _ => 0) end.
Example C42_nonvacuous : from_lib ex_lib ex_stokes /\ space_eq ex_stokes (SCom [SVec 3 ex_mini; ex_p1]) = true /\ space_eq ex_stokes (SCom [ex_p1; SVec 3 ex_mini]) = false /\ reps ex_stokes = [3%nat].
Proof. repeat split. Qed.

Print Assumptions C40_operator_matrix.
Print Assumptions C40_repeated.
Print Assumptions C40_composed.
Print Assumptions C40_united.
Print Assumptions C40_two_operators.
Print Assumptions C40_two_operators_refuted.
Print Assumptions C34_from_gradient.
Print Assumptions C34_inherited_div_refuted.
Print Assumptions C34_inherited_dudx_refuted.
Print Assumptions C42_equal_spaces_partial.
Print Assumptions C42_refl.
Print Assumptions C42_repetition_refuted.
