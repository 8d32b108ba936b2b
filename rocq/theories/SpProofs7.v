(** Every operator of every space. *)
From Verif Require Import Prelude RSum DirProofs2 CoreProofs SpModel CoreModel CoreSpec SpSpec SpProofs SpProofs2 SpProofs3 SpProofs4 SpProofs5 SpProofs6.
Local Open Scope R_scope.

Lemma space_ind' : forall (P : space -> Prop), (forall b, P (SBase b)) -> (forall n s, P s -> P (SVec n s)) ->
  (forall l, (forall s, In s l -> P s) -> P (SCom l)) -> (forall l, (forall s, In s l -> P s) -> P (SUni l)) -> (forall s, P s -> P (SUser s)) -> forall s, P s.
Proof.
  intros P Hb Hv Hc Hu Hs. fix IH 1. intros [b|n s|l|l|s].
  - apply Hb.
  - apply Hv. apply IH.
  - apply Hc. induction l as [|x l IHl]; [intros s []|]. intros s [<-|H]; [apply IH|now apply IHl].
  - apply Hu. induction l as [|x l IHl]; [intros s []|]. intros s [<-|H]; [apply IH|now apply IHl].
  - apply Hs. apply IH.
Qed.
Lemma fold_and : forall {A} (Q : A -> Prop) l, fold_right (fun s P => Q s /\ P) True l <-> forall s, In s l -> Q s.
Proof.
  intros A Q l. induction l as [|x l IH]; cbn [fold_right In]; [split; [intros _ s []|auto]|]. rewrite IH. split.
  - intros [H1 H2] s [<-|H]; auto.
  - intros H. split; [apply H; now left|]. intros s Hs. apply H. now right.
Qed.

Ltac ltbc := repeat match goal with |- context [(?a <? ?b)%nat] => destruct (Nat.ltb_spec a b); try lia end.
Section Main.
Variables f q : nat.
Notation gspec := (gspec f q). Notation wf := (wf f q).
Lemma wf_com : forall l, wf (SCom l) -> l <> [] /\ forall s, In s l -> wf s.
Proof. intros l [H1 H2]. split; [exact H1|]. now apply (fold_and wf). Qed.
Lemma wf_uni : forall l, wf (SUni l) -> l <> [] /\ forall s, In s l -> wf s /\ sdim s = sdim (SUni l).
Proof.
  intros l [H1 H2]. split; [exact H1|]. apply (fold_and (fun s => wf s /\ forall t, In t l -> sdim t = sdim s)) with (l := l) in H2 as H3 || idtac.
  intros s Hs. assert (X := proj1 (fold_and (fun s => wf s /\ forall t, In t l -> sdim t = sdim s) l) H2 s Hs). destruct X as [X1 X2]. split; [exact X1|].
  destruct l as [|t l]; [destruct Hs|]. cbn [sdim]. symmetry. apply X2. now left.
Qed.
Lemma sdim_pos : forall s, wf s -> (1 <= sdim s)%nat.
Proof.
  intros s. induction s as [b|n s IH|l IH|l IH|s IH] using space_ind'; intros H.
  - exact (proj1 H).
  - destruct H as [H1 H2]. cbn [sdim]. specialize (IH H2). nia.
  - destruct (wf_com l H) as [H1 H2]. destruct l as [|s l]; [congruence|]. cbn [sdim map]. rewrite list_sum_cons. specialize (IH s (or_introl eq_refl) (H2 s (or_introl eq_refl))). lia.
  - destruct (wf_uni l H) as [H1 H2]. destruct l as [|s l]; [congruence|]. cbn [sdim]. apply IH; [now left|]. apply H2. now left.
  - now apply IH.
Qed.
Lemma nparts1 : forall s, wf s -> sdim s = 1%nat -> nparts_of s = 1%nat.
Proof.
  intros s. induction s as [b|n s IH|l IH|l IH|s IH] using space_ind'; intros H Hd; try reflexivity.
  - destruct H as [H1 H2]. cbn [sdim] in Hd. assert (X := sdim_pos s H2). assert (n = 1%nat /\ sdim s = 1%nat) as [-> Y] by nia. cbn [nparts_of]. rewrite (IH H2 Y). reflexivity.
  - destruct (wf_com l H) as [H1 H2]. destruct l as [|s [|t l]]; [congruence| |].
    + cbn [sdim nparts_of map] in *. rewrite list_sum_cons, list_sum_nil in *. rewrite (IH s (or_introl eq_refl) (H2 s (or_introl eq_refl))); lia.
    + exfalso. cbn [sdim map] in Hd. rewrite !list_sum_cons in Hd. assert (X := sdim_pos s (H2 s (or_introl eq_refl))). assert (Y := sdim_pos t (H2 t (or_intror (or_introl eq_refl)))). lia.
  - cbn [nparts_of]. apply IH; [exact H|exact Hd].
Qed.
Lemma supp_plain : forall o s, o = IDEN \/ o = GRAD -> supp o s.
Proof.
  intros o s Ho. induction s as [b|n s IH|l IH|l IH|s IH] using space_ind'.
  - destruct Ho as [-> | ->]; exact I.
  - destruct Ho as [-> | ->]; exact IH.
  - assert (X := proj2 (fold_and (supp o) l) IH). destruct Ho as [-> | ->]; exact X.
  - assert (X := proj2 (fold_and (supp o) l) IH). destruct Ho as [-> | ->]; exact X.
  - destruct Ho as [-> | ->]; exact I.
Qed.

(** *** Values *)
Definition exact_busy (o : op) : bool := match o with DIV => false | _ => true end.
Definition op_parts (o : op) (s : space) : nat := match o with DIV | CURL => 1%nat | _ => nparts_of s end.
Lemma vec_value : forall o s n, (forall c, o = DUDX c -> (c < 3)%nat) -> o <> DIV -> o <> CURL -> forall r t k i, (k < n * odim o s)%nat ->
  vrep (odim o s) (snfa s) (op_value o s) r t k i = op_value o (SVec n s) r t k i.
Proof.
  intros o s n Hc H1 H2 r t k i Hk. destruct o as [| | | |c]; try congruence; try reflexivity. specialize (Hc c eq_refl).
  unfold op_value, from_grad, vrep. cbn [plain_value]. unfold odim, dim_op in *.
  assert (Hd : (sdim s <> 0)%nat) by nia. assert (E := Nat.div_mod k (sdim s) Hd). assert (Hm := Nat.mod_upper_bound k (sdim s) Hd).
  assert (X1 : ((3 * k + c) / (sdim s * 3) = k / sdim s)%nat).
  { symmetry. apply (Nat.div_unique _ _ _ (3 * (k mod sdim s) + c)); [lia|]. rewrite E at 1. ring. }
  assert (X2 : ((3 * k + c) mod (sdim s * 3) = 3 * (k mod sdim s) + c)%nat).
  { symmetry. apply (Nat.mod_unique _ _ (k / sdim s)); [lia|]. rewrite E at 1. ring. }
  rewrite X1, X2. reflexivity.
Qed.
Lemma com_value_op : forall o l, (forall c, o = DUDX c -> (c < 3)%nat) -> o <> DIV -> o <> CURL -> forall r n k i,
  com_value (map (fun s => (odim o s, snfa s, op_value o s)) l) r n k i = op_value o (SCom l) r n k i.
Proof.
  intros o l Hc H1 H2. destruct o as [| | | |c]; try congruence; try reflexivity. specialize (Hc c eq_refl). unfold op_value, from_grad. cbn [plain_value].
  induction l as [|s l IH]; intros r n k i; [reflexivity|]. cbn [map com_value].
  assert (Es : odim GRAD s = (sdim s * 3)%nat) by reflexivity. rewrite Es. assert (Et : odim (DUDX c) s = sdim s) by reflexivity. rewrite Et.
  destruct (Nat.ltb_spec k (sdim s)); destruct (Nat.ltb_spec (3 * k + c) (sdim s * 3)); try lia; destruct (i <? snfa s)%nat; try reflexivity.
  rewrite IH. f_equal. lia.
Qed.
Lemma uni_value_op : forall o l r n k i, uni_value (map (fun s => (snfa s, op_value o s)) l) r n k i = op_value o (SUni l) r n k i.
Proof.
  intros o l r n k i. destruct o as [| | | |c]; try reflexivity; unfold op_value; cbn [plain_value].
  - revert i. induction l as [|s l IH]; intros i; [cbn; lra|]. cbn [map uni_value]. unfold from_grad in *. cbn [map uni_value]. destruct (i <? snfa s)%nat; [reflexivity|apply IH].
  - revert i. induction l as [|s l IH]; intros i; [unfold from_grad; cbn; destruct k as [|[|k]]; lra|]. cbn [map uni_value]. unfold from_grad in *. cbn [map uni_value]. destruct (i <? snfa s)%nat; [reflexivity|apply IH].
  - revert i. induction l as [|s l IH]; intros i; [reflexivity|]. cbn [map uni_value]. unfold from_grad in *. cbn [map uni_value]. destruct (i <? snfa s)%nat; [reflexivity|apply IH].
Qed.
Lemma vec1_value : forall o s r n k i, (o = DIV \/ o = CURL) -> sdim s = 3%nat -> (i < snfa s)%nat -> op_value o s r n k i = op_value o (SVec 1 s) r n k i.
Proof.
  intros o s r n k i Ho Hd Hi. assert (X : forall row, (row < 9)%nat -> plain_value GRAD (SVec 1 s) r n row i = plain_value GRAD s r n row i).
  { intros row Hrow. cbn [plain_value]. unfold odim, dim_op. rewrite Hd. change (3 * 3)%nat with 9%nat. rewrite (Nat.div_small row 9) by lia. rewrite (Nat.div_small i) by lia. rewrite Nat.eqb_refl.
    rewrite (Nat.mod_small row 9) by lia. now rewrite (Nat.mod_small i) by lia. }
  destruct Ho as [-> | ->]; unfold op_value, from_grad; [|destruct k as [|[|k]]]; rewrite !X by lia; reflexivity.
Qed.

(** *** The theorem *)
Definition rqf (o : op) (s : space) : req := match mreq f q o s with Some r => r | None => {| rU := 0; rE := 0; rP := 0 |} end.
Definition good (o : op) (s : space) : Prop := mreq f q o s = Some (rqf o s) /\ (1 <= rP (rqf o s))%nat /\
  gspec (apply f q o s) (rqf o s) (exact_busy o) (op_parts o s) (odim o s) (snfa s) (op_value o s).
Lemma good_intro : forall o s rq, mreq f q o s = Some rq -> (1 <= rP rq)%nat -> gspec (apply f q o s) rq (exact_busy o) (op_parts o s) (odim o s) (snfa s) (op_value o s) -> good o s.
Proof. intros o s rq E H1 H2. unfold good, rqf. rewrite E. auto. Qed.
Lemma all_opt_map : forall o l, (forall s, In s l -> mreq f q o s = Some (rqf o s)) -> all_opt (map (fun s => mreq f q o s) l) = Some (map (rqf o) l).
Proof.
  intros o l. induction l as [|s l IH]; intros H; [reflexivity|]. cbn [map all_opt]. rewrite (H s) by now left. cbn [obind]. rewrite IH by (intros t Ht; apply H; now right). reflexivity.
Qed.
Lemma sum_pos : forall (g : space -> nat) l, l <> [] -> (forall s, In s l -> (1 <= g s)%nat) -> (1 <= list_sum (map g l))%nat.
Proof. intros g [|s l] H1 H2; [congruence|]. cbn [map]. rewrite list_sum_cons. specialize (H2 s (or_introl eq_refl)). lia. Qed.

Lemma gspec_ex : forall G rq ex P d nf V, gspec G rq true P d nf V -> gspec G rq ex P d nf V.
Proof. intros G rq ex P d nf V H m u Hp. destruct (H m u Hp) as (m' & b & E & Po & N & B). exists m', b. auto. Qed.
Lemma gspec_fun : forall G G' rq ex P d nf V, (forall m u, G m u = G' m u) -> gspec G rq ex P d nf V -> gspec G' rq ex P d nf V.
Proof. intros G G' rq ex P d nf V HG H m u Hp. destruct (H m u Hp) as (m' & b & E & R). exists m', b. rewrite <- HG. auto. Qed.

(** compositions, the plain operators *)
Lemma com_good : forall o l, (forall c, o = DUDX c -> (c < 3)%nat) -> o <> DIV -> o <> CURL -> l <> [] -> (forall s, In s l -> good o s) ->
  gspec (com_apply (fun s => apply f q o s) (mreq f q o) l) (com_req (map (rqf o) l)) true (nparts_of (SCom l)) (odim o (SCom l)) (snfa (SCom l)) (op_value o (SCom l)).
Proof.
  intros o l Hc H1 H2 Hl HG.
  assert (X := com_ok f q (fun s => apply f q o s) (mreq f q o) (rqf o) nparts_of (odim o) snfa (op_value o) l Hl).
  assert (Y : forall s, In s l -> mreq f q o s = Some (rqf o s) /\ gspec (apply f q o s) (rqf o s) true (nparts_of s) (odim o s) (snfa s) (op_value o s)).
  { intros s Hs. destruct (HG s Hs) as (A & _ & B). split; [exact A|]. destruct o; try congruence; exact B. }
  specialize (X Y). replace (odim o (SCom l)) with (list_sum (map (odim o) l)).
  - eapply gspec_ext; [exact X|]. intros. apply com_value_op; assumption.
  - unfold odim. cbn [sdim]. clear - H1 H2. induction l as [|s l IH]; [destruct o; reflexivity|]. cbn [map]. rewrite !list_sum_cons, IH. destruct o; cbn [dim_op]; try congruence; lia.
Qed.
Lemma com_mreq : forall o l, o <> DIV -> o <> CURL -> (forall s, In s l -> good o s) -> mreq f q o (SCom l) = Some (com_req (map (rqf o) l)).
Proof.
  intros o l H1 H2 HG. assert (X := all_opt_map o l (fun s Hs => proj1 (HG s Hs))). cbn [mreq]. destruct o; try congruence; rewrite X; reflexivity.
Qed.

Lemma div_single : forall s0, wf s0 -> good DIV s0 -> sdim s0 = 3%nat -> good DIV (SCom [s0]).
Proof.
  intros s0 Hw (E & H1 & H2) Hd. assert (Hd' : sdim (SCom [s0]) = 3%nat) by (cbn [sdim map]; rewrite list_sum_cons, list_sum_nil; lia).
  apply (good_intro _ _ (rqf DIV s0)); [cbn [mreq]; rewrite Hd'; cbn [Nat.eqb guard obind]; exact E|exact H1|].
  apply (gspec_fun (apply f q DIV s0)). { intros m u. cbn [apply]. rewrite Hd'. reflexivity. }
  replace (odim DIV (SCom [s0])) with (odim DIV s0) by (unfold odim; rewrite Hd, Hd'; reflexivity).
  replace (snfa (SCom [s0])) with (snfa s0) by (cbn [snfa map]; rewrite list_sum_cons, list_sum_nil; lia).
  eapply gspec_ext; [exact H2|]. intros r n k i Hr Hn Hk Hi. unfold op_value, from_grad. cbn [plain_value map com_value]. unfold odim, dim_op. rewrite Hd. ltbc. reflexivity.
Qed.
Lemma div_three : forall s0 s1 s2, wf s0 -> wf s1 -> wf s2 -> good (DUDX 0) s0 -> good (DUDX 1) s1 -> good (DUDX 2) s2 -> sdim s0 = 1%nat -> sdim s1 = 1%nat -> sdim s2 = 1%nat -> good DIV (SCom [s0; s1; s2]).
Proof.
  intros s0 s1 s2 W0 W1 W2 (E0 & _ & G0) (E1 & _ & G1) (E2 & _ & G2) D0 D1 D2.
  set (s := SCom [s0; s1; s2]). assert (Hd : sdim s = 3%nat) by (unfold s; cbn [sdim map]; rewrite !list_sum_cons, list_sum_nil; lia).
  assert (Hn : snfa s = (snfa s0 + snfa s1 + snfa s2)%nat) by (unfold s; cbn [snfa map]; rewrite !list_sum_cons, list_sum_nil; lia).
  set (r0 := rqf (DUDX 0) s0) in *. set (r1 := rqf (DUDX 1) s1) in *. set (r2 := rqf (DUDX 2) s2) in *.
  set (rq := {| rU := (q * f * snfa s)%nat; rE := max_of (fun r => rE r + rU r)%nat [r0; r1; r2]; rP := (Nat.max 1 (max_of rP [r0; r1; r2]) + 2)%nat |}).
  apply (good_intro _ _ rq).
  { unfold s. cbn [mreq]. fold s. rewrite Hd. cbn [Nat.eqb guard obind]. rewrite E0, E1, E2. reflexivity. }
  { cbn. lia. }
  unfold op_parts, odim in G0, G1, G2. rewrite D0 in G0. rewrite D1 in G1. rewrite D2 in G2. rewrite (nparts1 s0 W0 D0) in G0. rewrite (nparts1 s1 W1 D1) in G1. rewrite (nparts1 s2 W2 D2) in G2. cbn [dim_op exact_busy] in G0, G1, G2.
  intros m u Hpre. unfold max_of in rq. cbn [fold_right] in rq.
  destruct (div_part_ok f q _ _ _ _ _ m u rq (snfa s) 0 G0 Hpre eq_refl) as (m1 & X1 & F1 & B1 & Z1 & Y1 & C1); [cbn [rq rE]; lia|cbn [rq rP]; lia|lia|].
  destruct (div_part_ok f q _ _ _ _ _ m1 u rq (snfa s) (snfa s0) G1 (pre_frame _ _ _ _ _ F1 B1 Hpre) eq_refl) as (m2 & X2 & F2 & B2 & Z2 & Y2 & C2); [cbn [rq rE]; lia|cbn [rq rP]; lia|lia|].
  assert (F12 := frame_trans _ _ _ _ _ F1 B1 F2). assert (B12 : busy m2 = busy m) by congruence.
  destruct (div_part_ok f q _ _ _ _ _ m2 u rq (snfa s) (snfa s0 + snfa s1) G2 (pre_frame _ _ _ _ _ F12 B12 Hpre) eq_refl) as (m3 & X3 & F3 & B3 & Z3 & Y3 & C3); [cbn [rq rE]; lia|cbn [rq rP]; lia|lia|].
  assert (F13 := frame_trans _ _ _ _ _ F12 B12 F3). assert (B13 : busy m3 = busy m) by congruence. rewrite B12 in Z3, Y3.
  destruct (div_finish_ok f q m m3 u rq (snfa s) (op_value DIV s) Hpre eq_refl ltac:(cbn; lia) F13 B13 Z3 Y3) as (m4 & b & X4 & Po & NP).
  { destruct C1 as [C1 _]. destruct C2 as [C2 K2]. destruct C3 as [C3 K3].
    assert (Val : forall r n i, op_value DIV s r n 0%nat i =
      if (i <? snfa s0)%nat then plain_value GRAD s0 r n 0%nat i else if (i - snfa s0 <? snfa s1)%nat then plain_value GRAD s1 r n 1%nat (i - snfa s0)%nat else if (i - snfa s0 - snfa s1 <? snfa s2)%nat then plain_value GRAD s2 r n 2%nat (i - snfa s0 - snfa s1)%nat else 0).
    { intros r n i. unfold s, op_value, from_grad. cbn [plain_value map com_value]. unfold odim, dim_op. rewrite D0, D1, D2. ltbc; cbn [Nat.sub Nat.mul Nat.add]; lra. }
    intros r n i Hr Hq Hi. rewrite Val. destruct (Nat.ltb_spec i (snfa s0)).
    - rewrite K3, K2 by (try assumption; lia). exact (C1 r n i Hr Hq ltac:(assumption)).
    - destruct (Nat.ltb_spec (i - snfa s0) (snfa s1)).
      + rewrite K3 by (try assumption; lia). specialize (C2 r n (i - snfa s0)%nat Hr Hq ltac:(assumption)). replace (snfa s0 + (i - snfa s0))%nat with i in C2 by lia. exact C2.
      + destruct (Nat.ltb_spec (i - snfa s0 - snfa s1) (snfa s2)); [|lia]. specialize (C3 r n (i - snfa s0 - snfa s1)%nat Hr Hq ltac:(assumption)).
        replace (snfa s0 + snfa s1 + (i - snfa s0 - snfa s1))%nat with i in C3 by lia. exact C3. }
  exists m4, b. split.
  { unfold s. cbn [apply]. fold s. rewrite Hd. cbn [Nat.eqb guard obind]. rewrite E0, E1, E2. cbn [obind]. unfold div_111. rewrite <- Hn. rewrite X1. cbn [obind]. rewrite X2. cbn [obind]. rewrite X3. cbn [obind]. exact X4. }
  replace (odim DIV s) with 1%nat by (unfold odim; rewrite Hd; reflexivity). split; [exact Po|]. split; [exact NP|discriminate].
Qed.
(** a composition of two spaces, one of them with two components *)
Lemma div_two_a : forall s0 s1, wf s0 -> wf s1 -> good (DUDX 0) s0 -> good GRAD s1 -> sdim s0 = 1%nat -> sdim s1 = 2%nat -> good DIV (SCom [s0; s1]).
Proof.
  intros s0 s1 W0 W1 (E0 & _ & G0) (E1 & _ & G1) D0 D1.
  set (s := SCom [s0; s1]). assert (Hd : sdim s = 3%nat) by (unfold s; cbn [sdim map]; rewrite !list_sum_cons, list_sum_nil; lia).
  assert (Hn : snfa s = (snfa s0 + snfa s1)%nat) by (unfold s; cbn [snfa map]; rewrite !list_sum_cons, list_sum_nil; lia).
  set (r0 := rqf (DUDX 0) s0) in *. set (r1 := rqf GRAD s1) in *.
  set (rq := {| rU := (q * f * snfa s)%nat; rE := max_of (fun r => rE r + rU r)%nat [r0; r1]; rP := (Nat.max 1 (max_of rP [r0; r1]) + 2)%nat |}).
  apply (good_intro _ _ rq).
  { unfold s. cbn [mreq]. fold s. rewrite Hd, D0, D1. cbn [Nat.eqb guard obind]. rewrite E0, E1. reflexivity. }
  { cbn. lia. }
  unfold op_parts, odim in G0, G1. rewrite D0 in G0. rewrite D1 in G1. rewrite (nparts1 s0 W0 D0) in G0. cbn [dim_op exact_busy] in G0, G1. change (2 * 3)%nat with 6%nat in G1.
  intros m u Hpre. unfold max_of in rq. cbn [fold_right] in rq. assert (Hpre' := Hpre). destruct Hpre' as (P1 & P2 & P3 & P4 & P5 & P6 & P7). cbn [rq rU] in P1, P4.
  destruct (fill_ok (q * (f * snfa s)) u (fun _ => 0) (hp m)) as (h & Eh & Lh & Ah & Bh); [lia|].
  assert (F0 : frame m u (q * f * snfa s) (set_hp m h)) by (apply frame_hp; [apply frame_refl|exact Lh|]; intros c H1 H2; apply Bh; lia).
  destruct (div_part_ok f q _ _ _ _ _ (set_hp m h) u rq (snfa s) 0 G0 (pre_frame _ _ _ _ _ F0 eq_refl Hpre) eq_refl) as (m1 & X1 & F1 & B1 & Z1 & Y1 & C1 & K1); [cbn [rq rE]; lia|cbn [rq rP]; lia|lia|].
  assert (F01 := frame_trans _ _ _ _ _ F0 eq_refl F1). assert (B01 : busy m1 = busy m) by exact B1.
  destruct (div_pair_ok f q _ _ _ _ _ _ m1 u rq (snfa s) (snfa s0) 1 G1 (pre_frame _ _ _ _ _ F01 B01 Hpre) eq_refl) as (m2 & X2 & F2 & B2 & Z2 & Y2 & C2 & K2); [cbn [rq rE]; lia|cbn [rq rP]; lia|lia|lia| |].
  { intros r n i Hr Hq Hi. rewrite K1 by (try assumption; lia). cbn [set_hp hp]. apply Ah. assert (X := cell3_lt f q (snfa s) n (snfa s0 + i) r Hq ltac:(lia) Hr). lia. }
  assert (F02 := frame_trans _ _ _ _ _ F01 B01 F2). assert (B02 : busy m2 = busy m) by congruence. rewrite B01 in Z2, Y2.
  destruct (div_finish_ok f q m m2 u rq (snfa s) (op_value DIV s) Hpre eq_refl ltac:(cbn; lia) F02 B02 Z2 Y2) as (m4 & b & X4 & Po & NP).
  { assert (Val : forall r n i, op_value DIV s r n 0%nat i =
      if (i <? snfa s0)%nat then plain_value GRAD s0 r n 0%nat i else if (i - snfa s0 <? snfa s1)%nat then plain_value GRAD s1 r n 1%nat (i - snfa s0)%nat + plain_value GRAD s1 r n 5%nat (i - snfa s0)%nat else 0).
    { intros r n i. unfold s, op_value, from_grad. cbn [plain_value map com_value]. unfold odim, dim_op. rewrite D0, D1. ltbc; cbn [Nat.sub Nat.mul Nat.add]; lra. }
    intros r n i Hr Hq Hi. rewrite Val. destruct (Nat.ltb_spec i (snfa s0)).
    - rewrite K2 by (try assumption; lia). exact (C1 r n i Hr Hq ltac:(assumption)).
    - destruct (Nat.ltb_spec (i - snfa s0) (snfa s1)); [|lia].
      specialize (C2 r n (i - snfa s0)%nat Hr Hq ltac:(assumption)). replace (snfa s0 + (i - snfa s0))%nat with i in C2 by lia. exact C2. }
  exists m4, b. split.
  { unfold s. cbn [apply]. fold s. rewrite Hd, D0, D1. cbn [Nat.eqb guard obind]. rewrite Eh. cbn [obind]. rewrite E0, E1. cbn [obind]. fold r0 r1. rewrite X1. cbn [obind]. rewrite X2. cbn [obind]. exact X4. }
  replace (odim DIV s) with 1%nat by (unfold odim; rewrite Hd; reflexivity). split; [exact Po|]. split; [exact NP|discriminate].
Qed.
Lemma div_two_b : forall s0 s1, wf s0 -> wf s1 -> good GRAD s0 -> good (DUDX 2) s1 -> sdim s0 = 2%nat -> sdim s1 = 1%nat -> good DIV (SCom [s0; s1]).
Proof.
  intros s0 s1 W0 W1 (E0 & _ & G0) (E1 & _ & G1) D0 D1.
  set (s := SCom [s0; s1]). assert (Hd : sdim s = 3%nat) by (unfold s; cbn [sdim map]; rewrite !list_sum_cons, list_sum_nil; lia).
  assert (Hn : snfa s = (snfa s0 + snfa s1)%nat) by (unfold s; cbn [snfa map]; rewrite !list_sum_cons, list_sum_nil; lia).
  set (r0 := rqf GRAD s0) in *. set (r1 := rqf (DUDX 2) s1) in *.
  set (rq := {| rU := (q * f * snfa s)%nat; rE := max_of (fun r => rE r + rU r)%nat [r0; r1]; rP := (Nat.max 1 (max_of rP [r0; r1]) + 2)%nat |}).
  apply (good_intro _ _ rq).
  { unfold s. cbn [mreq]. fold s. rewrite Hd, D0, D1. cbn [Nat.eqb guard obind]. rewrite E0, E1. reflexivity. }
  { cbn. lia. }
  unfold op_parts, odim in G0, G1. rewrite D0 in G0. rewrite D1 in G1. rewrite (nparts1 s1 W1 D1) in G1. cbn [dim_op exact_busy] in G0, G1. change (2 * 3)%nat with 6%nat in G0.
  intros m u Hpre. unfold max_of in rq. cbn [fold_right] in rq. assert (Hpre' := Hpre). destruct Hpre' as (P1 & P2 & P3 & P4 & P5 & P6 & P7). cbn [rq rU] in P1, P4.
  destruct (fill_ok (q * (f * snfa s)) u (fun _ => 0) (hp m)) as (h & Eh & Lh & Ah & Bh); [lia|].
  assert (F0 : frame m u (q * f * snfa s) (set_hp m h)) by (apply frame_hp; [apply frame_refl|exact Lh|]; intros c H1 H2; apply Bh; lia).
  destruct (div_pair_ok f q _ _ _ _ _ _ (set_hp m h) u rq (snfa s) 0 0 G0 (pre_frame _ _ _ _ _ F0 eq_refl Hpre) eq_refl) as (m1 & X1 & F1 & B1 & Z1 & Y1 & C1 & K1); [cbn [rq rE]; lia|cbn [rq rP]; lia|lia|lia| |].
  { intros r n i Hr Hq Hi. cbn [set_hp hp]. apply Ah. assert (X := cell3_lt f q (snfa s) n (0 + i) r Hq ltac:(lia) Hr). lia. }
  assert (F01 := frame_trans _ _ _ _ _ F0 eq_refl F1). assert (B01 : busy m1 = busy m) by exact B1.
  destruct (div_part_ok f q _ _ _ _ _ m1 u rq (snfa s) (snfa s0) G1 (pre_frame _ _ _ _ _ F01 B01 Hpre) eq_refl) as (m2 & X2 & F2 & B2 & Z2 & Y2 & C2 & K2); [cbn [rq rE]; lia|cbn [rq rP]; lia|lia|].
  assert (F02 := frame_trans _ _ _ _ _ F01 B01 F2). assert (B02 : busy m2 = busy m) by congruence. rewrite B01 in Z2, Y2.
  destruct (div_finish_ok f q m m2 u rq (snfa s) (op_value DIV s) Hpre eq_refl ltac:(cbn; lia) F02 B02 Z2 Y2) as (m4 & b & X4 & Po & NP).
  { assert (Val : forall r n i, op_value DIV s r n 0%nat i =
      if (i <? snfa s0)%nat then plain_value GRAD s0 r n 0%nat i + plain_value GRAD s0 r n 4%nat i else if (i - snfa s0 <? snfa s1)%nat then plain_value GRAD s1 r n 2%nat (i - snfa s0)%nat else 0).
    { intros r n i. unfold s, op_value, from_grad. cbn [plain_value map com_value]. unfold odim, dim_op. rewrite D0, D1. ltbc; cbn [Nat.sub Nat.mul Nat.add]; lra. }
    intros r n i Hr Hq Hi. rewrite Val. destruct (Nat.ltb_spec i (snfa s0)).
    - rewrite K2 by (try assumption; lia). exact (C1 r n i Hr Hq ltac:(assumption)).
    - destruct (Nat.ltb_spec (i - snfa s0) (snfa s1)); [|lia].
      specialize (C2 r n (i - snfa s0)%nat Hr Hq ltac:(assumption)). replace (snfa s0 + (i - snfa s0))%nat with i in C2 by lia. exact C2. }
  exists m4, b. split.
  { unfold s. cbn [apply]. fold s. rewrite Hd, D0, D1. cbn [Nat.eqb guard obind]. rewrite Eh. cbn [obind]. rewrite E0, E1. cbn [obind]. fold r0 r1. rewrite X1. cbn [obind]. rewrite X2. cbn [obind]. exact X4. }
  replace (odim DIV s) with 1%nat by (unfold odim; rewrite Hd; reflexivity). split; [exact Po|]. split; [exact NP|discriminate].
Qed.
Lemma supp_dudx : forall c s, wf s -> supp (DUDX c) s -> (c < 3)%nat.
Proof.
  intros c s. induction s as [b|n s IH|l IH|l IH|s IH] using space_ind'; intros Hw Hs.
  - exact Hs.
  - apply IH; [exact (proj2 Hw)|exact Hs].
  - destruct (wf_com l Hw) as [Hl Hl2]. destruct l as [|s l]; [congruence|]. apply (IH s (or_introl eq_refl)); [apply Hl2; now left|exact (proj1 Hs)].
  - destruct (wf_uni l Hw) as [Hl Hl2]. destruct l as [|s l]; [congruence|]. apply (IH s (or_introl eq_refl)); [apply Hl2; now left|exact (proj1 Hs)].
  - exact (proj1 Hs).
Qed.

Theorem apply_ok : forall s, wf s -> forall o, supp o s -> good o s.
Proof.
  intros s. induction s as [b|n s IH|l IH|l IH|s IH] using space_ind'; intros Hw o Hs.
  - (* library space *)
    destruct (base_ok_ok f q o b Hw Hs) as (rq & E & HG). apply (good_intro _ _ rq E).
    { cbn [mreq] in E. destruct o; repeat match type of E with obind ?e _ = _ => destruct e; [cbn [obind] in E|discriminate] end; apply Some_inj' in E; subst rq; cbn; lia. }
    replace (op_parts o (SBase b)) with 1%nat by (destruct o; reflexivity). apply (gspec_ex _ _ (exact_busy o)) in HG. eapply gspec_ext; [exact HG|].
    intros r t k i _ _ Hk Hi. destruct Hw as (_ & _ & Hv). cbn [supp] in Hs. destruct o; try reflexivity; apply Hv; try discriminate; auto; intros [e|e]; try discriminate; exact Hs.
  - (* repetition *)
    destruct Hw as [Hn Hw]. specialize (IH Hw). assert (Hsd := sdim_pos s Hw).
    assert (Plain : o <> DIV -> o <> CURL -> supp o s -> (forall c, o = DUDX c -> (c < 3)%nat) -> good o (SVec n s)).
    { intros H1 H2 Hs' Hc. destruct (IH o Hs') as (E & HP & HG). set (r := rqf o s) in *.
      apply (good_intro _ _ {| rU := rU r; rE := rE r; rP := rP r * n |}%nat).
      { cbn [mreq]. destruct o; try congruence; rewrite E; reflexivity. }
      { cbn [rP]. nia. }
      assert (HGe : gspec (apply f q o s) r true (nparts_of s) (odim o s) (snfa s) (op_value o s)) by (destruct o; try congruence; exact HG).
      replace (op_parts o (SVec n s)) with (n * nparts_of s)%nat by (destruct o; try congruence; reflexivity).
      apply gspec_ex. intros m u Hpre. assert (Hpre' := Hpre). destruct Hpre' as (P1 & P2 & P3 & P4 & P5 & P6 & P7). cbn [rU rE rP] in *.
      destruct (HGe m u) as (m1 & b & E1 & Po & NP & B1). { unfold pre. repeat split; try assumption; nia. }
      destruct (rep_ok f q m u r m1 b _ _ _ n Po (B1 eq_refl) Hn P5 P6 P7) as (m2 & b2 & E2 & Po2 & B2 & NP2). exists m2, b2.
      split; [cbn [apply]; destruct o; try congruence; rewrite E1; exact E2|].
      replace (odim o (SVec n s)) with (n * odim o s)%nat by (unfold odim; cbn [sdim]; destruct o; cbn [dim_op]; try congruence; lia).
      split; [|split; [rewrite NP2, NP; lia|auto]]. apply (post_ext f q _ _ _ _ _ _ _ _ _ Po2). intros x t k i _ _ Hk Hi. now apply vec_value. }
    assert (Deriv : (o = DIV \/ o = CURL) -> good o (SVec n s)).
    { intros Ho. assert (Hs2 : (n * sdim s = 3)%nat /\ (n = 3%nat \/ supp o s)) by (destruct Ho as [-> | ->]; exact Hs). destruct Hs2 as [Hd Hs2].
      assert (Hd3 : sdim (SVec n s) = 3%nat) by exact Hd.
      assert (Hcase : (n = 3%nat /\ sdim s = 1%nat) \/ (n = 1%nat /\ sdim s = 3%nat)). { assert (n <= 3)%nat by nia. destruct n as [|[|[|[|n]]]]; lia. }
      destruct Hcase as [[-> D1]|[-> D1]].
      - destruct (IH GRAD (supp_plain GRAD s (or_intror eq_refl))) as (E & HP & HG). set (r := rqf GRAD s) in *.
        unfold op_parts in HG. rewrite (nparts1 s Hw D1) in HG. unfold odim in HG. rewrite D1 in HG. cbn [dim_op exact_busy] in HG. change (1 * 3)%nat with 3%nat in HG.
        destruct Ho as [-> | ->].
        + apply (good_intro _ _ (over_req (3 * q * f * snfa s) r)); [cbn [mreq]; rewrite Hd3; cbn [Nat.eqb guard obind]; rewrite E; reflexivity|exact HP|].
          apply (gspec_fun (vec_div f q (apply f q GRAD s) r (snfa s))). { intros m u. cbn [apply]. rewrite Hd3. cbn [Nat.eqb guard obind]. rewrite E. reflexivity. }
          apply gspec_ex. replace (odim DIV (SVec 3 s)) with 1%nat by (unfold odim; rewrite Hd3; reflexivity). eapply gspec_ext; [exact (vec_div_ok f q _ _ _ _ HG)|].
          intros x t k i _ _ _ _. unfold op_value at 2. cbn [plain_value]. unfold odim, dim_op. rewrite D1. reflexivity.
        + apply (good_intro _ _ (over_req (9 * q * f * snfa s) r)); [cbn [mreq]; rewrite Hd3; cbn [Nat.eqb guard obind]; rewrite E; reflexivity|exact HP|].
          apply (gspec_fun (vec_curl f q (apply f q GRAD s) r (snfa s))). { intros m u. cbn [apply]. rewrite Hd3. cbn [Nat.eqb guard obind]. rewrite E. reflexivity. }
          apply gspec_ex. replace (odim CURL (SVec 3 s)) with 3%nat by (unfold odim; rewrite Hd3; reflexivity). eapply gspec_ext; [exact (vec_curl_ok f q _ _ _ _ HG)|].
          intros x t k i _ _ _ _. unfold op_value at 2. cbn [plain_value]. unfold odim, dim_op. rewrite D1. reflexivity.
      - destruct Hs2 as [Hs2|Hs2]; [discriminate|]. destruct (IH o Hs2) as (E & HP & HG).
        apply (good_intro _ _ (rqf o s)); [cbn [mreq]; rewrite Hd3; destruct Ho as [-> | ->]; exact E|exact HP|].
        apply (gspec_fun (apply f q o s)). { intros m u. cbn [apply]. rewrite Hd3. destruct Ho as [-> | ->]; reflexivity. }
        replace (odim o (SVec 1 s)) with (odim o s) by (unfold odim; rewrite D1, Hd3; reflexivity). replace (snfa (SVec 1 s)) with (snfa s) by (cbn [snfa]; lia).
        replace (op_parts o (SVec 1 s)) with (op_parts o s) by (destruct Ho as [-> | ->]; reflexivity). eapply gspec_ext; [exact HG|]. intros x t k i _ _ _ Hi. now apply vec1_value. }
    destruct o as [| | | |c]; try (apply Deriv; auto; fail); apply Plain; try discriminate; try exact Hs.
    intros c' e. injection e as <-. exact (supp_dudx c s Hw Hs).
  - (* composition *)
    destruct (wf_com l Hw) as [Hl Hwl].
    assert (HGr : forall s, In s l -> good GRAD s) by (intros s Hin; apply IH; [exact Hin|now apply Hwl|apply supp_plain; now right]).
    assert (Plain : o <> DIV -> o <> CURL -> (forall s, In s l -> supp o s) -> (forall c, o = DUDX c -> (c < 3)%nat) -> good o (SCom l)).
    { intros H1 H2 Hsl Hc. assert (HGl : forall s, In s l -> good o s) by (intros s Hin; apply IH; auto).
      apply (good_intro _ _ (com_req (map (rqf o) l))); [now apply com_mreq| |].
      - cbn [com_req rP]. unfold sum_of. rewrite map_map. apply sum_pos; [exact Hl|]. intros s Hin. exact (proj1 (proj2 (HGl s Hin))).
      - apply gspec_ex. replace (op_parts o (SCom l)) with (nparts_of (SCom l)) by (destruct o; try congruence; reflexivity).
        eapply gspec_fun; [|exact (com_good o l Hc H1 H2 Hl HGl)]. intros m u. cbn [apply]. destruct o; try congruence; reflexivity. }
    destruct o as [| | | |c].
    + apply Plain; try discriminate. intros s _. apply supp_plain. now left.
    + apply Plain; try discriminate. intros s _. apply supp_plain. now right.
    + destruct Hs as [Hd Hs]. cbn [sdim] in Hd. destruct l as [|s0 [|s1 [|s2 [|s3 l]]]]; [congruence| | | |].
      * assert (W0 := Hwl s0 (or_introl eq_refl)). cbn [map] in Hd. rewrite list_sum_cons, list_sum_nil in Hd. apply div_single; [exact W0|apply IH; [now left|exact W0|exact Hs]|lia].
      * assert (W0 := Hwl s0 (or_introl eq_refl)). assert (W1 := Hwl s1 (or_intror (or_introl eq_refl))). assert (Q0 := sdim_pos s0 W0). assert (Q1 := sdim_pos s1 W1).
        cbn [map] in Hd. rewrite !list_sum_cons, list_sum_nil in Hd. destruct Hs as [S0 S1].
        destruct (Nat.eq_dec (sdim s0) 1) as [D0|D0].
        -- apply div_two_a; try assumption; [apply IH; [now left|exact W0|now apply S0]|apply HGr; right; now left|lia].
        -- apply div_two_b; try assumption; [apply HGr; now left|apply IH; [right; now left|exact W1|apply S1; lia]|lia|lia].
      * assert (W0 := Hwl s0 (or_introl eq_refl)). assert (W1 := Hwl s1 (or_intror (or_introl eq_refl))). assert (W2 := Hwl s2 (or_intror (or_intror (or_introl eq_refl)))).
        assert (Q0 := sdim_pos s0 W0). assert (Q1 := sdim_pos s1 W1). assert (Q2 := sdim_pos s2 W2).
        cbn [map] in Hd. rewrite !list_sum_cons, list_sum_nil in Hd. destruct Hs as (S0 & S1 & S2).
        apply div_three; try assumption; try lia; apply IH; try assumption; cbn [In]; auto.
      * exfalso. assert (W0 := sdim_pos _ (Hwl s0 (or_introl eq_refl))). assert (W1 := sdim_pos _ (Hwl s1 (or_intror (or_introl eq_refl)))). assert (W2 := sdim_pos _ (Hwl s2 (or_intror (or_intror (or_introl eq_refl))))).
        assert (W3 := sdim_pos _ (Hwl s3 (or_intror (or_intror (or_intror (or_introl eq_refl)))))). cbn [map] in Hd. rewrite !list_sum_cons in Hd. lia.
    + assert (Hd : sdim (SCom l) = 3%nat) by exact Hs. assert (X := com_good GRAD l ltac:(discriminate) ltac:(discriminate) ltac:(discriminate) Hl HGr).
      assert (M := com_mreq GRAD l ltac:(discriminate) ltac:(discriminate) HGr). set (rq := com_req (map (rqf GRAD) l)) in *.
      assert (HP : (1 <= rP rq)%nat). { unfold rq. cbn [com_req rP]. unfold sum_of. rewrite map_map. apply sum_pos; [exact Hl|]. intros s Hin. exact (proj1 (proj2 (HGr s Hin))). }
      apply (good_intro _ _ (over_req (3 * q * f * snfa (SCom l)) rq)).
      * cbn [mreq]. rewrite Hd. cbn [Nat.eqb guard obind]. rewrite (all_opt_map GRAD l (fun s Hin => proj1 (HGr s Hin))). reflexivity.
      * exact HP.
      * apply (gspec_fun (def_curl f q (com_apply (fun s => apply f q GRAD s) (mreq f q GRAD) l) rq (snfa (SCom l)))).
        { intros m u. cbn [apply]. rewrite Hd. cbn [Nat.eqb guard obind]. rewrite M. reflexivity. }
        unfold odim in *. rewrite Hd in *. cbn [dim_op] in *. change (3 * 3)%nat with 9%nat in X. exact (def_curl_ok f q _ _ _ _ _ _ X HP).
    + assert (Hsl := proj1 (fold_and (supp (DUDX c)) l) Hs). apply Plain; try discriminate; [exact Hsl|]. intros c' e. injection e as <-. destruct l as [|s l]; [congruence|]. specialize (Hsl s (or_introl eq_refl)). specialize (Hwl s (or_introl eq_refl)).
      exact (supp_dudx c s Hwl Hsl).
  - (* union *)
    destruct (wf_uni l Hw) as [Hl Hwl]. assert (Hsl := proj1 (fold_and (supp o) l) Hs).
    assert (HGl : forall s, In s l -> good o s) by (intros s Hin; apply IH; [exact Hin|now apply Hwl|now apply Hsl]).
    apply (good_intro _ _ (uni_req (odim o (SUni l)) q f (snfa (SUni l)) (map (rqf o) l))).
    + cbn [mreq]. rewrite (all_opt_map o l (fun s Hin => proj1 (HGl s Hin))). reflexivity.
    + cbn [uni_req rP]. unfold sum_of. rewrite map_map. apply sum_pos; [exact Hl|]. intros s Hin. exact (proj1 (proj2 (HGl s Hin))).
    + apply gspec_ex. replace (op_parts o (SUni l)) with 1%nat by (destruct o; reflexivity).
      assert (X := uni_ok f q (fun s => apply f q o s) (mreq f q o) (exact_busy o) (rqf o) (op_parts o) (odim o (SUni l)) (op_value o) l Hl (fun s Hin => proj1 (proj2 (HGl s Hin)))).
      assert (Y : forall s, In s l -> mreq f q o s = Some (rqf o s) /\ gspec (apply f q o s) (rqf o s) (exact_busy o) (op_parts o s) (odim o (SUni l)) (snfa s) (op_value o s)).
      { intros s Hin. destruct (HGl s Hin) as (A & _ & B). split; [exact A|]. unfold odim in *. rewrite <- (proj2 (Hwl s Hin)). exact B. }
      specialize (X Y). eapply gspec_ext; [exact X|]. intros. apply uni_value_op.
  - (* user space *)
    specialize (IH Hw). destruct o as [| | | |c].
    + destruct (IH IDEN (supp_plain IDEN s (or_introl eq_refl))) as (E & HP & HG). apply (good_intro _ _ (rqf IDEN s)); [exact E|exact HP|exact HG].
    + destruct (IH GRAD (supp_plain GRAD s (or_intror eq_refl))) as (E & HP & HG). apply (good_intro _ _ (rqf GRAD s)); [exact E|exact HP|exact HG].
    + destruct Hs.
    + destruct (IH GRAD (supp_plain GRAD s (or_intror eq_refl))) as (E & HP & HG). assert (Hd : sdim s = 3%nat) by exact Hs. assert (Hd' : sdim (SUser s) = 3%nat) by exact Hs. set (r := rqf GRAD s) in *.
      apply (good_intro _ _ (over_req (3 * q * f * snfa s) r)); [cbn [mreq]; rewrite Hd'; cbn [Nat.eqb guard obind]; rewrite E; reflexivity|exact HP|].
      apply (gspec_fun (def_curl f q (apply f q GRAD s) r (snfa s))). { intros m u. cbn [apply]. rewrite Hd'. cbn [Nat.eqb guard obind]. rewrite E. reflexivity. }
      unfold odim in *. rewrite Hd in HG. rewrite Hd'. cbn [dim_op] in *. change (3 * 3)%nat with 9%nat in HG. exact (def_curl_ok f q _ _ _ _ _ _ HG HP).
    + destruct Hs as [Hc Hnp]. destruct (IH GRAD (supp_plain GRAD s (or_intror eq_refl))) as (E & HP & HG). set (r := rqf GRAD s) in *.
      apply (good_intro _ _ (over_req (Nat.min (sdim s * q * f * snfa s) (rU r)) r)); [cbn [mreq]; rewrite E; reflexivity|exact HP|].
      apply (gspec_fun (def_dudx f q (apply f q GRAD s) r c)). { intros m u. cbn [apply]. rewrite E. reflexivity. }
      unfold op_parts in *. rewrite Hnp in HG. cbn [nparts_of]. rewrite Hnp. unfold odim in *. cbn [dim_op sdim snfa] in *.
      exact (def_dudx_ok f q _ _ _ _ _ _ _ Hc (sdim_pos s Hw) HP HG).
Qed.
End Main.
