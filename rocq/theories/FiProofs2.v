(** The points of a region are loaded *)
From Coq Require Import ZArith.
From Verif Require Import Prelude RSum GeoModel GeoSpec SpModel BasModel BasSpec CoreModel CoreProofs QuadModel QuadTables QuadRules QuadSpec QuadProofs4 FiModel FiSpec FiProofs.
Local Open Scope R_scope.

(** Weight of vertex k of the tetrahedron in the point of the region with barycentric coordinates p *)
Definition spread (reg : region) (p : list R) (k : nat) : R := Rsum (length p) (fun i => nth i p 0 * delta (corner reg i) k).
Definition formula_for (reg : region) (order : Z) (F : formula) : Prop :=
  match shape_of reg with Some s => exists f, quadrature s order = Some f /\ sound s (Z.to_nat order) f F | None => F = [([1], 1)] end.

Lemma copy_ok : forall n src dst, (n <= length src)%nat -> (n <= length dst)%nat -> exists d, copy n src dst = Some d /\ length d = length dst /\ forall i, (i < n)%nat -> rd d i = rd src i.
Proof.
  intros n src dst Hs Hd. unfold copy.
  destruct (for_inv (fun i d => length d = length dst /\ forall j, (j < i)%nat -> rd d j = rd src j) n (fun i d => do v <- rd src i; wr d i v) dst) as (d & E & L & H).
  - split; [reflexivity|lia].
  - intros i d Hi (L & H). destruct (rd_some src i) as (v & Ev); [lia|]. rewrite Ev. cbn [obind]. destruct (wr_some d i v) as (d' & E & L' & W); [lia|]. exists d'. split; [exact E|]. split; [congruence|].
    intros j Hj. rewrite W. destruct (Nat.eqb_spec j i); [subst; now rewrite Ev|]. apply H. lia.
  - exists d. auto.
Qed.
Ltac wrs := match goal with |- context [wr ?l ?c ?v] => let l' := fresh "l" in let E := fresh "E" in let L := fresh "L" in let W := fresh "W" in
  destruct (wr_some l c v) as (l' & E & L & W); [lia|rewrite E; cbn [obind]] end.
Ltac eqs := repeat match goal with |- context [(?a =? ?b)%nat] => destruct (Nat.eqb_spec a b); try lia end.

Lemma face_points_ok : forall q k p xyl (P : nat -> nat -> R), (k < 4)%nat -> (4 * q <= length xyl)%nat -> (forall n i, (n < q)%nat -> (i < 3)%nat -> rd p (3 * n + i) = Some (P n i)) ->
  exists l, face_points q k p xyl = Some l /\ length l = length xyl /\ forall n j, (n < q)%nat -> (j < 4)%nat -> rd l (j + 4 * n) = Some (Rsum 3 (fun i => P n i * delta ((k + i) mod 4) j)).
Proof.
  intros q k p xyl P Hk HL HP. unfold face_points.
  match goal with |- context [for_ q ?b xyl] => destruct (for_inv (fun i l => length l = length xyl /\ forall n j, (n < i)%nat -> (j < 4)%nat -> rd l (j + 4 * n) = Some (Rsum 3 (fun i => P n i * delta ((k + i) mod 4) j))) q b xyl) as (d & E & L & H) end.
  - split; [reflexivity|lia].
  - intros i l Hi (L & H). rewrite !HP by lia. cbn [obind].
    assert (M : forall t, ((k + t) mod 4 < 4)%nat) by (intros; apply Nat.mod_upper_bound; lia).
    pose proof (M 1%nat). pose proof (M 2%nat). pose proof (M 3%nat). do 4 wrs. eexists. split; [reflexivity|]. split; [congruence|].
    intros n j Hn Hj. rewrite W2, W1, W0, W. destruct (Nat.eq_dec n i) as [->|Hni].
    + clear -Hk Hj. destruct k as [|[|[|[|k]]]]; [| | | |lia]; (destruct j as [|[|[|[|j]]]]; [| | | |lia]); cbn [Nat.modulo Nat.divmod fst snd Nat.sub Nat.add]; eqs; cbn [Rsum]; unfold delta; cbn; f_equal; ring.
    + rewrite <- (H n j) by lia. eqs; reflexivity.
  - exists d. auto.
Qed.
Lemma lookup_ok : forall e, (e < 6)%nat -> rd lookup1 e = Some (fst (edge_of e)) /\ rd lookup2 e = Some (snd (edge_of e)) /\ (fst (edge_of e) < snd (edge_of e) < 4)%nat.
Proof. intros e He. do 6 (destruct e as [|e]; [cbn; repeat split; lia|]). lia. Qed.
Lemma zeros_ok : forall n xyl, (n <= length xyl)%nat -> exists l, for_ n (fun i xyl => wr xyl i 0) xyl = Some l /\ length l = length xyl /\ forall i, (i < n)%nat -> rd l i = Some 0.
Proof.
  intros n xyl H. destruct (for_inv (fun i d => length d = length xyl /\ forall j, (j < i)%nat -> rd d j = Some 0) n (fun i d => wr d i 0) xyl) as (d & E & L & H').
  - split; [reflexivity|lia].
  - intros i d Hi (L & H'). wrs. eexists. split; [reflexivity|]. split; [congruence|]. intros j Hj. rewrite W. destruct (Nat.eqb_spec j i); [reflexivity|]. apply H'. lia.
  - exists d. auto.
Qed.
Lemma edge_points_ok : forall q e p xyl (P : nat -> nat -> R), (e < 6)%nat -> (4 * q <= length xyl)%nat -> (forall n i, (n < q)%nat -> (i < 2)%nat -> rd p (2 * n + i) = Some (P n i)) ->
  exists l, edge_points q e p xyl = Some l /\ length l = length xyl /\ forall n j, (n < q)%nat -> (j < 4)%nat -> rd l (j + 4 * n) = Some (Rsum 2 (fun i => P n i * delta (corner (Edge e) i) j)).
Proof.
  intros q e p xyl P He HL HP. unfold edge_points. destruct (zeros_ok (4 * q) xyl HL) as (z & Ez & Lz & Hz). rewrite Ez. cbn [obind].
  destruct (lookup_ok e He) as (E1 & E2 & HE). rewrite E1, E2. cbn [obind]. cbn [Rsum corner Nat.eqb]. set (a := fst (edge_of e)) in *. set (b := snd (edge_of e)) in *. clearbody a b.
  match goal with |- context [for_ q ?bd z] => destruct (for_inv (fun i l => length l = length xyl /\ (forall n j, (n < i)%nat -> (j < 4)%nat -> rd l (j + 4 * n) = Some (0 + P n 0%nat * delta a j + P n 1%nat * delta b j)) /\ (forall n j, (i <= n < q)%nat -> (j < 4)%nat -> rd l (j + 4 * n) = Some 0)) q bd z) as (d & E & L & H & _) end.
  - split; [congruence|]. split; [lia|]. intros n j Hn Hj. apply Hz. lia.
  - intros i l Hi (L & H & Z). rewrite !HP by lia. cbn [obind]. do 2 wrs. eexists. split; [reflexivity|]. split; [congruence|]. split.
    + intros n j Hn Hj. rewrite W0, W. destruct (Nat.eq_dec n i) as [->|Hni].
      * unfold delta. destruct (Nat.eqb_spec b j); destruct (Nat.eqb_spec a j); eqs; try (f_equal; ring). rewrite Z by lia. f_equal. ring.
      * rewrite <- (H n j) by lia. eqs; reflexivity.
    + intros n j Hn Hj. rewrite W0, W, <- (Z n j) by lia. eqs; reflexivity.
  - exists d. auto.
Qed.
Lemma node_point_ok : forall k xyl, (k < 4)%nat -> (4 <= length xyl)%nat -> exists l, node_point k xyl = Some l /\ length l = length xyl /\ forall j, (j < 4)%nat -> rd l j = Some (delta k j).
Proof.
  intros k xyl Hk HL. unfold node_point. destruct (zeros_ok 4 xyl HL) as (z & Ez & Lz & Hz). rewrite Ez. cbn [obind]. wrs. eexists. split; [reflexivity|]. split; [congruence|].
  intros j Hj. rewrite W. unfold delta. rewrite (Nat.eqb_sym k j). destruct (Nat.eqb_spec j k); [reflexivity|]. apply Hz. lia.
Qed.

Lemma load_points_ok : forall reg order xyl wg, valid reg -> order_ok reg order -> (4 * npoints reg order <= length xyl)%nat -> (npoints reg order <= length wg)%nat ->
  exists F xyl' wg', load_points reg order xyl wg = Some (npoints reg order, xyl', wg') /\ length F = npoints reg order /\ (1 <= npoints reg order)%nat /\
    length xyl' = length xyl /\ length wg' = length wg /\ formula_for reg order F /\
    forall n p v, nth_error F n = Some (p, v) -> length p = corners reg /\ Rsum (corners reg) (fun k => nth k p 0) = 1 /\ rd wg' n = Some v /\ forall k, (k < 4)%nat -> rd xyl' (k + 4 * n) = Some (spread reg p k).
Proof.
  intros reg order xyl wg Hv Ho Lx Lw. unfold order_ok, npoints, formula_for, corners in *.
  assert (W : forall (s : QuadSpec.shape) f F wg, stored (dim s) f F -> (q_num f <= length wg)%nat -> exists wg', copy (q_num f) (q_w f) wg = Some wg' /\ length wg' = length wg /\ forall n p v, nth_error F n = Some (p, v) -> rd wg' n = Some v).
  { intros s f F wg0 (Hn & Hst) Hl. destruct (copy_ok (q_num f) (q_w f) wg0) as (w' & E & L & H); [|exact Hl|].
    - destruct (q_num f) as [|m] eqn:Em; [lia|]. destruct (nth_error F m) as [[p v]|] eqn:EF; [|apply nth_error_None in EF; lia]. destruct (Hst m p v EF) as (_ & _ & R & _). apply rd_lt in R. lia.
    - exists w'. split; [exact E|]. split; [exact L|]. intros n p v EF. destruct (Hst n p v EF) as (_ & _ & R & _). rewrite H; [exact R|]. rewrite Hn. apply nth_error_Some. congruence. }
  assert (PP : forall (s : QuadSpec.shape) f F, stored (dim s) f F -> forall n i, (n < q_num f)%nat -> (i < S (dim s))%nat -> rd (q_p f) (S (dim s) * n + i) = Some (nth i (fst (nth n F ([], 0))) 0)).
  { intros s f F (Hn & Hst) n i Hq Hi. rewrite Hn in Hq. destruct (nth_error F n) as [[p v]|] eqn:EF; [|apply nth_error_None in EF; lia]. rewrite (nth_error_nth _ _ _ EF). cbn [fst]. apply (Hst n p v EF). lia. }
  destruct reg as [|k|k|e|k]; cbn [shape_of valid load_points] in *.
  - destruct (quadrature_stored Tetrahedron order Ho) as (f & F & E & S0 & St & H1). rewrite E in *. cbn [quadrature] in E. rewrite E. cbn [obind]. pose proof St as (Hn & Hst).
    assert (HP := PP Tetrahedron f F St). cbn [dim] in HP.
    destruct (copy_ok (4 * q_num f) (q_p f) xyl) as (x' & Ex & Lx' & Hx); [|exact Lx|].
    { destruct (q_num f) as [|m] eqn:Em; [lia|]. specialize (HP m 3%nat ltac:(lia) ltac:(lia)). apply rd_lt in HP. lia. }
    destruct (W Tetrahedron f F wg St Lw) as (w' & Ew & Lw' & Hw). rewrite Ex. cbn [obind]. rewrite Ew. cbn [obind]. exists F, x', w'.
    split; [reflexivity|]. split; [now rewrite Hn|]. split; [lia|]. split; [exact Lx'|]. split; [exact Lw'|]. split; [eauto|].
    intros n p v EF. assert (Hnq : (n < q_num f)%nat) by (rewrite Hn; apply nth_error_Some; congruence). destruct (Hst n p v EF) as (A & B & C & D). split; [exact A|]. split; [exact B|]. split; [eapply Hw; eauto|].
    intros k Hk. rewrite Hx by lia. replace (k + 4 * n)%nat with (4 * n + k)%nat by lia. change 4%nat with (S (dim Tetrahedron)). rewrite D by (cbn; lia). f_equal. unfold spread. rewrite A. cbn [dim corner].
    rewrite (Rsum_single 4 k) by first [lia | intros; unfold delta; destruct (Nat.eqb_spec i k); [lia|ring]]. unfold delta. rewrite Nat.eqb_refl. ring.
  - destruct (quadrature_stored Triangle order Ho) as (f & F & E & S0 & St & H1). rewrite E in *. cbn [quadrature] in E. rewrite E. cbn [obind]. pose proof St as (Hn & Hst).
    destruct (face_points_ok (q_num f) k (q_p f) xyl _ Hv Lx (PP Triangle f F St)) as (x' & Ex & Lx' & Hx).
    destruct (W Triangle f F wg St Lw) as (w' & Ew & Lw' & Hw). rewrite Ex. cbn [obind]. rewrite Ew. cbn [obind]. exists F, x', w'.
    split; [reflexivity|]. split; [now rewrite Hn|]. split; [lia|]. split; [exact Lx'|]. split; [exact Lw'|]. split; [eauto|].
    intros n p v EF. assert (Hnq : (n < q_num f)%nat) by (rewrite Hn; apply nth_error_Some; congruence). destruct (Hst n p v EF) as (A & B & C & D). split; [exact A|]. split; [exact B|]. split; [eapply Hw; eauto|].
    intros j Hj. rewrite Hx by lia. rewrite (nth_error_nth _ _ _ EF). cbn [fst]. unfold spread. now rewrite A.
  - destruct (quadrature_stored Triangle order Ho) as (f & F & E & S0 & St & H1). rewrite E in *. cbn [quadrature] in E. rewrite E. cbn [obind]. pose proof St as (Hn & Hst).
    destruct (face_points_ok (q_num f) k (q_p f) xyl _ Hv Lx (PP Triangle f F St)) as (x' & Ex & Lx' & Hx).
    destruct (W Triangle f F wg St Lw) as (w' & Ew & Lw' & Hw). rewrite Ex. cbn [obind]. rewrite Ew. cbn [obind]. exists F, x', w'.
    split; [reflexivity|]. split; [now rewrite Hn|]. split; [lia|]. split; [exact Lx'|]. split; [exact Lw'|]. split; [eauto|].
    intros n p v EF. assert (Hnq : (n < q_num f)%nat) by (rewrite Hn; apply nth_error_Some; congruence). destruct (Hst n p v EF) as (A & B & C & D). split; [exact A|]. split; [exact B|]. split; [eapply Hw; eauto|].
    intros j Hj. rewrite Hx by lia. rewrite (nth_error_nth _ _ _ EF). cbn [fst]. unfold spread. now rewrite A.
  - destruct (quadrature_stored Segment order Ho) as (f & F & E & S0 & St & H1). rewrite E in *. cbn [quadrature] in E. rewrite E. cbn [obind]. pose proof St as (Hn & Hst).
    destruct (edge_points_ok (q_num f) e (q_p f) xyl _ Hv Lx (PP Segment f F St)) as (x' & Ex & Lx' & Hx).
    destruct (W Segment f F wg St Lw) as (w' & Ew & Lw' & Hw). rewrite Ex. cbn [obind]. rewrite Ew. cbn [obind]. exists F, x', w'.
    split; [reflexivity|]. split; [now rewrite Hn|]. split; [lia|]. split; [exact Lx'|]. split; [exact Lw'|]. split; [eauto|].
    intros n p v EF. assert (Hnq : (n < q_num f)%nat) by (rewrite Hn; apply nth_error_Some; congruence). destruct (Hst n p v EF) as (A & B & C & D). split; [exact A|]. split; [exact B|]. split; [eapply Hw; eauto|].
    intros j Hj. rewrite Hx by lia. rewrite (nth_error_nth _ _ _ EF). cbn [fst]. unfold spread. now rewrite A.
  - destruct (node_point_ok k xyl Hv) as (x' & Ex & Lx' & Hx); [lia|]. rewrite Ex. cbn [obind]. destruct (wr_some wg 0 1) as (w' & Ew & Lw' & Hw); [lia|]. rewrite Ew. cbn [obind]. exists [([1], 1)], x', w'.
    split; [reflexivity|]. split; [reflexivity|]. split; [lia|]. split; [exact Lx'|]. split; [exact Lw'|]. split; [reflexivity|].
    intros [|n] p v EF; [|destruct n; discriminate]. cbn in EF. injection EF as <- <-. split; [reflexivity|]. split; [cbn; ring|]. split; [now rewrite Hw|].
    intros j Hj. rewrite Nat.mul_0_r, Nat.add_0_r, Hx by lia. unfold spread. cbn [length Rsum nth corner]. f_equal. ring.
Qed.
