(** Measures, normals and the elemental matrix *)
From Coq Require Import ZArith.
From Verif Require Import Prelude RSum GeoModel GeoSpec GeoProofs GeoProofs2 GeoProps SpModel BasModel BasSpec BasProofs BasProps CoreModel CoreSpec CoreProofs CoreProps QuadModel QuadSpec FiModel FiSpec FiProofs2.
Local Open Scope R_scope.

Definition edges_in (f : nat) (x : nat -> tetra) (xyp : list R) : Prop :=
  (12 * f <= length xyp)%nat /\ forall r k i, (r < f)%nat -> (k < 4)%nat -> (i < 3)%nat -> nth (i + 3 * k + 12 * r) xyp 0 = x r k i - x r 0%nat i.
Definition off (x : tetra) (k : nat) : vec := (x k 0%nat - x 0%nat 0%nat, x k 1%nat - x 0%nat 1%nat, x k 2%nat - x 0%nat 2%nat).
Lemma vec_at_ok : forall f x xyp r k, edges_in f x xyp -> (r < f)%nat -> (k < 4)%nat -> vec_at xyp (12 * r + 3 * k) = Some (off (x r) k).
Proof.
  intros f x xyp r k (L & H) Hr Hk. unfold vec_at.
  assert (G : forall i, (i < 3)%nat -> rd xyp (12 * r + 3 * k + i) = Some (x r k i - x r 0%nat i)).
  { intros i Hi. rewrite <- (H r k i Hr Hk Hi). unfold rd. replace (12 * r + 3 * k + i)%nat with (i + 3 * k + 12 * r)%nat by lia. apply nth_error_nth'. nia. }
  pose proof (G 0%nat ltac:(lia)) as G0. rewrite Nat.add_0_r in G0. rewrite G0, (G 1%nat), (G 2%nat) by lia. reflexivity.
Qed.
Lemma gram_off : forall x a b c, gram2 (off x a) (off x b) (off x c) = gram2 (vtx_of x a) (vtx_of x b) (vtx_of x c).
Proof. intros. unfold gram2, off, vtx_of, dot, diff, co. cbn [Rsum fst snd]. ring. Qed.
Lemma tet_off : forall x k, (k < 4)%nat -> nondegenerate x -> tetdet (off x k) (off x ((k + 1) mod 4)) (off x ((k + 2) mod 4)) (off x ((k + 3) mod 4)) <> 0.
Proof.
  intros x k Hk H E. apply H. unfold tetdet, off, diff, co, det3, edge_matrix in *.
  destruct k as [|[|[|[|k]]]]; [| | | |lia]; cbn [Nat.modulo Nat.divmod fst snd Nat.sub Nat.add] in E; lra.
Qed.
Lemma face_ok : forall x k area n, (k < 4)%nat -> nondegenerate x -> face_normal (off x k) (off x ((k + 1) mod 4)) (off x ((k + 2) mod 4)) (off x ((k + 3) mod 4)) = (area, n) ->
  area = face_area x k /\ outer_normal x k (co n).
Proof.
  intros x k area n Hk Hx E.
  assert (Hg : gram2 (off x k) (off x ((k + 1) mod 4)) (off x ((k + 2) mod 4)) <> 0) by (intros Q; exact (tet_off x k Hk Hx (gram_zero _ _ _ _ Q))).
  destruct (C46_face_normal _ _ _ _ _ _ E Hg) as (A & B & C & D1 & D2 & G). split; [rewrite A, gram_off; reflexivity|].
  assert (E1 : Rsum 3 (fun c => co n c * (x ((k + 1) mod 4)%nat c - x k c)) = 0) by (rewrite <- D1; unfold dot, diff, off, co; cbn [Rsum fst snd]; ring).
  assert (E2 : Rsum 3 (fun c => co n c * (x ((k + 2) mod 4)%nat c - x k c)) = 0) by (rewrite <- D2; unfold dot, diff, off, co; cbn [Rsum fst snd]; ring).
  split; [|split].
  - assert (Z : forall i, (i < 3)%nat -> Rsum 3 (fun c => co n c * (x ((k + i) mod 4)%nat c - x k c)) = 0).
    { intros [|[|[|i]]] Hi; [|exact E1|exact E2|lia]. rewrite Nat.add_0_r, (Nat.mod_small k 4) by lia. apply Rsum_zero. intros; ring. }
    intros i j Hi Hj. rewrite <- (Rminus_diag_eq 0 0 eq_refl), <- (Z i Hi) at 1. rewrite <- (Z j Hj), <- Rsum_minus. apply Rsum_ext. intros; ring.
  - exact C.
  - assert (N : dot (co n) (diff (off x ((k + 3) mod 4)) (off x k)) < 0).
    { pose proof (Rabs_pos_lt _ (tet_off x k Hk Hx)) as P. destruct (Rlt_or_le (dot (co n) (diff (off x ((k + 3) mod 4)) (off x k))) 0) as [?|Q]; [assumption|]. exfalso. assert (0 <= 2 * area * dot (co n) (diff (off x ((k + 3) mod 4)) (off x k))) by (apply Rmult_le_pos; [lra|exact Q]). lra. }
    apply Rle_lt_trans with (2 := N). right. unfold dot, diff, off, opp, co. cbn [Rsum fst snd]. ring.
Qed.

Definition normals (reg : region) (r : nat) (x : nat -> tetra) (N : nat -> R) : Prop := match reg with FaceN k => outer_normal (x r) k N | _ => True end.
Lemma store_ok : forall f (v : nat -> R) body mes, (f <= length mes)%nat -> (forall r m, (r < f)%nat -> body r m = wr m r (v r)) ->
  exists mes', for_ f body mes = Some mes' /\ length mes' = length mes /\ forall r, (r < f)%nat -> nth r mes' 0 = v r.
Proof.
  intros f v body mes HL Hb. destruct (for_inv (fun i m => length m = length mes /\ forall r, (r < i)%nat -> nth r m 0 = v r) f body mes) as (m & E & L & H).
  - split; [reflexivity|lia].
  - intros i m Hi (L & H). rewrite Hb by exact Hi. destruct (wr_some m i (v i)) as (m' & E & L' & W); [lia|]. exists m'. split; [exact E|]. split; [congruence|].
    intros r Hr. assert (G : rd m' r = Some (v r)); [|now apply nth_error_nth]. rewrite W. destruct (Nat.eqb_spec r i); [now subst|]. unfold rd. rewrite (nth_error_nth' m 0) by lia. f_equal. apply H. lia.
  - exists m. auto.
Qed.
Lemma outer_normal_ext : forall x k N N', (forall c, (c < 3)%nat -> N c = N' c) -> outer_normal x k N -> outer_normal x k N'.
Proof.
  intros x k N N' H (A & B & C). split; [|split].
  - intros i j Hi Hj. rewrite <- (A i j Hi Hj). apply Rsum_ext. intros c Hc. now rewrite H.
  - rewrite <- B. apply Rsum_ext. intros c Hc. now rewrite !H.
  - apply Rle_lt_trans with (2 := C). right. apply Rsum_ext. intros c Hc. now rewrite H.
Qed.
Lemma measure_ok : forall reg f x xyp mes nrm, valid reg -> edges_in f x xyp -> (forall r, (r < f)%nat -> nondegenerate (x r)) -> (f <= length mes)%nat -> (with_normal reg = true -> (3 * f <= length nrm)%nat) ->
  (forall r, (r < f)%nat -> nth r mes 0 = volume (x r)) ->
  exists mes' nrm', measure reg f xyp mes nrm = Some (mes', nrm') /\ length mes' = length mes /\ length nrm' = length nrm /\
    (forall r, (r < f)%nat -> nth r mes' 0 = size_of reg (x r)) /\ forall r, (r < f)%nat -> normals reg r x (fun c => nth (3 * r + c) nrm' 0).
Proof.
  intros reg f x xyp mes nrm Hv He Hx Hm Hn HV. destruct reg as [|k|k|e|k]; cbn [measure valid size_of normals with_normal] in *.
  - exists mes, nrm. auto.
  - assert (M : forall t, ((k + t) mod 4 < 4)%nat) by (intros; apply Nat.mod_upper_bound; lia).
    match goal with |- context [for_ f ?b mes] => destruct (store_ok f (fun r => face_area (x r) k) b mes Hm) as (m & E & L & H) end.
    + intros r m Hr. rewrite !(vec_at_ok f x) by auto. cbn [obind]. rewrite C46_area, gram_off. reflexivity.
    + rewrite E. cbn [obind]. exists m, nrm. auto.
  - assert (M : forall t, ((k + t) mod 4 < 4)%nat) by (intros; apply Nat.mod_upper_bound; lia). specialize (Hn eq_refl).
    match goal with |- context [for_ f ?b _] => destruct (for_inv (fun i mn => length (fst mn) = length mes /\ length (snd mn) = length nrm /\ (forall r, (r < i)%nat -> nth r (fst mn) 0 = face_area (x r) k) /\ forall r, (r < i)%nat -> outer_normal (x r) k (fun c => nth (3 * r + c) (snd mn) 0)) f b (mes, nrm)) as ([m n] & E & L1 & L2 & H1 & H2) end.
    + cbn [fst snd]. repeat split; lia.
    + intros r [m n] Hr (L1 & L2 & H1 & H2). cbn [fst snd] in *. rewrite !(vec_at_ok f x) by auto. cbn [obind].
      destruct (face_normal (off (x r) k) (off (x r) ((k + 1) mod 4)) (off (x r) ((k + 2) mod 4)) (off (x r) ((k + 3) mod 4))) as [area [[n0 n1] n2]] eqn:EF.
      destruct (face_ok (x r) k area _ Hv (Hx r Hr) EF) as (Ea & Eo).
      destruct (wr_some n (3 * r + 0) n0) as (l0 & E0 & L0 & W0); [lia|]. rewrite E0. cbn [obind].
      destruct (wr_some l0 (3 * r + 1) n1) as (l1 & E1 & L3 & W1); [lia|]. rewrite E1. cbn [obind].
      destruct (wr_some l1 (3 * r + 2) n2) as (l2 & E2 & L4 & W2); [lia|]. rewrite E2. cbn [obind].
      destruct (wr_some m r area) as (m' & E3 & L5 & W3); [lia|]. rewrite E3. cbn [obind]. eexists. split; [reflexivity|]. cbn [fst snd]. split; [congruence|]. split; [congruence|]. split.
      * intros r' Hr'. assert (G : rd m' r' = Some (face_area (x r') k)); [|now apply nth_error_nth]. rewrite W3. destruct (Nat.eqb_spec r' r); [subst; reflexivity|]. unfold rd. rewrite (nth_error_nth' m 0) by lia. f_equal. apply H1. lia.
      * intros r' Hr'. destruct (Nat.eq_dec r' r) as [->|Hne].
        { apply (outer_normal_ext _ _ (co (n0, n1, n2))); [|exact Eo]. intros c Hc.
          assert (G : rd l2 (3 * r + c) = Some (co (n0, n1, n2) c)); [|symmetry; now apply nth_error_nth]. rewrite W2, W1, W0.
          destruct c as [|[|[|c]]]; [| | |lia]; repeat match goal with |- context [(?a =? ?b)%nat] => destruct (Nat.eqb_spec a b); try lia end; reflexivity. }
        { apply (outer_normal_ext _ _ (fun c => nth (3 * r' + c) n 0)); [|apply H2; lia]. intros c Hc.
          assert (G : rd l2 (3 * r' + c) = rd n (3 * r' + c)). { rewrite W2, W1, W0. repeat match goal with |- context [(?a =? ?b)%nat] => destruct (Nat.eqb_spec a b); try lia end; reflexivity. }
          unfold rd in G. rewrite !(nth_error_nth' _ 0) in G by lia. now apply Some_inj' in G. }
    + cbn [fst snd] in *. exists m, n. split; [exact E|]. auto.
  - destruct (lookup_ok e Hv) as (E1 & E2 & HE). rewrite E1, E2. cbn [obind]. set (a := fst (edge_of e)) in *. set (b := snd (edge_of e)) in *. clearbody a b.
    match goal with |- context [for_ f ?bd mes] => destruct (store_ok f (fun r => edge_length (x r) a b) bd mes Hm) as (m & E & L & H) end.
    + intros r m Hr. rewrite !(vec_at_ok f x) by (auto; lia). cbn [obind]. f_equal. unfold edge_length. f_equal. unfold sqlen, vsub, off. cbn [Rsum]. ring.
    + rewrite E. cbn [obind]. exists m, nrm. auto.
  - destruct (store_ok f (fun _ => 1) (fun r mes => wr mes r 1) mes Hm) as (m & E & L & H); [reflexivity|]. rewrite E. cbn [obind]. exists m, nrm. auto.
Qed.

Lemma one_band : forall d q nf f v U, (1 <= d)%nat -> has_table d q nf f v U -> band_of (one_part d q nf U) d nf q f v.
Proof.
  intros d q nf f v U Hd H. unfold one_part, band_of, nparts. cbn [parts st_row st_col length nth]. do 7 (split; [reflexivity || lia|]). split; [|split].
  - intros d' Hd'. assert (d' = 0)%nat as -> by lia. cbn [nth]. lia.
  - intros d' Hd'. assert (d' = 0)%nat as -> by lia. exists U. cbn [nth nth_error]. rewrite !Nat.sub_0_r. split; [reflexivity|]. intros r n k i Hr Hn Hk Hi. rewrite !Nat.sub_0_r. rewrite <- (H r i n k) by lia. unfold rd, cell. f_equal. lia.
  - intros d1 d2 r n k i H1 H2 Hne. lia.
Qed.
Lemma no_normal : forall F constant sp q f dA dB nA nB U V w mes XYG N N' DIFF EX DU A, fem3Dtet F constant sp false q f dA dB nA nB U V w mes XYG N DIFF EX DU A = fem3Dtet F constant sp false q f dA dB nA nB U V w mes XYG N' DIFF EX DU A.
Proof. reflexivity. Qed.
Lemma fem_eqb_eq : forall a b, fem_eqb a b = true -> a = b.
Proof. intros [] []; try discriminate; reflexivity. Qed.
Lemma op_eqb_eq : forall a b, op_eqb a b = true -> a = b.
Proof. intros [] []; try discriminate; try reflexivity. cbn. intros H. apply Nat.eqb_eq in H. now subst. Qed.
Lemma odims_pos : forall s o, has_op s o = true -> (1 <= odims s o)%nat.
Proof. intros s o H. unfold odims. destruct o; destruct s; cbn in *; try discriminate; lia. Qed.

Section Assemble.
Variables (F : functor) (constant : bool) (sp : sparsity) (normal : bool) (setup : list R -> list R -> list R -> option (list R * list R)).
Variables (q f : nat) (sA : fem) (oA : op) (sB : fem) (oB : op) (XY0 XY1 XY2 XY3 : nat -> nat -> R) (xyl wg : list R) (w : work) (A : list R).
Variables (L : nat -> nat -> R) (W : nat -> R) (size : nat -> R) (nprop : nat -> (nat -> R) -> Prop) (DA DB : nat -> nat -> nat -> nat -> (nat -> R) -> R).
Let x := tet_of XY0 XY1 XY2 XY3.
Let nD := (if normal then 3 else 1)%nat.
Hypothesis Hf : (1 <= f)%nat.
Hypothesis Hq : (1 <= q)%nat.
Hypothesis HoA : has_op sA oA = true.
Hypothesis HoB : has_op sB oB = true.
Hypothesis Hx : forall r, (r < f)%nat -> nondegenerate (x r).
Hypothesis HL : forall n, (n < q)%nat -> Rsum 4 (L n) = 1 /\ forall k, (k < 4)%nat -> rd xyl (k + 4 * n) = Some (L n k).
Hypothesis HW : forall n, (n < q)%nat -> rd wg n = Some (W n).
Hypothesis HR : room_for normal q f sA oA sB oB w A.
Hypothesis HP : proper F constant sp (odims sB oB * nD) (odims sA oA) (nfa sA) f.
Hypothesis HDA : forall r, (r < f)%nat -> derivatives sA (x r) (DA r).
Hypothesis HDB : forall r, (r < f)%nat -> derivatives sB (x r) (DB r).
Hypothesis HS : forall xyp mes, edges_in f x xyp -> (f <= length mes)%nat -> (forall r, (r < f)%nat -> nth r mes 0 = volume (x r)) ->
  exists mes' nrm', setup xyp mes (w_nrm w) = Some (mes', nrm') /\ length mes' = length mes /\ length nrm' = length (w_nrm w) /\ (forall r, (r < f)%nat -> nth r mes' 0 = size r) /\
    forall r, (r < f)%nat -> nprop r (fun c => nth (3 * r + c) nrm' 0).

Lemma assemble_ok : exists A' N, assemble F constant sp normal setup q f sA oA sB oB XY0 XY1 XY2 XY3 xyl wg w A = Some A' /\ length A' = length A /\
  (forall r, (r < f)%nat -> nprop r (N r)) /\
  (forall r ia ib, (r < f)%nat -> (ia < nfa sA)%nat -> (ib < nfa sB)%nat -> rd A' (ib + nfa sB * (ia + nfa sA * r)) =
    Some (size r * Rsum q (fun n => W n * integrand F r (N r) normal sA oA sB oB (x r) (DA r) (DB r) ia ib (BasSpec.point x L r n)))) /\
  (forall c, (nfa sB * nfa sA * f <= c)%nat -> rd A' c = rd A c).
Proof.
  destruct HR as (R1 & R2 & R3 & R4 & R5 & R6 & R7 & R8 & R9 & R10 & R11 & R12 & R13 & R14). destruct HP as (P1 & P2 & P3). fold nD in R12, R13.
  unfold assemble. destruct (C28_element f XY0 XY1 XY2 XY3 (w_geom w) R1 R2 R3 R4) as (g & Eg & G1 & G2 & G3 & G4 & Hg). rewrite Eg. cbn [obind].
  destruct (C37_geometry f q XY0 XY1 XY2 XY3 (w_geom w) xyl L R1 R2 R3 R4 Hx HL) as (g' & Eg' & Hp). rewrite Eg in Eg'. apply Some_inj' in Eg'. subst g'. fold x in Hp, Hg.
  assert (HE : edges_in f x (g_xyp g)). { split; [congruence|]. intros r k i Hr Hk Hi. destruct (Hg r Hr) as (Q & _). now apply Q. }
  assert (LX : forall n k, (n < q)%nat -> (k < 4)%nat -> nth (k + 4 * n) xyl 0 = L n k) by (intros n k Hn Hk; apply nth_error_nth; now apply HL).
  destruct (C28_points q f XY0 x xyl (g_xyp g) (w_xyg w)) as (xyg & Ex & Lx & Hxg).
  { destruct (HL (q - 1) ltac:(lia)) as (_ & Q). specialize (Q 3%nat ltac:(lia)). apply rd_lt in Q. lia. }
  { apply HE. } { exact R6. } { reflexivity. } { apply HE. }
  { intros n Hn. rewrite <- (proj1 (HL n Hn)). apply Rsum_ext. intros k Hk. now apply LX. }
  rewrite Ex. cbn [obind]. destruct (HS (g_xyp g) (g_mes g) HE) as (mes & nrm & Es & Lm & Ln & Hm & Hn); [lia| |].
  { intros r Hr. destruct (Hg r Hr) as (_ & _ & Q & _). exact Q. }
  rewrite Es. cbn [obind fst snd]. set (geo := {| XYL := xyl; PSI := g_psi g; XYP := g_xyp g; DET := g_det g |}) in *.
  destruct (C37_operators sA oA f q x L geo (w_u w) (w_ex w) (fun r n c a i => DA r i c a (BasSpec.point x L r n)) HoA Hf Hq Hp R7 R9) as (U & E1 & EU & TU & _ & SE1).
  { intros r i n c k Hr Hi Hn' Hc Hk. now apply HDA. }
  rewrite EU. cbn [obind fst snd].
  assert (BV : exists V E2, (if (fem_eqb sA sB && op_eqb oA oB)%bool then Some (U, E1) else apply_op sB oB f q geo (w_v w) E1) = Some (V, E2) /\ length E2 = length (w_ex w) /\
    has_table (odims sB oB) q (nfa sB) f (op_of oB (fun r n k i => BasSpec.shape sB (x r) i k (BasSpec.point x L r n)) (fun r n c a i => DB r i c a (BasSpec.point x L r n))) V).
  { destruct (fem_eqb sA sB && op_eqb oA oB)%bool eqn:Eq.
    - apply andb_prop in Eq. destruct Eq as [Q1 Q2]. apply fem_eqb_eq in Q1. apply op_eqb_eq in Q2. exists U, E1. split; [reflexivity|]. split; [apply SE1|]. rewrite <- Q1, <- Q2.
      intros r i n k Hr Hi Hn' Hk. rewrite (TU r i n k Hr Hi Hn' Hk). f_equal. apply (op_ext sA oA _ _ _ _ f q); auto. intros r' i' n' c' k' Hr' Hi' Hn'' Hc' Hk'. eapply partial_unique; [now apply HDA|]. rewrite Q1. apply HDB; auto; congruence.
    - destruct (C37_operators sB oB f q x L geo (w_v w) E1 (fun r n c a i => DB r i c a (BasSpec.point x L r n)) HoB Hf Hq Hp (R8 eq_refl)) as (V & E2 & EV & TV & _ & SE2).
      + rewrite (proj1 SE1). exact R10.
      + intros r i n c k Hr Hi Hn' Hc Hk. now apply HDB.
      + exists V, E2. split; [exact EV|]. split; [rewrite (proj1 SE2); apply SE1|exact TV]. }
  destruct BV as (V & E2 & EV & LE2 & TV). rewrite EV. cbn [obind fst snd].
  set (NRM := if normal then nrm else repeat 0 (3 * f)).
  assert (EN : fem3Dtet F constant sp normal q f (odims sA oA) (odims sB oB) (nfa sA) (nfa sB) (one_part (odims sA oA) q (nfa sA) U) (one_part (odims sB oB) q (nfa sB) V) wg mes xyg nrm (w_diff w) E2 (w_du w) A =
    fem3Dtet F constant sp normal q f (odims sA oA) (odims sB oB) (nfa sA) (nfa sB) (one_part (odims sA oA) q (nfa sA) U) (one_part (odims sB oB) q (nfa sB) V) wg mes xyg NRM (w_diff w) E2 (w_du w) A).
  { unfold NRM. destruct normal; [reflexivity|apply no_normal]. }
  assert (HX : forall r n, (r < f)%nat -> (n < q)%nat -> xyz q xyg r n = vec_of (BasSpec.point x L r n)).
  { intros r n Hr Hn'. assert (Q : forall i, (i < 3)%nat -> nth (3 * (n + r * q) + i) xyg 0 = BasSpec.point x L r n i).
    { intros i Hi. replace (3 * (n + r * q) + i)%nat with (i + 3 * (n + q * r))%nat by lia. rewrite Hxg by assumption. unfold BasSpec.point. apply Rsum_ext. intros k Hk. now rewrite LX. }
    unfold xyz, vec_of. pose proof (Q 0%nat ltac:(lia)) as Q0. rewrite Nat.add_0_r in Q0. now rewrite Q0, (Q 1%nat), (Q 2%nat) by lia. }
  destruct (C32_form_partial F constant sp normal q f (odims sA oA) (odims sB oB) (nfa sA) (nfa sB) (one_part (odims sA oA) q (nfa sA) U) (one_part (odims sB oB) q (nfa sB) V)
    _ _ wg mes xyg NRM (w_diff w) E2 (w_du w) A Hq Hf (odims_pos _ _ HoA) (odims_pos _ _ HoB) (one_band _ _ _ _ _ _ (odims_pos _ _ HoA) TU) (one_band _ _ _ _ _ _ (odims_pos _ _ HoB) TV)) as (A' & EA & LA & HA & KA).
  { split; [intros Hc r n Hr _; now apply P2|]. destruct sp; intros; first [exact I | now apply P3 | now apply (proj1 P3)]. }
  { intros _ -> K r n Hr Hn'. destruct P3 as (Q1 & Q2). symmetry. apply Q2; [exact Hr|]. rewrite (Q1 _ (xyz q xyg 0 0) r Hr). exact K. }
  { intros r n Hr Hn'. now apply P1. }
  { specialize (HW (q - 1)%nat ltac:(lia)). apply rd_lt in HW. lia. }
  { lia. } { lia. } { unfold NRM. destruct normal; [rewrite Ln; now apply R5|rewrite repeat_length; lia]. }
  { exact R12. } { lia. } { exact R13. } { lia. }
  exists A', (fun r c => nth (3 * r + c) nrm 0). rewrite EN. split; [exact EA|]. split; [exact LA|]. split; [exact Hn|]. split; [|exact KA].
  intros r ia ib Hr Ha Hb. rewrite (HA r ia ib Hr Ha Hb). f_equal. unfold form. rewrite <- Rsum_scal. apply Rsum_ext. intros n Hn'. rewrite (Hm r Hr), (HX r n Hr Hn'). rewrite (nth_error_nth _ _ 0 (HW n Hn')).
  replace (W n * size r) with (size r * W n) by ring. rewrite Rmult_assoc. do 2 f_equal. unfold integrand. apply Rsum_ext. intros k Hk. f_equal.
  unfold flux, NRM. fold nD. destruct normal; reflexivity.
Qed.
End Assemble.
