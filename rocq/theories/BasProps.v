(** C37 (tables of the library spaces), parts of C33. *)
From Verif Require Import Prelude RSum GeoModel GeoSpec GeoProofs GeoProofs2 GeoProps SpModel SpSpec BasModel BasSpec BasProofs CoreProofs BasProofs2 BasProofs3 BasProofs4 BasProofs5 BasProofs6.
Local Open Scope R_scope.

(** Every basis function has all derivatives *)
Theorem C37_differentiable : forall s x i c k y, nondegenerate x -> (i < nfa s)%nat -> (k < 3)%nat -> exists d, partial (shape s x i c) k y d.
Proof. intros s x i c k y Hx Hi Hk. exists (dshape s x i c k y). now apply shape_partial. Qed.
Print Assumptions C37_differentiable.
(** and one value of each *)
Theorem C37_derivative_unique : forall F k y a b, partial F k y a -> partial F k y b -> a = b.
Proof. exact partial_unique. Qed.
Print Assumptions C37_derivative_unique.

Lemma op_ext : forall s o u u' D D' f q (r i n k : nat), has_op s o = true ->
  (forall r i n k, (r < f)%nat -> (i < nfa s)%nat -> (n < q)%nat -> u r n k i = u' r n k i) ->
  (forall r i n c k, (r < f)%nat -> (i < nfa s)%nat -> (n < q)%nat -> (c < fdim s)%nat -> (k < 3)%nat -> D r n c k i = D' r n c k i) ->
  (r < f)%nat -> (i < nfa s)%nat -> (n < q)%nat -> (k < odims s o)%nat -> op_of o u D r n k i = op_of o u' D' r n k i.
Proof.
  intros s o u u' D D' f q r i n k Ho Hu HD Hr Hi Hn Hk. unfold odims in Hk. destruct o as [| | | |x]; cbn [dim_op op_of has_op] in *.
  - now apply Hu.
  - apply HD; auto; [apply Nat.div_lt_upper_bound; lia|apply Nat.mod_upper_bound; lia].
  - apply Nat.eqb_eq in Ho. rewrite !HD by lia. reflexivity.
  - apply Nat.eqb_eq in Ho. destruct k as [|[|k]]; rewrite !HD by lia; reflexivity.
  - apply Nat.ltb_lt in Ho. apply HD; auto.
Qed.
Lemma apply_ok : forall s o f q x L g U E, has_op s o = true -> (1 <= f)%nat -> (1 <= q)%nat -> prepared f q x L g -> (usize s o f q <= length U)%nat -> (esize s o q <= length E)%nat ->
  exists U' E', apply_op s o f q g U E = Some (U', E') /\
    has_table (odims s o) q (nfa s) f (op_of o (uval x L s) (fun r n c k i => dshape s (x r) i c k (point x L r n))) U' /\ same_after (usize s o f q) U U' /\ same_after (esize s o q) E E'.
Proof.
  intros s o f q x L g U E Ho Hf Hq Hp HU HE. unfold odims. destruct o as [| | | |a]; cbn [apply_op has_op dim_op] in *.
  - destruct (iden_ok f q g x L Hp Hf s U HU) as (U' & Er & T & A). unfold keepE. rewrite Er. cbn [obind]. exists U', E. split; [reflexivity|]. split; [exact T|]. split; [exact A|apply after_refl].
  - assert (Ed : (fdim s * 3 = 3 * fdim s)%nat) by lia. cbn [usize odims dim_op] in *. unfold odims in *. cbn [dim_op] in *. rewrite Ed in *.
    destruct (grad_ok f q g x L Hp Hq Hf s U E HU HE) as (U' & E' & Er & T & A & B). exists U', E'. auto.
  - apply Nat.eqb_eq in Ho. destruct s; cbn [fdim] in Ho; try discriminate Ho; cbn [usize odims dim_op fdim Nat.div nfa] in *; unfold odims in *; cbn [dim_op fdim] in *; change (3 / 3)%nat with 1%nat in *.
    + destruct (div_rt0_ok f q g x L Hp Hq U HU) as (U' & Er & T & A). unfold keepE. rewrite Er. exists U', E. split; [reflexivity|]. split; [exact T|]. split; [exact A|apply after_refl].
    + unfold keepE. rewrite room_ok by exact HU. cbn [obind]. destruct (fill_n_ok 1 q 6 f 0 U HU) as (U' & Er & T & A). rewrite Er. exists U', E. split; [reflexivity|].
      split; [|split; [exact A|apply after_refl]]. eapply table_ext; [exact T|]. intros r i n k Hr Hi Hn Hk. unfold op_of, dshape. destruct (edge_of i). ring.
  - apply Nat.eqb_eq in Ho. destruct s; cbn [fdim] in Ho; try discriminate Ho; cbn [usize odims dim_op fdim nfa] in *; unfold odims in *; cbn [dim_op fdim] in *; unfold keepE; rewrite room_ok by exact HU; cbn [obind].
    + destruct (fill_n_ok 3 q 4 f 0 U HU) as (U' & Er & T & A). rewrite Er. exists U', E. split; [reflexivity|].
      split; [|split; [exact A|apply after_refl]]. eapply table_ext; [exact T|]. intros r i n k Hr Hi Hn Hk. unfold op_of, dshape, delta. destruct k as [|[|k]]; cbn [Nat.eqb]; ring.
    + destruct (curl0_ok f q g x L Hp Hq U HU) as (U' & Er & T & A). rewrite Er. exists U', E. split; [reflexivity|].
      split; [|split; [exact A|apply after_refl]]. eapply table_ext; [exact T|]. intros r i n k Hr Hi Hn Hk. unfold op_of, cv3. destruct k as [|[|[|k]]]; [reflexivity|reflexivity|reflexivity|lia].
  - apply Nat.ltb_lt in Ho. rewrite guard_true by (now apply Nat.ltb_lt).
    assert (GC : forall U E, (3 * fdim s * q * (nfa s * f) <= length U)%nat -> (esize s GRAD q <= length E)%nat ->
      exists U' E', (do (U, E) <- grad s f q g U E; keepE E (compress a (fdim s) f q (nfa s) U)) = Some (U', E') /\
        has_table (fdim s) q (nfa s) f (op_of (DUDX a) (uval x L s) (fun r n c k i => dshape s (x r) i c k (point x L r n))) U' /\ same_after (3 * fdim s * q * (nfa s * f)) U U' /\ same_after (esize s GRAD q) E E').
    { intros U1 E1 HU1 HE1. destruct (grad_ok f q g x L Hp Hq Hf s U1 E1 HU1 HE1) as (U2 & E2 & Er & T & A & B). rewrite Er. cbn [obind].
      destruct (compress_ok f q a (fdim s) (nfa s) (gval x L s) U2 Ho) as (U3 & E3 & T3 & A3); [destruct A; lia|exact T|]. unfold keepE. rewrite E3. cbn [obind]. exists U3, E2. split; [reflexivity|].
      split; [|split; [|exact B]].
      - eapply table_ext; [exact T3|]. intros r i n k Hr Hi Hn Hk. unfold gval, op_of. replace ((a + 3 * k) / 3)%nat with k by (rewrite Nat.mul_comm, Nat.div_add, Nat.div_small; lia).
        now replace ((a + 3 * k) mod 3)%nat with a by (rewrite Nat.mul_comm, Nat.mod_add, Nat.mod_small; lia).
      - apply (after_trans _ _ _ _ A). apply (after_le (fdim s * q * (nfa s * f))); [nia|exact A3]. }
    destruct s; try (exact (GC U E HU HE)); cbn [usize fdim nfa dim_op] in *; unfold keepE.
    + destruct (dudx_p0_ok f q x L a U HU) as (U' & Er & T & A). rewrite Er. exists U', E. split; [reflexivity|]. split; [exact T|]. split; [exact A|apply after_refl].
    + destruct (dudx_p1_ok f q g x L Hp a U Ho HU) as (U' & Er & T & A). rewrite Er. exists U', E. split; [reflexivity|]. split; [exact T|]. split; [exact A|apply after_refl].
Qed.
(** Each operator of each space, on memory of the requested size, ends without an error, writes
    the exact derivatives of the basis functions (their values for IDEN) at every point of every
    element, and changes nothing after its memory *)
Theorem C37_operators : forall s o f q x L g U E D, has_op s o = true -> (1 <= f)%nat -> (1 <= q)%nat -> prepared f q x L g ->
  (usize s o f q <= length U)%nat -> (esize s o q <= length E)%nat ->
  (forall r i n c k, (r < f)%nat -> (i < nfa s)%nat -> (n < q)%nat -> (c < fdim s)%nat -> (k < 3)%nat -> partial (shape s (x r) i c) k (point x L r n) (D r n c k i)) ->
  exists U' E', apply_op s o f q g U E = Some (U', E') /\
    has_table (odims s o) q (nfa s) f (op_of o (fun r n k i => shape s (x r) i k (point x L r n)) D) U' /\
    same_after (usize s o f q) U U' /\ same_after (esize s o q) E E'.
Proof.
  intros s o f q x L g U E D Ho Hf Hq Hp HU HE HD. destruct (apply_ok s o f q x L g U E Ho Hf Hq Hp HU HE) as (U' & E' & Er & T & A & B). exists U', E'. split; [exact Er|]. split; [|auto].
  eapply table_ext; [exact T|]. intros r i n k Hr Hi Hn Hk. apply (op_ext s o _ _ _ _ f q); auto.
  intros r' i' n' c' k' Hr' Hi' Hn' Hc' Hk'. eapply partial_unique; [|now apply HD]. apply shape_partial; [now apply (prep_nd f q g x L Hp)|assumption|assumption].
Qed.
Print Assumptions C37_operators.
(** The data come from internalFem3DtetGeomInit_Tet: for any vertices of non-degenerate elements and
    any points given by weights with sum 1 *)
Theorem C37_geometry : forall f q XY0 XY1 XY2 XY3 gm xyl L, (12 * f <= length (g_xyp gm))%nat -> (9 * f <= length (g_psi gm))%nat -> (f <= length (g_det gm))%nat -> (f <= length (g_mes gm))%nat ->
  (forall r, (r < f)%nat -> nondegenerate (tet_of XY0 XY1 XY2 XY3 r)) ->
  (forall n, (n < q)%nat -> Rsum 4 (L n) = 1 /\ forall k, (k < 4)%nat -> rd xyl (k + 4 * n) = Some (L n k)) ->
  exists gm', geom_init_tet f XY0 XY1 XY2 XY3 gm = Some gm' /\
    prepared f q (tet_of XY0 XY1 XY2 XY3) L {| XYL := xyl; PSI := g_psi gm'; XYP := g_xyp gm'; DET := g_det gm' |}.
Proof.
  intros f q XY0 XY1 XY2 XY3 gm xyl L H1 H2 H3 H4 Hnd HL. destruct (C28_element f XY0 XY1 XY2 XY3 gm H1 H2 H3 H4) as (gm' & E & L1 & L2 & L3 & L4 & H). exists gm'. split; [exact E|].
  assert (RN : forall l c, (c < length l)%nat -> rd l c = Some (nth c l 0)) by (intros l c Hc; unfold rd; now apply nth_error_nth').
  split; [exact HL|]. intros r Hr. destruct (H r Hr) as (A & B & _ & D). cbn [BasModel.XYP BasModel.DET BasModel.PSI]. split; [now apply Hnd|]. split; [|split].
  - intros k i Hk Hi. rewrite RN by lia. f_equal. now apply A.
  - rewrite RN by lia. f_equal. exact B.
  - exists (at3 (g_psi gm') (9 * r)). split; [apply D; now apply Hnd|]. intros i j Hi Hj. rewrite RN by lia. reflexivity.
Qed.
Print Assumptions C37_geometry.

(** The library spaces as components of composite spaces: they meet the assumptions of C34, C40 *)
Definition lib (s : fem) (f q : nat) (x : nat -> tetra) (L : nat -> nat -> R) (id : nat) (junk : op -> nat -> R) : base :=
  {| b_id := id; b_dim := fdim s; b_nfa := nfa s;
     b_val := fun o => match o with IDEN => uval x L s | GRAD => gval x L s | _ => from_grad o (gval x L s) end;
     b_usz := fun o f q => usize s o f q; b_esz := fun o f q => esize s o q; b_junk := junk |}.
Theorem C37_library_base : forall s f q x L id junk, base_ok f q (lib s f q x L id junk) /\
  forall o g U E, has_op s o = true -> (1 <= f)%nat -> (1 <= q)%nat -> prepared f q x L g -> (usize s o f q <= length U)%nat -> (esize s o q <= length E)%nat ->
  exists U' E', apply_op s o f q g U E = Some (U', E') /\ has_table (dim_op o (b_dim (lib s f q x L id junk))) q (nfa s) f (b_val (lib s f q x L id junk) o) U'.
Proof.
  intros s f q x L id junk. split.
  - split; [destruct s; cbn; lia|]. split.
    + intros o. cbn [b_usz lib b_dim b_nfa]. destruct o as [| | | |a]; unfold usize, odims; cbn [dim_op]; [| | | |destruct s; cbn [fdim nfa]]; nia.
    + intros o r n k i _ H1 H2 _ _. cbn [b_val lib]. now destruct o.
  - intros o g U E Ho Hf Hq Hp HU HE. destruct (apply_ok s o f q x L g U E Ho Hf Hq Hp HU HE) as (U' & E' & Er & T & A & B). exists U', E'. split; [exact Er|].
    eapply table_ext; [exact T|]. intros r i n k Hr Hi Hn Hk. cbn [b_val lib]. destruct o as [| | | |a]; cbn [op_of].
    + reflexivity.
    + reflexivity.
    + reflexivity.
    + destruct k as [|[|k]]; reflexivity.
    + cbn [has_op] in Ho. apply Nat.ltb_lt in Ho. unfold from_grad, gval. replace ((3 * k + a) / 3)%nat with k by (rewrite Nat.mul_comm, Nat.add_comm, Nat.div_add, Nat.div_small; lia).
      now replace ((3 * k + a) mod 3)%nat with a by (rewrite Nat.mul_comm, Nat.add_comm, Nat.mod_add, Nat.mod_small; lia).
Qed.
Print Assumptions C37_library_base.

(** *** C33: the in-place steps *)
(** The rows 3 k + a are taken out of a table in the same memory *)
Theorem C33_directional : forall a d f q nf (v : nat -> nat -> nat -> nat -> R) U, (a < 3)%nat -> (3 * d * q * (nf * f) <= length U)%nat -> has_table (3 * d) q nf f v U ->
  exists U', compress a d f q nf U = Some U' /\ has_table d q nf f (fun r n k i => v r n (a + 3 * k)%nat i) U' /\ same_after (d * q * (nf * f)) U U'.
Proof. intros a d f q nf v U Ha HU HT. now apply compress_ok. Qed.
Print Assumptions C33_directional.
(** The gradient of the Nedelec functions from their curl, which is at the end of the same memory *)
Theorem C33_nedelec : forall f q g x L U c, (1 <= q)%nat -> prepared f q x L g -> (9 * q * (6 * f) <= length U)%nat ->
  (forall C, length C = (3 * q * (6 * f))%nat -> exists C', curl_nd0 f q g 0 C = Some C' /\ has_table 3 q 6 f c C') ->
  exists U', grad_nd0 f q g U = Some U' /\
    has_table 9 q 6 f (fun r n k i => nth k [0; - (c r n 2%nat i / 2); c r n 1%nat i / 2; c r n 2%nat i / 2; 0; - (c r n 0%nat i / 2); - (c r n 1%nat i / 2); c r n 0%nat i / 2; 0] 0) U' /\
    same_after (9 * q * (6 * f)) U U'.
Proof.
  intros f q g x L U c Hq Hp HU Hc. destruct (grad_nd0_ok f q g x L Hp Hq U HU) as (U' & E & T & A). exists U'. split; [exact E|]. split; [|exact A].
  destruct (Hc (repeat 0 (3 * q * (6 * f)))) as (C' & EC & TC); [apply repeat_length|].
  destruct (curl0_ok f q g x L Hp Hq (repeat 0 (3 * q * (6 * f)))) as (C2 & EC2 & TC2 & _); [rewrite repeat_length; lia|]. rewrite EC in EC2. apply Some_inj' in EC2. subst C2.
  assert (EV : forall r i n k, (r < f)%nat -> (i < 6)%nat -> (n < q)%nat -> (k < 3)%nat -> cv3 x L ND0 r n k i = c r n k i).
  { intros r i n k Hr Hi Hn Hk. apply Some_inj'. rewrite <- (TC r i n k Hr Hi Hn Hk). symmetry. now apply TC2. }
  eapply table_ext; [exact T|]. intros r i n k Hr Hi Hn Hk. rewrite <- (nine_ok f q x L Hq r n i k Hk Hr Hn Hi). unfold nine. rewrite !EV by (assumption || lia). reflexivity.
Qed.
Print Assumptions C33_nedelec.

(** *** Non-vacuity: one element, the reference tetrahedron, its centre *)
Definition ref_tet : tetra := fun k i => match k with 0%nat => 0 | S j => delta j i end.
Example C37_ex : prepared 1 1 (fun _ => ref_tet) (fun _ _ => / 4)
  {| XYL := [/ 4; / 4; / 4; / 4]; PSI := [1; 0; 0; 0; 1; 0; 0; 0; 1]; XYP := [0; 0; 0; 1; 0; 0; 0; 1; 0; 0; 0; 1]; DET := [1] |}.
Proof.
  split.
  - intros n Hn. assert (n = 0)%nat as -> by lia. split; [cbn [Rsum]; lra|]. intros k Hk. four k; reflexivity.
  - intros r Hr. assert (r = 0)%nat as -> by lia. split; [unfold nondegenerate, det3, edge_matrix, ref_tet, delta; cbn; lra|]. split; [|split].
    + intros k i Hk Hi. four k; three i; cbn; f_equal; unfold delta; cbn; lra.
    + cbn. f_equal. unfold det3, edge_matrix, ref_tet, delta. cbn. lra.
    + exists (fun i j => delta i j). split.
      * intros i j Hi Hj. unfold edge_matrix, ref_tet, delta. three i; three j; cbn; split; lra.
      * intros i j Hi Hj. three i; three j; reflexivity.
Qed.
(** the face function 0 of RT0 has divergence 3 area / (3 volume) = 3 there *)
Example C37_ex_div : exists U' E', apply_op RT0 DIV 1 1 {| XYL := [/ 4; / 4; / 4; / 4]; PSI := [1; 0; 0; 0; 1; 0; 0; 0; 1]; XYP := [0; 0; 0; 1; 0; 0; 0; 1; 0; 0; 0; 1]; DET := [1] |} [7; 7; 7; 7] [] = Some (U', E') /\ nth 0 U' 0 = 3.
Proof.
  destruct (C37_library_base RT0 1 1 (fun _ => ref_tet) (fun _ _ => / 4) 0%nat (fun _ _ => 0)) as [_ H].
  edestruct (H DIV _ [7; 7; 7; 7] [] eq_refl (le_n 1) (le_n 1) C37_ex) as (U' & E' & E & T); [cbn; lia|cbn; lia|]. exists U', E'. split; [exact E|].
  specialize (T 0%nat 0%nat 0%nat 0%nat ltac:(cbn; lia) ltac:(cbn; lia) ltac:(cbn; lia) ltac:(cbn; lia)). cbn [lib b_dim b_val] in T. unfold rd, cell in T. change (0 + dim_op DIV (fdim RT0) * (0 + 1 * (0 + nfa RT0 * 0)))%nat with 0%nat in T.
  rewrite (nth_error_nth _ _ _ T). unfold from_grad, gval, dshape, delta, face_area, volume, gram2, dot, diff, co, vtx_of, det3, edge_matrix, ref_tet, delta. cbn.
  replace (_ * _ - _ * _) with 1 by ring. rewrite sqrt_1. rewrite Rabs_pos_eq by lra. field.
Qed.
