(** C41 interpolation on composite spaces, C33 compaction, C48 interpolation on a region. *)
From Verif Require Import Prelude RSum GeoModel GeoSpec DenseModel DenseSpec DenseProofs2 DenseProps BasModel BasSpec BasProofs2 BasProofs7 BasProofs8 BasProofs9 BasProps2 IntModel IntSpec IntProofs IntProofs2 IntProofs3 IntProofs4 IntProofs5 IntProofs6.
Local Open Scope R_scope.

Definition vtx (x : tetra) : nat -> vec := fun k => vec_of (x k).
Definition on_simplices (Q : quads) : Prop := on_simplex 1 (q_seg Q) /\ on_simplex 2 (q_tri Q) /\ on_simplex 3 (q_tet Q).

(** *** C41 *)
(** Every space (any nesting), function, dof, fusion count: with the requested memory the call enters the
    dof of function r in array r at position i and changes nothing else *)
Theorem C41_dof : forall s Q x m F fusion i ud rq, nondegenerate x -> on_simplices Q -> iwf s -> (i < infa s)%nat -> imem s i fusion = Some rq -> (rq <= m)%nat -> has_dof fusion i ud ->
  exists ud', interp s Q (vtx x) m F fusion i ud = Some ud' /\ entered fusion i (fun r => cdof s Q x i (fun_of (idim s) r F)) ud ud'.
Proof. intros s Q x m F fusion i ud rq Hx (H1 & H2 & H3). now apply interp_ok. Qed.
Print Assumptions C41_dof.
(** The request is defined for every dof and grows with the number of functions *)
Theorem C41_memory : forall s i f f', iwf s -> (i < infa s)%nat -> (f <= f')%nat -> exists a b, imem s i f = Some a /\ imem s i f' = Some b /\ (a <= b)%nat.
Proof. intros s i f f' Hw Hi Hf. destruct (imem_total s i f Hw Hi) as (a & Ea). destruct (imem_mono s i f f' a Hw Hi Hf Ea) as (b & Eb & Hb). exists a, b. auto. Qed.
Print Assumptions C41_memory.
Lemma part_fun : forall gd sh ld F r Y c, (c < ld)%nat -> fun_of ld r (part_of gd sh ld F) Y c = fun_of gd r F Y (sh + c)%nat.
Proof. intros gd sh ld F r Y c Hc. unfold fun_of, part_of. rewrite (Nat.add_comm (r * ld) c), Nat.div_add, Nat.mod_add, Nat.div_small, Nat.mod_small by lia. f_equal. lia. Qed.
Lemma entered_same : forall f i v w ud ud', (forall r, (r < f)%nat -> v r = w r) -> entered f i v ud ud' -> entered f i w ud ud'.
Proof.
  intros f i v w ud ud' H (L & K). split; [exact L|]. intros r a Ea. destruct (K r a Ea) as (a' & Ea' & La & Hj). exists a'. split; [exact Ea'|]. split; [exact La|]. intros j. rewrite Hj. destruct (Nat.ltb_spec r f); cbn [andb]; [|reflexivity]. destruct (j =? i)%nat; [|reflexivity]. now rewrite H.
Qed.
(** Vector space: the same values as interpolating component i / nfa of the functions on dof i mod nfa of the base *)
Theorem C41_vector : forall n s Q x m F fusion i ud rq, nondegenerate x -> on_simplices Q -> iwf s -> (i < n * infa s)%nat -> imem (IV n s) i fusion = Some rq -> (rq <= m)%nat -> has_dof fusion i ud ->
  exists ud' v, interp (IV n s) Q (vtx x) m F fusion i ud = Some ud' /\ entered fusion i v ud ud' /\
    forall m0 ud0 rq0, imem s (i mod infa s) fusion = Some rq0 -> (rq0 <= m0)%nat -> has_dof fusion (i mod infa s) ud0 ->
      exists ud0', interp s Q (vtx x) m0 (part_of (n * idim s) (i / infa s * idim s) (idim s) F) fusion (i mod infa s) ud0 = Some ud0' /\ entered fusion (i mod infa s) v ud0 ud0'.
Proof.
  intros n s Q x m F fusion i ud rq Hx HQ Hw Hi Erq Hrq Hd. destruct (C41_dof (IV n s) Q x m F fusion i ud rq Hx HQ Hw Hi Erq Hrq Hd) as (ud' & E & H). exists ud'. eexists. split; [exact E|]. split; [exact H|].
  intros m0 ud0 rq0 E0 H0 Hd0. assert (Hs : (0 < infa s)%nat) by (destruct (infa s); lia). assert (Hk : (i mod infa s < infa s)%nat) by (apply Nat.mod_upper_bound; lia).
  destruct (C41_dof s Q x m0 (part_of (n * idim s) (i / infa s * idim s) (idim s) F) fusion (i mod infa s) ud0 rq0 Hx HQ Hw Hk E0 H0 Hd0) as (ud0' & E' & H'). exists ud0'. split; [exact E'|]. eapply entered_same; [|exact H'].
  intros r Hr. cbn [cdof idim]. apply cdof_ext; trivial. intros Y c Hc. now rewrite part_fun.
Qed.
Print Assumptions C41_vector.
(** Product: dof k of part v, that starts at the sum of the numbers of dofs of the earlier parts *)
Theorem C41_complex : forall l v s k Q x m F fusion ud rq, nondegenerate x -> on_simplices Q -> iwf (IC l) -> nth_error l v = Some s -> (k < infa s)%nat ->
  let i := (list_sum (firstn v (map infa l)) + k)%nat in
  imem (IC l) i fusion = Some rq -> (rq <= m)%nat -> has_dof fusion i ud ->
  exists ud' w, interp (IC l) Q (vtx x) m F fusion i ud = Some ud' /\ entered fusion i w ud ud' /\
    forall m0 ud0 rq0, imem s k fusion = Some rq0 -> (rq0 <= m0)%nat -> has_dof fusion k ud0 ->
      exists ud0', interp s Q (vtx x) m0 (part_of (list_sum (map idim l)) (list_sum (firstn v (map idim l))) (idim s) F) fusion k ud0 = Some ud0' /\ entered fusion k w ud0 ud0'.
Proof.
  intros l v s k Q x m F fusion ud rq Hx HQ Hw Hv Hk i Erq Hrq Hd. assert (Hi : (i < infa (IC l))%nat) by (cbn [infa]; unfold i; assert (B := part_bound l v s infa Hv); lia).
  destruct (C41_dof (IC l) Q x m F fusion i ud rq Hx HQ Hw Hi Erq Hrq Hd) as (ud' & E & H). exists ud'. eexists. split; [exact E|]. split; [exact H|].
  intros m0 ud0 rq0 E0 H0 Hd0. assert (Hws : iwf s) by exact (all_of _ _ _ Hw (nth_error_In' _ _ _ Hv)).
  destruct (C41_dof s Q x m0 (part_of (list_sum (map idim l)) (list_sum (firstn v (map idim l))) (idim s) F) fusion k ud0 rq0 Hx HQ Hws Hk E0 H0 Hd0) as (ud0' & E' & H'). exists ud0'. split; [exact E'|]. eapply entered_same; [|exact H'].
  intros r Hr. cbn [idim]. unfold i. rewrite (cdof_IC l v s) by assumption. apply cdof_ext; trivial. intros Y c Hc. now rewrite part_fun.
Qed.
Print Assumptions C41_complex.
(** Union: the combination of the dofs of all members with the weights of row i *)
Theorem C41_union : forall l W Q x m F fusion i ud rq, nondegenerate x -> on_simplices Q -> iwf (IU l W) -> let nf := list_sum (map infa l) in (i < nf)%nat -> imem (IU l W) i fusion = Some rq -> (rq <= m)%nat -> has_dof fusion i ud ->
  exists ud' (v : nat -> nat -> R), interp (IU l W) Q (vtx x) m F fusion i ud = Some ud' /\ entered fusion i (fun r => Rsum nf (fun j => nth (i + nf * j) W 0 * v j r)) ud ud' /\
    forall p s k m0 ud0 rq0, nth_error l p = Some s -> (k < infa s)%nat -> imem s k fusion = Some rq0 -> (rq0 <= m0)%nat -> has_dof fusion k ud0 ->
      exists ud0', interp s Q (vtx x) m0 F fusion k ud0 = Some ud0' /\ entered fusion k (v (list_sum (firstn p (map infa l)) + k)%nat) ud0 ud0'.
Proof.
  intros l W Q x m F fusion i ud rq Hx HQ Hw nf Hi Erq Hrq Hd. destruct (C41_dof (IU l W) Q x m F fusion i ud rq Hx HQ Hw Hi Erq Hrq Hd) as (ud' & E & H). exists ud', (fun j r => sub_dof l Q x j (fun_of (idim (IU l W)) r F)). split; [exact E|]. split.
  - eapply entered_same; [|exact H]. intros r Hr. cbv beta. now rewrite cdof_IU.
  - intros p s k m0 ud0 rq0 Hp Hk E0 H0 Hd0. destruct Hw as (Hwl & Hdim & _). assert (Hin := nth_error_In' _ _ _ Hp). assert (Hws : iwf s) by exact (all_of _ _ _ Hwl Hin).
    destruct (C41_dof s Q x m0 F fusion k ud0 rq0 Hx HQ Hws Hk E0 H0 Hd0) as (ud0' & E' & H'). exists ud0'. split; [exact E'|]. eapply entered_same; [|exact H']. intros r Hr. cbv beta. rewrite (sub_dof_at l p s) by assumption. now rewrite (Hdim s Hin).
Qed.
Print Assumptions C41_union.
(** interpolateByDOFs over the dofs ids: exactly these entries are set *)
Theorem C41_by_dofs : forall s Q x m F ids u M, nondegenerate x -> on_simplices Q -> iwf s -> max_mem s 1 (seq 0 (infa s)) = Some M -> (M <= m)%nat -> (forall i, In i ids -> (i < infa s)%nat) -> (infa s <= length u)%nat ->
  exists u', by_dofs s Q (vtx x) m F ids u = Some u' /\ set_at ids (fun i => cdof s Q x i F) u u'.
Proof. intros s Q x m F ids u M Hx (H1 & H2 & H3). now apply by_dofs_ok. Qed.
Print Assumptions C41_by_dofs.
(** Vector spaces interpolate all components together: the same result, at the dofs ids of every component *)
Theorem C41_vector_by_dofs : forall n s Q x m F ids u M, nondegenerate x -> on_simplices Q -> iwf s -> vec_by_dofs_mem n s = Some M -> (M <= m)%nat -> (forall i, In i ids -> (i < infa s)%nat) -> (n * infa s <= length u)%nat ->
  exists u', vec_by_dofs n s Q (vtx x) m F ids u = Some u' /\ set_at (flat_map (fun k => map (fun j => k * infa s + j)%nat ids) (seq 0 n)) (fun i => cdof (IV n s) Q x i F) u u'.
Proof. intros n s Q x m F ids u M Hx (H1 & H2 & H3). now apply vec_by_dofs_ok. Qed.
Print Assumptions C41_vector_by_dofs.
(** Spaces without unions: the basis is dual to the dofs on every element *)
Theorem C41_dual : forall e Q x s i k, quads_ok e Q -> nondegenerate x -> flat s -> (i < infa s)%nat -> (k < infa s)%nat -> near (4 * e) (cdof s Q x i (basis_fun s x k)) (delta i k).
Proof. intros. now apply dual_flat. Qed.
Print Assumptions C41_dual.
(** Unions of spaces made of scalar spaces: the weights are computed once, on the reference tetrahedron;
    on every element the basis is dual to the dofs up to the tolerance of the constructor.
    Missing: members with RT0 or ND0 leaves (false, see the refutation) and nested unions *)
Theorem C41_union_dual_partial : forall e eps Q phi l d W w g x i k,
  quads_ok e Q -> (forall s, In s l -> flat s /\ leaves scalar_space s /\ idim s = d) ->
  (forall s X i c, In s l -> (i < infa s)%nat -> (c < d)%nat -> phi s X (c + d * i)%nat = ishape s ref_x i c (of_vec X)) ->
  setup_union eps Q phi l = Some W -> let nf := list_sum (map infa l) in
  (forall p, (p < nf * nf)%nat -> Rabs (nth p W 0) <= w) -> (forall j k, (j < nf)%nat -> (k < nf)%nat -> Rabs (sub_dof l Q ref_x j (basis_fun (IU l W) ref_x k)) <= g) ->
  nondegenerate x -> (i < nf)%nat -> (k < nf)%nat ->
  near (1 / 10 ^ 8 * (1 + g + 4 * e) + INR nf * w * (1 / 10 ^ 7 * (g + 4 * e) + 4 * e)) (cdof (IU l W) Q x i (basis_fun (IU l W) x k)) (delta i k).
Proof. intros e eps Q phi l d W w g x i k HQ Hl Hp HW nf Hw Hg Hx Hi Hk. now apply (union_dual e eps Q phi l d W HQ Hl Hp HW w g x i k). Qed.
Print Assumptions C41_union_dual_partial.
(** and when this error is below one the constructed space meets the conditions of C41_union *)
Theorem C41_union_usable : forall e eps Q phi l d W w g,
  quads_ok e Q -> (forall s, In s l -> flat s /\ leaves scalar_space s /\ idim s = d) ->
  (forall s X i c, In s l -> (i < infa s)%nat -> (c < d)%nat -> phi s X (c + d * i)%nat = ishape s ref_x i c (of_vec X)) ->
  setup_union eps Q phi l = Some W -> let nf := list_sum (map infa l) in (0 < nf)%nat ->
  (forall p, (p < nf * nf)%nat -> Rabs (nth p W 0) <= w) -> (forall j k, (j < nf)%nat -> (k < nf)%nat -> Rabs (sub_dof l Q ref_x j (basis_fun (IU l W) ref_x k)) <= g) ->
  1 / 10 ^ 8 * (1 + g + 4 * e) + INR nf * w * (1 / 10 ^ 7 * (g + 4 * e) + 4 * e) < 1 -> iwf (IU l W).
Proof. intros e eps Q phi l d W w g HQ Hl Hp HW nf Hn Hw Hg Hb. now apply (union_iwf e eps Q phi l d W HQ Hl Hp HW w g). Qed.
Print Assumptions C41_union_usable.

(** *** The union RT0 + B4^3: weights that are right on the reference tetrahedron are wrong on its mirror image *)
Lemma abs_le : forall a b, Rabs a <= b -> - b <= a <= b.
Proof. intros a b. unfold Rabs. destruct (Rcase_abs a); lra. Qed.
Definition mirror_x : tetra := fun k c => - ref_x k c.
Lemma mirror_nondegenerate : nondegenerate mirror_x.
Proof. unfold nondegenerate, det3, edge_matrix, mirror_x, ref_x, of_vec, comp. cbn. lra. Qed.
Definition rt_b4 : list isp := [IB RT0; IV 3 (IB B4)].
Lemma rt_gram : forall x k, nondegenerate x -> (k < 3)%nat ->
  (forall j, (j < 4)%nat -> gram rt_b4 one_point x j 0 = delta j 0) /\ (forall j, (j < 4)%nat -> gram rt_b4 one_point x j (4 + k) = 0) /\
  gram rt_b4 one_point x (4 + k) 0 = shape RT0 x 0 k (comb x (fun _ => / 4)) /\ forall k', (k' < 3)%nat -> gram rt_b4 one_point x (4 + k') (4 + k) = delta k' k.
Proof.
  intros x k Hx Hk.
  assert (G : forall v s q v' s' q', nth_error rt_b4 v = Some s -> (q < infa s)%nat -> nth_error rt_b4 v' = Some s' -> (q' < infa s')%nat -> gram rt_b4 one_point x (list_sum (firstn v (map infa rt_b4)) + q) (list_sum (firstn v' (map infa rt_b4)) + q') = cdof s one_point x q (basis_fun s' x q')) by (intros; now apply gram_at).
  assert (N : forall a b, near (4 * 0) a b -> a = b). { intros a b H. unfold near in H. rewrite Rmult_0_r in H. assert (P := Rabs_pos (a - b)). destruct (Req_dec a b) as [|C]; [assumption|]. assert (Rabs (a - b) > 0) by (apply Rabs_pos_lt; lra). lra. }
  split; [|split; [|split]].
  - intros j Hj. etransitivity; [exact (G 0%nat (IB RT0) j 0%nat (IB RT0) 0%nat eq_refl Hj eq_refl ltac:(cbn; lia))|]. apply N. apply (dual_flat 0 one_point x C35_ex_quads Hx (IB RT0)); cbn; trivial; lia.
  - intros j Hj. etransitivity; [exact (G 0%nat (IB RT0) j 1%nat (IV 3 (IB B4)) k eq_refl Hj eq_refl ltac:(cbn; lia))|].
    cbn [cdof dof_value one_point q_tri]. unfold qsum. cbn [fold_right fst snd]. rewrite Rplus_0_r, Rmult_1_l. apply Rsum_zero. intros c Hc.
    assert (Z : shape B4 x 0 0 (of_vec (vec_of (comb x (facew j [/ 3; / 3; / 3])))) = 0). { rewrite sval_comb; [|reflexivity|exact Hx| |cbn; lia]. 2:{ apply facew_sum; [exact Hj|]. cbn [Rsum nth]. lra. } destruct j as [|[|[|[|j]]]]; [| | | |lia]; unfold sval, facew, delta; cbn; ring. }
    unfold basis_fun. cbn [ishape infa nfa idim fdim]. rewrite !Nat.mod_1_r. destruct (_ =? _)%nat; [rewrite Z|]; ring.
  - etransitivity; [exact (G 1%nat (IV 3 (IB B4)) k 0%nat (IB RT0) 0%nat eq_refl ltac:(cbn; lia) eq_refl ltac:(cbn; lia))|].
    cbn [cdof infa nfa idim fdim]. rewrite Nat.mod_1_r, Nat.div_1_r, Nat.mul_1_r. cbn [dof_value]. rewrite Nat.add_0_r. unfold basis_fun. cbn [ishape]. unfold shape. f_equal. f_equal. rewrite of_vec_of by exact Hk. reflexivity.
  - intros k' Hk'. etransitivity; [exact (G 1%nat (IV 3 (IB B4)) k' 1%nat (IV 3 (IB B4)) k eq_refl ltac:(cbn; lia) eq_refl ltac:(cbn; lia))|]. apply N. apply (dual_flat 0 one_point x C35_ex_quads Hx (IV 3 (IB B4))); cbn; trivial; lia.
Qed.
Lemma ref_area : face_area ref_x 0 = / 2 /\ face_area mirror_x 0 = / 2 /\ volume ref_x = / 6 /\ volume mirror_x = / 6.
Proof.
  assert (S1 : sqrt 1 = 1) by exact sqrt_1. unfold face_area, volume, mirror_x, ref_x, vtx_of, gram2, dot, diff, co, det3, edge_matrix, of_vec, comp. cbn.
  repeat split.
  - match goal with |- sqrt ?t / 2 = _ => replace t with 1 by ring end. rewrite S1. lra.
  - match goal with |- sqrt ?t / 2 = _ => replace t with 1 by ring end. rewrite S1. lra.
  - match goal with |- Rabs ?t / 6 = _ => replace t with 1 by ring end. rewrite Rabs_R1. lra.
  - match goal with |- Rabs ?t / 6 = _ => replace t with (- (1)) by ring end. rewrite Rabs_Ropp, Rabs_R1. lra.
Qed.
Definition dual_on (l : list isp) (W : list R) (Q : quads) (x : tetra) (e : R) : Prop :=
  forall i k, (i < list_sum (map infa l))%nat -> (k < list_sum (map infa l))%nat -> near e (cdof (IU l W) Q x i (basis_fun (IU l W) x k)) (delta i k).
Theorem C41_union_refuted : exists l Q x, quads_ok 0 Q /\ nondegenerate x /\ (forall s, In s l -> flat s /\ idim s = 3%nat) /\
  forall W, dual_on l W Q ref_x (1 / 100) -> ~ dual_on l W Q x (1 / 100).
Proof.
  exists rt_b4, one_point, mirror_x. split; [exact C35_ex_quads|]. split; [exact mirror_nondegenerate|]. split; [intros s [<-|[<-|[]]]; split; [exact I|reflexivity|exact I|reflexivity]|].
  intros W H K.
  assert (P : forall x k, dual_on rt_b4 W one_point x (1 / 100) -> (k < 7)%nat -> near (1 / 100) (Rsum 7 (fun j => nth (4 + 7 * j) W 0 * gram rt_b4 one_point x j k)) (delta 4 k)).
  { intros x k D Hk. specialize (D 4%nat k ltac:(vm_compute; lia) Hk). rewrite cdof_IU in D. exact D. }
  destruct (rt_gram ref_x 0 ref_x_nondegenerate ltac:(lia)) as (A1 & A2 & A3 & A4). destruct (rt_gram ref_x 1 ref_x_nondegenerate ltac:(lia)) as (_ & B2 & B3 & B4). destruct (rt_gram ref_x 2 ref_x_nondegenerate ltac:(lia)) as (_ & C2 & C3 & C4).
  destruct (rt_gram mirror_x 0 mirror_nondegenerate ltac:(lia)) as (D1 & _ & D3 & _). destruct (rt_gram mirror_x 1 mirror_nondegenerate ltac:(lia)) as (_ & _ & E3 & _). destruct (rt_gram mirror_x 2 mirror_nondegenerate ltac:(lia)) as (_ & _ & F3 & _).
  assert (P0 := P ref_x 0%nat H ltac:(lia)). assert (P4 := P ref_x 4%nat H ltac:(lia)). assert (P5 := P ref_x 5%nat H ltac:(lia)). assert (P6 := P ref_x 6%nat H ltac:(lia)). assert (M0 := P mirror_x 0%nat K ltac:(lia)).
  destruct ref_area as (R1 & R2 & R3 & R4).
  assert (V : forall c, (c < 3)%nat -> shape RT0 ref_x 0 c (comb ref_x (fun _ => / 4)) = / 4 - delta c 2 /\ shape RT0 mirror_x 0 c (comb mirror_x (fun _ => / 4)) = delta c 2 - / 4).
  { intros c Hc. unfold shape. rewrite R1, R2, R3, R4. destruct c as [|[|[|c]]]; [| | |lia]; unfold comb, opp, mirror_x, ref_x, of_vec, comp, delta; cbn; split; field. }
  destruct (V 0%nat ltac:(lia)) as (V0 & U0). destruct (V 1%nat ltac:(lia)) as (V1 & U1). destruct (V 2%nat ltac:(lia)) as (V2 & U2). rewrite V0 in A3. rewrite V1 in B3. rewrite V2 in C3. rewrite U0 in D3. rewrite U1 in E3. rewrite U2 in F3.
  cbn [Nat.add] in *. cbn [Rsum] in P0, P4, P5, P6, M0.
  rewrite !A1, A3, B3, C3 in P0 by lia. rewrite !A2, (A4 0%nat), (A4 1%nat), (A4 2%nat) in P4 by lia. rewrite !B2, (B4 0%nat), (B4 1%nat), (B4 2%nat) in P5 by lia. rewrite !C2, (C4 0%nat), (C4 1%nat), (C4 2%nat) in P6 by lia. rewrite !D1, D3, E3, F3 in M0 by lia.
  unfold near, delta in P0, P4, P5, P6, M0. cbn [Nat.eqb] in P0, P4, P5, P6, M0. apply abs_le in P0, P4, P5, P6, M0. lra.
Qed.
Print Assumptions C41_union_refuted.

(** *** The memory reported for a node *)
(** interpolateOnRegion(NODE) passes its memory to interpolateByDOFs, and a vector space asks there for memory for
    all components at once; the report for a node is the request for one function *)
Theorem C41_region_memory_refuted : exists n s ids0 m rq, node_region_mem (IV n s) ids0 = Some m /\ vec_by_dofs_mem n s = Some rq /\ (m < rq)%nat /\
  forall Q x F ids u, vec_by_dofs n s Q x m F ids u = None.
Proof.
  exists 3%nat, (IB P1), [0; 4; 8]%nat, 4%nat, 6%nat. split; [reflexivity|]. split; [reflexivity|]. split; [lia|]. intros Q x F ids u. reflexivity.
Qed.
Print Assumptions C41_region_memory_refuted.

(** *** Examples *)
Definition taylor_hood : isp := IC [IV 3 (IB P2); IB P1].
Example C41_ex : iwf taylor_hood /\ flat taylor_hood /\ infa taylor_hood = 34%nat /\ idim taylor_hood = 4%nat /\ imem taylor_hood 25 2 = Some 16%nat /\ imem (IC [taylor_hood; IV 2 (IB RT0)]) 40 1 = Some 19%nat.
Proof. repeat split. Qed.
Example C41_ex_simplices : on_simplices one_point.
Proof. destruct C35_ex_quads as ((A & _) & (B & _) & (C & _)). split; [exact A|split; assumption]. Qed.
(** P0 + B4 with the formula of the vertices: the constructor succeeds *)
Definition corners : quads := {| q_seg := [([1; 0], / 2); ([0; 1], / 2)]; q_tri := [([1; 0; 0], / 3); ([0; 1; 0], / 3); ([0; 0; 1], / 3)];
  q_tet := [([1; 0; 0; 0], / 4); ([0; 1; 0; 0], / 4); ([0; 0; 1; 0], / 4); ([0; 0; 0; 1], / 4)] |}.
Lemma corners_ok : quads_ok 0 corners.
Proof.
  assert (N : forall a b, a = b -> near 0 a b) by (intros a b ->; apply near_refl; lra).
  unfold quads_ok, affine_exact, corners; cbn [q_seg q_tri q_tet].
  split; [|split]; (split; [intros p w Hp; cbn [In] in Hp; repeat (destruct Hp as [Hp|Hp]; [injection Hp as <- <-; split; [reflexivity|cbn [Rsum nth]; lra]|]); contradiction|]);
    (split; [apply N; unfold qsum; cbn; field|]); intros k Hk; apply N; unfold qsum; destruct k as [|[|[|[|k]]]]; try (exfalso; lia); cbn; field.
Qed.
Definition ref_basis (s : isp) (X : vec) (p : nat) : R := ishape s ref_x (p / idim s) (p mod idim s) (of_vec X).
Definition p0_b4 : list isp := [IB P0; IB B4].
Lemma p0_b4_gram : forall j k, (j < 2)%nat -> (k < 2)%nat -> tgt corners p0_b4 j k = if ((j =? 0) && (k =? 1))%nat then 0 else 1.
Proof.
  intros j k Hj Hk.
  assert (T : forall v s q v' s' q', nth_error p0_b4 v = Some s -> (q < infa s)%nat -> nth_error p0_b4 v' = Some s' -> (q' < infa s')%nat -> tgt corners p0_b4 (list_sum (firstn v (map infa p0_b4)) + q) (list_sum (firstn v' (map infa p0_b4)) + q') = if (v =? v')%nat then delta q q' else cdof s corners ref_x q (basis_fun s' ref_x q')) by (intros; now apply tgt_at).
  destruct j as [|[|j]]; [| |lia]; (destruct k as [|[|k]]; [| |lia]).
  - exact (T 0%nat (IB P0) 0%nat 0%nat (IB P0) 0%nat eq_refl ltac:(cbn; lia) eq_refl ltac:(cbn; lia)).
  - etransitivity; [exact (T 0%nat (IB P0) 0%nat 1%nat (IB B4) 0%nat eq_refl ltac:(cbn; lia) eq_refl ltac:(cbn; lia))|]. cbn [Nat.eqb andb cdof dof_value corners q_tet].
    assert (Z : forall p, In p [[1; 0; 0; 0]; [0; 1; 0; 0]; [0; 0; 1; 0]; [0; 0; 0; 1]] -> basis_fun (IB B4) ref_x 0 (vec_of (comb ref_x (fun k => nth k p 0))) 0 = 0).
    { intros p Hp. unfold basis_fun. cbn [ishape]. rewrite sval_comb; [|reflexivity|exact ref_x_nondegenerate| |cbn; lia]; cbn [In] in Hp; repeat (destruct Hp as [<-|Hp]; [cbn; ring|]); contradiction. }
    unfold qsum. cbn [fold_right fst snd]. rewrite !Z by (cbn; tauto). ring.
  - etransitivity; [exact (T 1%nat (IB B4) 0%nat 0%nat (IB P0) 0%nat eq_refl ltac:(cbn; lia) eq_refl ltac:(cbn; lia))|]. reflexivity.
  - exact (T 1%nat (IB B4) 0%nat 1%nat (IB B4) 0%nat eq_refl ltac:(cbn; lia) eq_refl ltac:(cbn; lia)).
Qed.
Example C41_ex_union : exists W, setup_union 0 corners ref_basis p0_b4 = Some W /\ quads_ok 0 corners /\ (forall s, In s p0_b4 -> flat s /\ leaves scalar_space s /\ idim s = 1%nat) /\
  (forall s X i c, In s p0_b4 -> (i < infa s)%nat -> (c < 1)%nat -> ref_basis s X (c + 1 * i)%nat = ishape s ref_x i c (of_vec X)).
Proof.
  assert (HL : forall s, In s p0_b4 -> flat s /\ leaves scalar_space s /\ idim s = 1%nat) by (intros s [<-|[<-|[]]]; repeat split).
  assert (HP : forall s X i c, In s p0_b4 -> (i < infa s)%nat -> (c < 1)%nat -> ref_basis s X (c + 1 * i)%nat = ishape s ref_x i c (of_vec X)).
  { intros s X i c Hs Hi Hc. destruct (HL s Hs) as (_ & _ & D). unfold ref_basis. rewrite D. replace c with 0%nat by lia. rewrite Nat.add_0_l, Nat.mul_1_l, Nat.div_1_r, Nat.mod_1_r. reflexivity. }
  assert (HQ := corners_ok). destruct HQ as ((S1 & _) & (S2 & _) & (S3 & _)).
  destruct (setup_gram_ok corners ref_basis p0_b4 1 S1 S2 S3) as (b & Eb & Hb). { intros s Hs. destruct (HL s Hs) as (F & _ & D). split; [now apply flat_iwf|exact D]. } { exact HP. }
  assert (B : forall j k, (j < 2)%nat -> (k < 2)%nat -> b j k = if ((j =? 0) && (k =? 1))%nat then 0 else 1). { intros j k Hj Hk. rewrite Hb by assumption. now apply p0_b4_gram. }
  assert (Hns : nonsingular 2 b).
  { intros y Hy. assert (Y0 := Hy 0%nat ltac:(lia)). assert (Y1 := Hy 1%nat ltac:(lia)). cbn [Rsum] in Y0, Y1. rewrite !B in Y0 by lia. rewrite !B in Y1 by lia. cbn in Y0, Y1. intros i Hi. destruct i as [|[|i]]; [lra|lra|lia]. }
  unfold setup_union. change (list_sum (map infa p0_b4)) with 2%nat in *. cbn [Nat.eqb length p0_b4 Nat.leb Nat.mul Nat.add]. fold p0_b4. rewrite Eb. cbn [obind]. unfold full_piv_lu_inverse.
  pose proof (fill_identity_ok 2 (repeat 0 4) (repeat_length 0 4)) as EI. rewrite EI. cbn [obind].
  destruct (C30_small_partial 2 2 b identity (store 2 2 identity) ltac:(lia) Hns (store_length _ _ _)) as (a & Ea & Ha). rewrite Ea. cbn [obind].
  assert (a00 := Ha 0%nat 0%nat ltac:(lia) ltac:(lia)). assert (a01 := Ha 0%nat 1%nat ltac:(lia) ltac:(lia)). assert (a10 := Ha 1%nat 0%nat ltac:(lia) ltac:(lia)). assert (a11 := Ha 1%nat 1%nat ltac:(lia) ltac:(lia)).
  cbn [Rsum] in a00, a01, a10, a11. rewrite !B in a00 by lia. rewrite !B in a01 by lia. rewrite !B in a10 by lia. rewrite !B in a11 by lia. unfold identity in a00, a01, a10, a11. cbn in a00, a01, a10, a11.
  destruct (setup_check_ok 2 (store 2 2 a) b (store_length _ _ _)) as (E & G & Ec & _ & _).
  assert (Hmax : E = 0).
  { clear - Ec B a00 a01 a10 a11. revert Ec. unfold setup_check, for_. cbn [for_range]. rewrite !(fun i j => mrd_store 2 2 a i j : (i < 2)%nat -> (j < 2)%nat -> rd (store 2 2 a) (i + 2 * j) = _) by lia. rewrite !(fun i j => mrd_store 2 2 b i j : (i < 2)%nat -> (j < 2)%nat -> rd (store 2 2 b) (i + 2 * j) = _) by lia. cbn [obind fst snd Nat.eqb].
    rewrite !B by lia. cbn [Nat.eqb andb]. intros Ec. apply Some_inj' in Ec. apply (f_equal fst) in Ec. cbn [fst] in Ec. rewrite <- Ec.
    repeat match goal with |- context [Rabs ?t] => lazymatch t with 0 => fail | _ => replace t with 0 by lra end end. rewrite Rabs_R0. rewrite !(Rmax_left 0 0) by lra. reflexivity. }
  rewrite Ec. cbn [obind fst snd]. subst E. destruct (Rlt_dec (1 / 10 ^ 8 * (1 + G)) 0) as [C|C].
  { exfalso. assert (0 <= G); [|lra]. destruct (setup_check_ok 2 (store 2 2 a) b (store_length _ _ _)) as (E' & G' & Ec' & H' & _). rewrite Ec in Ec'. injection Ec' as <- <-. destruct (H' 0%nat 0%nat ltac:(lia) ltac:(lia)) as (_ & H0). assert (P := Rabs_pos (b 0%nat 0%nat)). lra. }
  destruct (setup_clean_ok 2 (store 2 2 a) (store_length _ _ _)) as (W & EW & _). exists W. split; [exact EW|]. split; [exact corners_ok|]. split; assumption.
Qed.

(** *** C33: the in-place gather of the rows and columns ids *)
Theorem C33_compaction : forall nf ids a f, increasing ids -> (forall i, In i ids -> (i < nf)%nat) ->
  exists A' F', compact nf ids (store nf nf a) (arr nf f) = Some (A', F') /\ length A' = (nf * nf)%nat /\ length F' = nf /\
    firstn (length ids * length ids) A' = store (length ids) (length ids) (fun i j => a (nth i ids 0%nat) (nth j ids 0%nat)) /\ firstn (length ids) F' = arr (length ids) (fun k => f (nth k ids 0%nat)).
Proof. exact compact_ok. Qed.
Print Assumptions C33_compaction.
(** the order matters: with ids out of order an entry is lost *)
Theorem C33_compaction_order : exists ids (f : nat -> R) F' A', (forall i, In i ids -> (i < 2)%nat) /\ NoDup ids /\ compact 2 ids (store 2 2 (fun _ _ => 0)) (arr 2 f) = Some (A', F') /\ firstn 2 F' <> arr 2 (fun k => f (nth k ids 0%nat)).
Proof.
  exists [1; 0]%nat, (fun k => match k with 0%nat => 7 | _ => 9 end). eexists. eexists. split; [intros i [<-|[<-|[]]]; lia|]. split; [repeat constructor; cbn; intuition discriminate|]. split; [unfold compact, for_; cbn; reflexivity|]. cbn. intros H. injection H as H. lra.
Qed.
Print Assumptions C33_compaction_order.

(** *** C48: the last part of interpolateOnRegion *)
(** udofs changes exactly at the dofs of the region, to the solution of the system restricted to them *)
Theorem C48_solve : forall nf ids a f mem u, increasing ids -> (forall i, In i ids -> (i < nf)%nat) -> (nf <= length u)%nat -> (nf * (nf + 1) / 2 <= length mem)%nat ->
  let n := length ids in let a' := (fun i j => a (nth i ids 0%nat) (nth j ids 0%nat)) in
  symmetric n a' -> positive_definite n a' ->
  exists u' v, region_solve nf ids (store nf nf a) (arr nf f) mem u = Some u' /\ set_at ids v u u' /\ forall i, In i ids -> Rsum n (fun m => a i (nth m ids 0%nat) * v (nth m ids 0%nat)) = f i.
Proof. exact region_solve_ok. Qed.
Print Assumptions C48_solve.
(** hence the combination of the basis functions of the region is the projection: with a and f the products
    of the basis functions and of the function with them, the error is orthogonal to the basis functions of the region *)
Theorem C48_projection : forall nf ids (ip : nat -> nat -> R) (g : nat -> R) mem u, increasing ids -> (forall i, In i ids -> (i < nf)%nat) -> (nf <= length u)%nat -> (nf * (nf + 1) / 2 <= length mem)%nat ->
  symmetric nf ip -> (forall c : nat -> R, (exists i, In i ids /\ c i <> 0) -> 0 < Rsum (length ids) (fun m => Rsum (length ids) (fun k => ip (nth m ids 0%nat) (nth k ids 0%nat) * c (nth m ids 0%nat) * c (nth k ids 0%nat)))) ->
  exists u' v, region_solve nf ids (store nf nf ip) (arr nf g) mem u = Some u' /\ set_at ids v u u' /\ forall i, In i ids -> g i - Rsum (length ids) (fun m => v (nth m ids 0%nat) * ip (nth m ids 0%nat) i) = 0.
Proof.
  intros nf ids ip g mem u Hinc Hb Hu Hm Hs Hp. assert (Hin : forall k, (k < length ids)%nat -> (nth k ids 0 < nf)%nat) by (intros; apply Hb; now apply nth_In).
  destruct (region_solve_ok nf ids ip g mem u Hinc Hb Hu Hm) as (u' & v & E & H & K).
  - intros i j Hi Hj. apply Hs; auto.
  - intros y (i & Hi & Hy). unfold DenseSpec.quadratic.
    assert (Hinj : forall k k', (k < length ids)%nat -> (k' < length ids)%nat -> nth k ids 0%nat = nth k' ids 0%nat -> k = k') by (intros k k' Hk Hk' He; destruct (Nat.lt_total k k') as [C|[C|C]]; trivial; [assert (G := Hinc k k')|assert (G := Hinc k' k)]; lia).
    set (c := fun p => Rsum (length ids) (fun k => if (nth k ids 0%nat =? p)%nat then y k else 0)).
    assert (Hc : forall k, (k < length ids)%nat -> c (nth k ids 0%nat) = y k). { intros k Hk. unfold c. rewrite (Rsum_single _ k); [now rewrite Nat.eqb_refl|exact Hk|]. intros k' Hk' Hne. destruct (Nat.eqb_spec (nth k' ids 0%nat) (nth k ids 0%nat)) as [C|C]; [apply Hinj in C; congruence|reflexivity]. }
    assert (P := Hp c). erewrite Rsum_ext; [apply P|].
    + exists (nth i ids 0%nat). split; [now apply nth_In|]. now rewrite Hc.
    + intros m Hm'. apply Rsum_ext. intros k Hk. now rewrite !Hc.
  - exists u', v. split; [exact E|]. split; [exact H|]. intros i Hi. rewrite <- (K i Hi). rewrite (Rsum_ext _ (fun m => v (nth m ids 0%nat) * ip (nth m ids 0%nat) i) (fun m => ip i (nth m ids 0%nat) * v (nth m ids 0%nat))); [ring|].
    intros m Hm'. rewrite (Hs i (nth m ids 0%nat)) by auto. ring.
Qed.
Print Assumptions C48_projection.
Example C48_ex : increasing [1; 3]%nat /\ symmetric 2 (fun i j => identity (nth i [1; 3]%nat 0%nat) (nth j [1; 3]%nat 0%nat)) /\ positive_definite 2 (fun i j => identity (nth i [1; 3]%nat 0%nat) (nth j [1; 3]%nat 0%nat)).
Proof.
  split; [|split].
  - intros a b H. cbn [length] in H. assert (a = 0 /\ b = 1)%nat as (-> & ->) by lia. cbn. lia.
  - intros i j Hi Hj. destruct i as [|[|i]], j as [|[|j]]; try lia; reflexivity.
  - intros y (i & Hi & Hy). unfold DenseSpec.quadratic, identity. cbn. destruct i as [|[|i]]; [| |lia]; nra.
Qed.
(** The points of an edge or a face: the coordinates of the other vertices are what the memory held before *)
Theorem C48_edge_points_refuted : exists ielem fm xyl xyl1, on_simplex 1 fm /\ length xyl = (4 * length fm)%nat /\ edge_points ielem fm xyl = Some xyl1 /\ Rsum 4 (fun k => nth k xyl1 0) <> 1.
Proof.
  exists 0%nat, (q_seg one_point), [0; 0; 5; 0]. eexists. split; [apply C35_ex_quads|]. split; [reflexivity|]. split; [unfold edge_points, for_; cbn; reflexivity|]. cbn. lra.
Qed.
Print Assumptions C48_edge_points_refuted.
Theorem C48_face_points_refuted : exists ielem fm xyl xyl1, on_simplex 2 fm /\ length xyl = (4 * length fm)%nat /\ face_points ielem fm xyl = Some xyl1 /\ Rsum 4 (fun k => nth k xyl1 0) <> 1.
Proof.
  exists 0%nat, (q_tri one_point), [0; 0; 5; 7]. eexists. split; [apply C35_ex_quads|]. split; [reflexivity|]. split; [unfold face_points, for_; cbn; reflexivity|]. cbn. lra.
Qed.
Print Assumptions C48_face_points_refuted.
