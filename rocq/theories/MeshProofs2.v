From Verif Require Import Prelude MeshModel MeshSpec MeshProofs.
From Coq Require Import Reals ZArith Lia Permutation.
Open Scope nat_scope.

(** *** The cells of a cube *)
Definition tets : list (list nat) := [[0;1;3;5]; [0;3;5;7]; [0;4;5;7]; [0;2;3;7]; [0;2;4;7]; [2;4;6;7]].
Definition cut : list (list (list nat) * list nat) := List.combine six tets.
Definition cx (n : nat) : Z := Z.of_nat (n mod 2).
Definition cy (n : nat) : Z := Z.of_nat (n / 2 mod 2).
Definition cz (n : nat) : Z := Z.of_nat (n / 4).
Definition vn (l : local) (i j k : Z) (n : nat) : nat := nid l (i - 1 + cx n) (j - 1 + cy n) (k - 1 + cz n).
Definition vp (sizes : axes) (A O : point) (i j k : Z) (n : nat) : point := node_at sizes A O (i - 1 + cx n) (j - 1 + cy n) (k - 1 + cz n).
Definition in_cubes (l : local) (i j k : Z) : Prop :=
  (axis 0 (lstart l) < i <= axis 0 (lend l) /\ axis 1 (lstart l) < j <= axis 1 (lend l) /\ axis 2 (lstart l) < k <= axis 2 (lend l))%Z.
Lemma corner_in : forall l i j k n, in_cubes l i j k -> n < 8 -> in_local l (i - 1 + cx n) (j - 1 + cy n) (k - 1 + cz n).
Proof.
  intros l i j k n (H0 & H1 & H2) Hn. unfold in_local.
  do 8 (destruct n as [|n]; [unfold cx, cy, cz; cbn -[axis]; lia|]). lia.
Qed.
Lemma vn_inj : forall l i j k n m, good_local l -> in_cubes l i j k -> n < 8 -> m < 8 -> vn l i j k n = vn l i j k m -> n = m.
Proof.
  intros l i j k n m G H Hn Hm E. apply nid_inj in E; [|exact G|now apply corner_in|now apply corner_in]. destruct E as (Ex & Ey & Ez).
  unfold cx, cy, cz in *.
  do 8 (destruct n as [|n]; [do 8 (destruct m as [|m]; [try reflexivity; cbn in *; lia|]); lia|]). lia.
Qed.
Lemma cube_ok : forall l sizes A O i j k, good_local l -> in_cubes l i j k ->
  cube_cells l (new_nodes l sizes A O) i j k = Some (map (map (map (vn l i j k))) six).
Proof.
  intros l sizes A O i j k G H.
  assert (V : forall x y z n, n < 8 -> x = (i - 1 + cx n)%Z -> y = (j - 1 + cy n)%Z -> z = (k - 1 + cz n)%Z ->
    vert l (new_nodes l sizes A O) x y z = Some (vn l i j k n)).
  { intros x y z n Hn -> -> ->. apply (vid_ok l sizes A O _ _ _ G (corner_in l i j k n H Hn)). }
  unfold cube_cells, cube_verts.
  rewrite (V _ _ _ 0) by (unfold cx, cy, cz; cbn; lia). cbn [obind].
  rewrite (V _ _ _ 1) by (unfold cx, cy, cz; cbn; lia). cbn [obind].
  rewrite (V _ _ _ 2) by (unfold cx, cy, cz; cbn; lia). cbn [obind].
  rewrite (V _ _ _ 3) by (unfold cx, cy, cz; cbn; lia). cbn [obind].
  rewrite (V _ _ _ 4) by (unfold cx, cy, cz; cbn; lia). cbn [obind].
  rewrite (V _ _ _ 5) by (unfold cx, cy, cz; cbn; lia). cbn [obind].
  rewrite (V _ _ _ 6) by (unfold cx, cy, cz; cbn; lia). cbn [obind].
  rewrite (V _ _ _ 7) by (unfold cx, cy, cz; cbn; lia). cbn [obind].
  reflexivity.
Qed.
Lemma cubes_in : forall l i j k, In (i, j, k) (cubes l) <-> in_cubes l i j k.
Proof.
  intros l i j k. unfold cubes, in_cubes. rewrite in_flat_map. split.
  - intros (i' & Hi & H). apply in_flat_map in H as (j' & Hj & H). apply in_map_iff in H as (k' & E & Hk). injection E as -> -> ->.
    apply upto_in in Hi, Hj, Hk. lia.
  - intros H. exists i. split; [apply upto_in; lia|]. apply in_flat_map. exists j. split; [apply upto_in; lia|]. apply in_map_iff. exists k. split; [reflexivity|]. apply upto_in. lia.
Qed.
Lemma cells_ok : forall l sizes A O, good_local l ->
  new_cells l (new_nodes l sizes A O) = Some (flat_map (fun q => map (map (map (vn l (axis 0 q) (axis 1 q) (axis 2 q)))) six) (cubes l)).
Proof.
  intros l sizes A O G. unfold new_cells.
  assert (K : forall qs cs, (forall q, In q qs -> in_cubes l (axis 0 q) (axis 1 q) (axis 2 q)) ->
    fold_left (fun r q => do cs <- r ; do new <- cube_cells l (new_nodes l sizes A O) (axis 0 q) (axis 1 q) (axis 2 q) ; Some (cs ++ new)) qs (Some cs) =
    Some (cs ++ flat_map (fun q => map (map (map (vn l (axis 0 q) (axis 1 q) (axis 2 q)))) six) qs)).
  { induction qs as [|q qs IH]; intros cs H; [cbn; now rewrite app_nil_r|]. cbn [fold_left obind]. rewrite cube_ok; [|exact G|apply H; now left].
    cbn [obind]. rewrite IH by (intros; apply H; now right). cbn [flat_map]. now rewrite app_assoc. }
  rewrite K; [reflexivity|]. intros ((i, j), k) H. now apply cubes_in.
Qed.
Lemma generate_ok : forall rank size sizes A O, good_local (local_of rank size sizes) ->
  exists nodes cells, generate rank size sizes A O = Some (nodes, cells) /\ nodes = new_nodes (local_of rank size sizes) sizes A O /\
    (length cells = 6 * length (cubes (local_of rank size sizes))) /\
    forall c, In c cells <-> exists i j k t, in_cubes (local_of rank size sizes) i j k /\ In t six /\ c = map (map (vn (local_of rank size sizes) i j k)) t.
Proof.
  intros rank size sizes A O G. unfold generate. rewrite cells_ok by exact G. cbn [obind]. eexists _, _. split; [reflexivity|]. split; [reflexivity|]. split.
  - rewrite (flat_len _ 6) by reflexivity. lia.
  - intros c. rewrite in_flat_map. split.
    + intros (((i, j), k) & Hq & Hc). apply in_map_iff in Hc as (t & <- & Ht). exists i, j, k, t. apply cubes_in in Hq. auto.
    + intros (i & j & k & t & Hq & Ht & ->). exists (i, j, k). split; [now apply cubes_in|]. apply in_map_iff. exists t. auto.
Qed.

(** The faces of each of the six are those of a tetrahedron of four different nodes. *)
Definition check (p : list (list nat) * list nat) : bool :=
  let (t, v) := p in
  (length v =? 4) && (length t =? 4) && forallb (fun n => n <? 8) v &&
  forallb (fun f => (length f =? 3) && forallb (fun n => existsb (Nat.eqb n) v) f && (length (nodup Nat.eq_dec f) =? 3)) t &&
  forallb (fun n => existsb (fun f => existsb (Nat.eqb n) f) t && existsb (fun f => negb (existsb (Nat.eqb n) f)) t) v &&
  (length (nodup Nat.eq_dec v) =? 4).
Lemma check_all : forallb check cut = true.
Proof. reflexivity. Qed.
Lemma nodup_len : forall l, length (nodup Nat.eq_dec l) = length l -> NoDup l.
Proof.
  induction l as [|x l IH]; intros H; [constructor|]. cbn in H. destruct (in_dec Nat.eq_dec x l) as [I|N].
  - exfalso. assert (length (nodup Nat.eq_dec l) <= length l); [|cbn in H; lia]. clear. induction l as [|y l IH]; [auto|]. cbn. destruct (in_dec Nat.eq_dec y l); cbn; lia.
  - constructor; [exact N|]. apply IH. cbn in H. lia.
Qed.
Lemma cut_ok : forall t v, In (t, v) cut -> length v = 4 /\ length t = 4 /\ NoDup v /\ (forall n, In n v -> n < 8) /\
  (forall f, In f t -> length f = 3 /\ NoDup f /\ incl f v) /\
  (forall n, In n v -> (exists f, In f t /\ In n f) /\ exists f, In f t /\ ~ In n f).
Proof.
  intros t v H. pose proof (proj1 (forallb_forall _ _) check_all _ H) as C. cbn [check] in C. rewrite !Bool.andb_true_iff in C.
  destruct C as (((((C1 & C2) & C3) & C4) & C5) & C6). apply Nat.eqb_eq in C1, C2, C6. rewrite forallb_forall in C3, C4, C5.
  assert (E : forall n l, existsb (Nat.eqb n) l = true <-> In n l).
  { intros n l. rewrite existsb_exists. split; [intros (x & Hx & Ex); apply Nat.eqb_eq in Ex; now subst|intros Hn; exists n; split; [exact Hn|apply Nat.eqb_refl]]. }
  split; [exact C1|]. split; [exact C2|]. split; [apply nodup_len; lia|]. split; [intros n Hn; apply Nat.ltb_lt; now apply C3|]. split.
  - intros f Hf. specialize (C4 f Hf). rewrite !Bool.andb_true_iff in C4. destruct C4 as ((A & B) & D). apply Nat.eqb_eq in A, D.
    split; [exact A|]. split; [apply nodup_len; lia|]. intros n Hn. rewrite forallb_forall in B. apply E. now apply B.
  - intros n Hn. specialize (C5 n Hn). apply Bool.andb_true_iff in C5 as (A & B). apply existsb_exists in A as (f & Hf & Ef). apply existsb_exists in B as (g & Hg & Eg).
    split; [exists f; split; [exact Hf|now apply E]|exists g; split; [exact Hg|]]. intros I. apply E in I. rewrite I in Eg. discriminate.
Qed.
Lemma six_cut : forall t, In t six -> exists v, In (t, v) cut.
Proof. intros t H. cbn in H. repeat (destruct H as [<-|H]; [eexists; cbn; tauto|]). destruct H. Qed.
Lemma cut_six : forall t v, In (t, v) cut -> In t six /\ In v tets.
Proof. intros t v H. unfold cut in H. split; [eapply in_combine_l|eapply in_combine_r]; exact H. Qed.

Lemma map_nodup : forall {S T} (f : S -> T) (l : list S), NoDup l -> (forall a b, In a l -> In b l -> f a = f b -> a = b) -> NoDup (map f l).
Proof.
  intros S T f l N. induction N as [|x l Nx N IH]; intros H; [constructor|]. cbn. constructor.
  - intros I. apply in_map_iff in I as (y & E & I). apply Nx. rewrite <- (H y x); [exact I|now right|now left|exact E].
  - apply IH. intros a b Ha Hb. apply H; now right.
Qed.
Section Cell.
Variables (l : local) (sizes : axes) (A O : point) (i j k : Z) (t : list (list nat)) (v : list nat).
Hypothesis G : good_local l.
Hypothesis Hq : in_cubes l i j k.
Hypothesis Ht : In (t, v) cut.
Let nodes := new_nodes l sizes A O.
Let cell := map (map (vn l i j k)) t.
Lemma nodes_rd : forall n, In n v -> rd nodes (vn l i j k n) = Some (vp sizes A O i j k n).
Proof using G Hq Ht.
  intros n Hn. destruct (cut_ok t v Ht) as (_ & _ & _ & B & _). apply (vid_ok l sizes A O _ _ _ G). apply corner_in; [exact Hq|now apply B].
Qed.
Lemma vn_nodup : forall f, NoDup f -> incl f v -> NoDup (map (vn l i j k) f).
Proof using G Hq Ht.
  intros f N I. destruct (cut_ok t v Ht) as (_ & _ & _ & B & _). apply map_nodup; [exact N|]. intros a b Ha Hb. apply vn_inj; auto.
Qed.
Lemma cell_tetra : tetrahedron nodes cell (map (vp sizes A O i j k) v).
Proof using G Hq Ht.
  destruct (cut_ok t v Ht) as (L & Lt & N & B & F & M). exists (map (vn l i j k) v).
  split; [now rewrite map_length|]. split; [apply vn_nodup; [exact N|apply incl_refl]|].
  split; [rewrite !map_map; apply map_ext_in; intros n Hn; now apply nodes_rd|]. split; [unfold cell; now rewrite map_length|]. split.
  - intros f Hf. apply in_map_iff in Hf as (g & <- & Hg). destruct (F g Hg) as (Lg & Ng & Ig). split; [now rewrite map_length|].
    split; [now apply vn_nodup|]. intros x Hx. apply in_map_iff in Hx as (n & <- & Hn). apply in_map. now apply Ig.
  - intros x Hx. apply in_map_iff in Hx as (n & <- & Hn). destruct (M n Hn) as (_ & f & Hf & Nf). exists (map (vn l i j k) f). split; [now apply in_map|].
    intros I. apply in_map_iff in I as (m & E & Hm). apply Nf. replace n with m; [exact Hm|]. destruct (F f Hf) as (_ & _ & If). eapply vn_inj; eauto.
Qed.
Lemma cell_vertices : forall vs, tetrahedron nodes cell vs -> Permutation vs (map (vp sizes A O i j k) v).
Proof using G Hq Ht.
  intros vs (ns & Ln & Nn & E & _ & F & _). destruct (cut_ok t v Ht) as (L & _ & N & B & _ & M).
  assert (P : Permutation (map (vn l i j k) v) ns).
  { apply NoDup_Permutation_bis; [apply vn_nodup; [exact N|apply incl_refl]|rewrite map_length; lia|].
    intros x Hx. apply in_map_iff in Hx as (n & <- & Hn). destruct (M n Hn) as ((f & Hf & In') & _).
    destruct (F (map (vn l i j k) f)) as (_ & _ & I); [now apply in_map|]. apply I. now apply in_map. }
  apply (Permutation_map (rd nodes)) in P. rewrite E in P.
  assert (Q : map (rd nodes) (map (vn l i j k) v) = map Some (map (vp sizes A O i j k) v)) by (rewrite !map_map; apply map_ext_in; intros n Hn; now apply nodes_rd).
  rewrite Q in P. apply Permutation_sym in P. apply Permutation_map_inv in P as (w & Ew & P).
  assert (vs = w); [|subst; now apply Permutation_sym]. clear - Ew. revert w Ew. induction vs as [|a vs IH]; intros [|b w] E; try discriminate; [reflexivity|].
  injection E as -> E. f_equal. now apply IH.
Qed.
End Cell.

(** The part of a process *)
Section Whole.
Variables (size : nat) (sizes : axes) (A O : point).
Hypothesis Hp : proper sizes A O.
Hypothesis Hc : countable sizes.
Hypothesis Hf : all_fit size sizes.
Let P := procs_per_axis size sizes.
Definition crd (rank : nat) (d : nat) : nat := axis d (proc_coords rank P).
Lemma size32 : forall d, d < 3 -> (Z.of_nat (axis d sizes) < 2 ^ 32)%Z.
Proof using Hc Hp.
  intros d Hd. unfold countable in Hc. pose proof (Hp 0 ltac:(lia)). pose proof (Hp 1 ltac:(lia)). pose proof (Hp 2 ltac:(lia)).
  remember (Z.of_nat (axis 0 sizes)) as a. remember (Z.of_nat (axis 1 sizes)) as b. remember (Z.of_nat (axis 2 sizes)) as c.
  assert (1 <= a /\ 1 <= b /\ 1 <= c)%Z by lia. clear - Hc H2 Hd Heqa Heqb Heqc.
  do 3 (destruct d as [|d]; [rewrite <- ?Heqa, <- ?Heqb, <- ?Heqc; nia|]). lia.
Qed.
Lemma local_ok : forall rank d, rank < size -> d < 3 ->
  axis d (lstart (local_of rank size sizes)) = Z.of_nat (lo (axis d sizes) (axis d P) (crd rank d)) /\
  axis d (lend (local_of rank size sizes)) = Z.of_nat (hi (axis d sizes) (axis d P) (crd rank d)) /\
  axis d (lsize (local_of rank size sizes)) = (axis d (lend (local_of rank size sizes)) - axis d (lstart (local_of rank size sizes)))%Z /\
  lo (axis d sizes) (axis d P) (crd rank d) <= hi (axis d sizes) (axis d P) (crd rank d) <= axis d sizes /\ crd rank d < axis d P.
Proof using Hc Hp Hf.
  intros rank d Hr Hd. destruct (coords_ok size sizes rank Hr) as (C0 & C1 & C2 & _). fold P in C0, C1, C2.
  assert (C : crd rank d < axis d P) by (do 3 (destruct d as [|d]; [assumption|]); lia).
  destruct (axis_ok (axis d sizes) (axis d P) (crd rank d) (procs_pos size sizes d ltac:(lia)) C (Hf d Hd) (size32 d Hd)) as (E1 & E2 & E3 & B).
  rewrite <- E1, <- E2 in E3 |- *.
  assert (Q1 : axis d (lstart (local_of rank size sizes)) = local_start (axis d sizes) (axis d P) (crd rank d)) by (do 3 (destruct d as [|d]; [reflexivity|]); lia).
  assert (Q2 : axis d (lend (local_of rank size sizes)) = local_end (axis d sizes) (axis d P) (crd rank d)) by (do 3 (destruct d as [|d]; [reflexivity|]); lia).
  assert (Q3 : axis d (lsize (local_of rank size sizes)) = local_size (axis d sizes) (axis d P) (crd rank d)) by (do 3 (destruct d as [|d]; [reflexivity|]); lia).
  rewrite Q1, Q2, Q3. auto.
Qed.
Lemma good : forall rank, rank < size -> good_local (local_of rank size sizes).
Proof using Hc Hp Hf.
  intros rank Hr. constructor.
  - intros d Hd. destruct (local_ok rank d Hr Hd) as (-> & -> & _ & B & _). lia.
  - intros d Hd. now destruct (local_ok rank d Hr Hd) as (_ & _ & E & _).
  - destruct (local_ok rank 0 Hr ltac:(lia)) as (A0 & B0 & E0 & L0 & _). destruct (local_ok rank 1 Hr ltac:(lia)) as (A1 & B1 & E1 & L1 & _). destruct (local_ok rank 2 Hr ltac:(lia)) as (A2 & B2 & E2 & L2 & _).
    rewrite E0, E1, E2, A0, A1, A2, B0, B1, B2. eapply Z.le_lt_trans; [|exact Hc].
    apply Z.mul_le_mono_nonneg; [nia| |lia|lia]. apply Z.mul_le_mono_nonneg; lia.
Qed.
(** Every cube of the grid belongs to exactly one process. *)
Lemma cube_rank : forall i j k, 1 <= size -> (1 <= i <= Z.of_nat (axis 0 sizes) /\ 1 <= j <= Z.of_nat (axis 1 sizes) /\ 1 <= k <= Z.of_nat (axis 2 sizes))%Z ->
  exists rank, rank < size /\ in_cubes (local_of rank size sizes) i j k.
Proof using Hc Hp Hf.
  intros i j k Hs (Hi & Hj & Hk).
  destruct (axis_cover (axis 0 sizes) (axis 0 P) (Z.to_nat i) (procs_pos size sizes 0 Hs) (Hf 0 ltac:(lia)) ltac:(lia)) as (a & Ha & Ba).
  destruct (axis_cover (axis 1 sizes) (axis 1 P) (Z.to_nat j) (procs_pos size sizes 1 Hs) (Hf 1 ltac:(lia)) ltac:(lia)) as (b & Hb & Bb).
  destruct (axis_cover (axis 2 sizes) (axis 2 P) (Z.to_nat k) (procs_pos size sizes 2 Hs) (Hf 2 ltac:(lia)) ltac:(lia)) as (c & Hcc & Bc).
  destruct (coords_onto size sizes a b c Hs Ha Hb Hcc) as (Hr & E). fold P in Hr, E.
  exists (a + axis 0 P * (b + axis 1 P * c)). split; [exact Hr|]. unfold in_cubes.
  destruct (local_ok _ 0 Hr ltac:(lia)) as (A0 & B0 & _). destruct (local_ok _ 1 Hr ltac:(lia)) as (A1 & B1 & _). destruct (local_ok _ 2 Hr ltac:(lia)) as (A2 & B2 & _).
  rewrite A0, B0, A1, B1, A2, B2. unfold crd. rewrite E. cbn [axis fst snd]. fold (@axis nat 0 sizes) (@axis nat 1 sizes) (@axis nat 2 sizes) (@axis nat 0 P) (@axis nat 1 P) (@axis nat 2 P). lia.
Qed.
Lemma cube_once : forall i j k r r', r < size -> r' < size -> in_cubes (local_of r size sizes) i j k -> in_cubes (local_of r' size sizes) i j k -> r = r'.
Proof using Hc Hp Hf.
  intros i j k r r' Hr Hr' H H'.
  destruct (coords_ok size sizes r Hr) as (C0 & C1 & C2 & E). destruct (coords_ok size sizes r' Hr') as (C0' & C1' & C2' & E'). fold P in C0, C1, C2, E, C0', C1', C2', E'.
  assert (Q : forall d, d < 3 -> crd r d = crd r' d).
  { intros d Hd. destruct (local_ok r d Hr Hd) as (L1 & L2 & _ & _ & L5). destruct (local_ok r' d Hr' Hd) as (L1' & L2' & _ & _ & L5').
    unfold in_cubes in H, H'.
    assert (K : exists x, (axis d (lstart (local_of r size sizes)) < x <= axis d (lend (local_of r size sizes)) /\ axis d (lstart (local_of r' size sizes)) < x <= axis d (lend (local_of r' size sizes)))%Z)
      by (do 3 (destruct d as [|d]; [eexists; split; [apply H|apply H']|]); lia).
    destruct K as (x & K1 & K2). rewrite L1, L2 in K1. rewrite L1', L2' in K2.
    apply (axis_once (axis d sizes) (axis d P) (Z.to_nat x)); [apply procs_pos; lia|exact L5|exact L5'|now apply Hf|lia|lia]. }
  rewrite E, E'. pose proof (Q 0 ltac:(lia)) as Q0. pose proof (Q 1 ltac:(lia)) as Q1. pose proof (Q 2 ltac:(lia)) as Q2. unfold crd in Q0, Q1, Q2. now rewrite Q0, Q1, Q2.
Qed.
Lemma cube_range : forall i j k r, r < size -> in_cubes (local_of r size sizes) i j k ->
  (1 <= i <= Z.of_nat (axis 0 sizes) /\ 1 <= j <= Z.of_nat (axis 1 sizes) /\ 1 <= k <= Z.of_nat (axis 2 sizes))%Z.
Proof using Hc Hp Hf.
  intros i j k r Hr H. unfold in_cubes in H.
  destruct (local_ok r 0 Hr ltac:(lia)) as (A0 & B0 & _ & L0 & _). destruct (local_ok r 1 Hr ltac:(lia)) as (A1 & B1 & _ & L1 & _). destruct (local_ok r 2 Hr ltac:(lia)) as (A2 & B2 & _ & L2 & _).
  rewrite A0, B0, A1, B1, A2, B2 in H. lia.
Qed.
(** The cells of a process are, up to the order of the vertices, those of its cubes. *)
Lemma cell_of_iff : forall rank vs, rank < size ->
  cell_of rank size sizes A O vs <-> exists i j k v, in_cubes (local_of rank size sizes) i j k /\ In v tets /\ Permutation vs (map (vp sizes A O i j k) v).
Proof using Hc Hp Hf.
  intros rank vs Hr. pose proof (good rank Hr) as G. destruct (generate_ok rank size sizes A O G) as (nodes & cells & E & En & _ & C). split.
  - intros (nodes' & cells' & cell & E' & Hcell & T). rewrite E in E'. injection E' as <- <-. apply C in Hcell as (i & j & k & t & Hq & Ht & ->).
    destruct (six_cut t Ht) as (v & Hv). exists i, j, k, v. split; [exact Hq|]. split; [now apply (cut_six t v)|]. rewrite En in T. eapply cell_vertices; eassumption.
  - intros (i & j & k & v & Hq & Hv & Pm).
    assert (K : exists t, In (t, v) cut) by (cbn in Hv; repeat (destruct Hv as [<-|Hv]; [eexists; cbn; tauto|]); destruct Hv).
    destruct K as (t & Ht). exists nodes, cells, (map (map (vn (local_of rank size sizes) i j k)) t). split; [exact E|]. split.
    + apply C. exists i, j, k, t. split; [exact Hq|]. split; [now apply (cut_six t v)|reflexivity].
    + rewrite En. destruct (cell_tetra _ sizes A O i j k t v G Hq Ht) as (ns & Ln & Nn & Em & Lc & F & M).
      apply Permutation_sym, (Permutation_map Some) in Pm. rewrite <- Em in Pm. apply Permutation_sym, Permutation_map_inv in Pm as (ns' & Ens & Pn).
      exists ns'. split; [rewrite <- (Permutation_length Pn); exact Ln|]. split; [eapply Permutation_NoDup; eassumption|]. split; [now symmetry|]. split; [exact Lc|].
      split; [intros f Hf'; destruct (F f Hf') as (F1 & F2 & F3); split; [exact F1|]; split; [exact F2|]; intros x Hx; eapply Permutation_in; [exact Pn|now apply F3]|].
      intros n Hn. apply M. eapply Permutation_in; [apply Permutation_sym; exact Pn|exact Hn].
Qed.
End Whole.
