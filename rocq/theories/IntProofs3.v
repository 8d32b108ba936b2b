(** Dofs of basis functions of composite spaces. *)
From Verif Require Import Prelude RSum GeoModel GeoSpec DenseModel DenseSpec BasModel BasSpec BasProofs2 BasProofs7 BasProofs8 BasProofs9 IntModel IntSpec IntProofs IntProofs2.
From Coq Require Import FunctionalExtensionality.
Local Open Scope R_scope.

Lemma fun2_ext : forall {A B C} (f g : A -> B -> C), (forall a b, f a b = g a b) -> f = g.
Proof. intros A B C f g H. apply functional_extensionality. intros a. apply functional_extensionality. apply H. Qed.
Lemma flat_iwf : forall s, flat s -> iwf s.
Proof.
  induction s as [s|n s IH|l IH|l W IH] using isp_ind'; cbn [flat iwf]; auto; [|contradiction]. rewrite Forall_forall in IH.
  induction l as [|a l IHl]; [auto|]. intros [Ha Hl]. split; [apply IH; [now left|exact Ha]|]. apply IHl; [|exact Hl]. intros s Hs. apply IH. now right.
Qed.
Lemma cdof_zero : forall s Q x i g, iwf s -> (i < infa s)%nat -> (forall X c, (c < idim s)%nat -> g X c = 0) -> cdof s Q x i g = 0.
Proof.
  intros s Q x i g Hw Hi Hg. rewrite (cdof_ext s Q x i g (fun _ _ => 0) Hw Hi Hg). clear g Hg.
  revert i Hi. induction s as [s|n s IH|l IH|l W IH] using isp_ind'; intros i Hi.
  - assert (Z : forall fm, qsum fm (fun _ => 0) = 0) by (intros fm; rewrite qsum_const; ring). cbn [cdof]. destruct s; cbn [dof_value]; trivial; try apply Z.
    + transitivity (qsum (q_tri Q) (fun _ => 0)); [|apply Z]. apply qsum_ext. intros p w _. cbn [Rsum]. ring.
    + destruct (edge_of i). transitivity (qsum (q_seg Q) (fun _ => 0)); [|apply Z]. apply qsum_ext. intros p w _. cbn [Rsum]. ring.
  - cbn [cdof infa iwf] in *. apply IH; [exact Hw|]. apply Nat.mod_upper_bound. destruct (infa s); lia.
  - cbn [infa] in Hi. destruct (part_ex l i Hi) as (v & k & s & _ & Es & Hk & ->). rewrite (cdof_IC l v s) by assumption. rewrite Forall_forall in IH. assert (Hin := nth_error_In' _ _ _ Es). apply IH; [exact Hin|exact (all_of _ _ _ Hw Hin)|exact Hk].
  - rewrite cdof_IU. apply Rsum_zero. intros j Hj. destruct (part_ex l j Hj) as (v & k & s & _ & Es & Hk & ->). rewrite (sub_dof_at l v s) by assumption. rewrite Forall_forall in IH. assert (Hin := nth_error_In' _ _ _ Es).
    destruct Hw as (Hw & _). rewrite (IH s Hin (all_of _ _ _ Hw Hin) k Hk). ring.
Qed.
Lemma ishape_IC : forall l v s k v' s' c x y, nth_error l v = Some s -> (k < infa s)%nat -> nth_error l v' = Some s' -> (c < idim s')%nat ->
  ishape (IC l) x (list_sum (firstn v (map infa l)) + k) (list_sum (firstn v' (map idim l)) + c) y = if (v =? v')%nat then ishape s x k c y else 0.
Proof.
  intros l v s k v' s' c x y Hv Hk Hv' Hc. cbn [ishape].
  assert (H : forall l v v' i d, nth_error l v = Some s -> nth_error l v' = Some s' -> i = (list_sum (firstn v (map infa l)) + k)%nat -> d = (list_sum (firstn v' (map idim l)) + c)%nat ->
    (fix go l i c := match l with [] => 0 | s :: r => if (i <? infa s)%nat then (if (c <? idim s)%nat then ishape s x i c y else 0) else if (c <? idim s)%nat then 0 else go r (i - infa s)%nat (c - idim s)%nat end) l i d
    = if (v =? v')%nat then ishape s x k c y else 0).
  2:{ now apply H. }
  clear l v v' Hv Hv'. induction l as [|a l IH]; intros v v' i d Hv Hv' Hi Hd; [now destruct v|].
  destruct v as [|v], v' as [|v']; cbn [nth_error map firstn Nat.eqb] in Hv, Hv', Hi, Hd |- *; rewrite ?list_sum_nil, ?list_sum_cons in Hi; rewrite ?list_sum_nil, ?list_sum_cons in Hd; try (injection Hv as ->); try (injection Hv' as ->).
  - cbn in Hi, Hd. subst i d. destruct (Nat.ltb_spec k (infa s')); [|lia]. destruct (Nat.ltb_spec c (idim s')); [reflexivity|lia].
  - destruct (Nat.ltb_spec i (infa s)); [|lia]. destruct (Nat.ltb_spec d (idim s)); [lia|reflexivity].
  - destruct (Nat.ltb_spec i (infa s')); [lia|]. destruct (Nat.ltb_spec d (idim s')); [reflexivity|lia].
  - destruct (Nat.ltb_spec i (infa a)); [lia|]. destruct (Nat.ltb_spec d (idim a)); [lia|]. apply IH; trivial; lia.
Qed.
Lemma ishape_IU : forall l W v s k c x y, nth_error l v = Some s -> (k < infa s)%nat -> ishape (IU l W) x (list_sum (firstn v (map infa l)) + k) c y = ishape s x k c y.
Proof.
  intros l W v s k c x y Hv Hk. cbn [ishape].
  assert (H : forall l v i, nth_error l v = Some s -> i = (list_sum (firstn v (map infa l)) + k)%nat ->
    (fix go l i := match l with [] => 0 | s :: r => if (i <? infa s)%nat then ishape s x i c y else go r (i - infa s)%nat end) l i = ishape s x k c y); [|now apply (H l v)].
  clear l v Hv. induction l as [|a l IH]; intros v i Hv Hi; [now destruct v|]. destruct v as [|v]; cbn [nth_error map firstn] in Hv, Hi |- *; rewrite ?list_sum_nil, ?list_sum_cons in Hi.
  - injection Hv as ->. cbn in Hi. subst i. destruct (Nat.ltb_spec k (infa s)); [reflexivity|lia].
  - destruct (Nat.ltb_spec i (infa a)); [lia|]. apply (IH v); [assumption|lia].
Qed.

(** *** Dual bases *)
Section Dual.
Variables (e : R) (Q : quads) (x : tetra).
Hypothesis HQ : quads_ok e Q.
Hypothesis Hx : nondegenerate x.
Lemma e_pos : 0 <= e.
Proof. destruct HQ as ((_ & H & _) & _). exact (near_pos _ _ _ H). Qed.
Lemma base_dual : forall s i j, (i < nfa s)%nat -> (j < nfa s)%nat -> near (4 * e) (dof_value s Q x (fun X c => shape s x j c (of_vec X)) i 0) (delta i j).
Proof.
  intros s i j Hi Hj. set (ud := [repeat 0 (S i)]). assert (Hd : has_dof 1 i ud). { intros r Hr. exists (repeat 0 (S i)). replace r with 0%nat by lia. split; [reflexivity|rewrite repeat_length; lia]. }
  destruct (dual_ok e Q x 1 ud HQ Hx s i j Hi Hj Hd) as (ud1 & v & E1 & H1 & Hn). cbv beta in E1. destruct HQ as ((S1 & _) & (S2 & _) & (S3 & _)).
  destruct (dofs_ok s Q x (vector_fun (fdim s) (shape s x j)) 1 i ud Hx S1 S2 S3 Hi Hd) as (ud2 & E2 & H2). cbv beta in E2. assert (ud2 = ud1) by congruence. subst ud2.
  destruct (entered_rd _ _ _ _ _ 0%nat H1 Hd ltac:(lia)) as (b & Eb & Ev). destruct (entered_rd _ _ _ _ _ 0%nat H2 Hd ltac:(lia)) as (b' & Eb' & Ev'). assert (b' = b) by congruence. subst b'. assert (Ed : dof_value s Q x (vector_fun (fdim s) (shape s x j)) i 0 = v) by congruence.
  rewrite <- Ed in Hn. erewrite dof_value_ext; [exact Hn|]. intros X c Hc. unfold vector_fun. now rewrite Nat.mod_small.
Qed.
Lemma dim_pos : forall s, flat s -> (0 < infa s)%nat -> (0 < idim s)%nat.
Proof.
  induction s as [s|n s IH|l IH|l W IH] using isp_ind'; cbn [flat infa idim]; [| | |contradiction].
  - destruct s; cbn; lia.
  - intros Hf Hp. assert (0 < infa s)%nat by (destruct (infa s); lia). specialize (IH Hf H). nia.
  - intros Hf Hp. destruct (part_ex l 0 Hp) as (v & k & s & _ & Es & Hk & _). rewrite Forall_forall in IH. assert (Hin := nth_error_In' _ _ _ Es). specialize (IH s Hin (all_of _ _ _ Hf Hin) ltac:(lia)). assert (B := part_bound l v s idim Es). lia.
Qed.
Lemma dual_flat : forall s i j, flat s -> (i < infa s)%nat -> (j < infa s)%nat -> near (4 * e) (cdof s Q x i (basis_fun s x j)) (delta i j).
Proof.
  assert (He := e_pos). induction s as [s|n s IH|l IH|l W IH] using isp_ind'; intros i j Hf Hi Hj; cbn [flat] in Hf; [| | |contradiction].
  - now apply base_dual.
  - cbn [infa] in Hi, Hj. assert (Hs : (0 < infa s)%nat) by (destruct (infa s); lia). assert (Hd := dim_pos s Hf Hs). cbn [cdof].
    assert (Mi : (i mod infa s < infa s)%nat) by (apply Nat.mod_upper_bound; lia). assert (Mj : (j mod infa s < infa s)%nat) by (apply Nat.mod_upper_bound; lia).
    assert (Ei : (i = i / infa s * infa s + i mod infa s)%nat) by (rewrite (Nat.div_mod_eq i (infa s)) at 1; lia). assert (Ej : (j = j / infa s * infa s + j mod infa s)%nat) by (rewrite (Nat.div_mod_eq j (infa s)) at 1; lia).
    assert (Ev : forall X c, (c < idim s)%nat -> basis_fun (IV n s) x j X (i / infa s * idim s + c)%nat = if (i / infa s =? j / infa s)%nat then ishape s x (j mod infa s) c (of_vec X) else 0).
    { intros X c Hc. unfold basis_fun. cbn [ishape]. rewrite (Nat.add_comm (i / infa s * idim s) c), Nat.mod_add, Nat.div_add, (Nat.mod_small c), (Nat.div_small c) by lia. reflexivity. }
    destruct (Nat.eqb_spec (i / infa s) (j / infa s)) as [D|D].
    + rewrite (cdof_ext s Q x _ _ (basis_fun s x (j mod infa s)) (flat_iwf _ Hf) Mi Ev). replace (delta i j) with (delta (i mod infa s) (j mod infa s)); [now apply IH|].
      unfold delta. destruct (Nat.eqb_spec (i mod infa s) (j mod infa s)) as [M|M], (Nat.eqb_spec i j) as [M'|M']; trivial; [elim M'; rewrite Ei, Ej; congruence|elim M; congruence].
    + rewrite (cdof_zero s Q x _ _ (flat_iwf _ Hf) Mi Ev). unfold delta. destruct (Nat.eqb_spec i j) as [M|M]; [elim D; congruence|]. apply near_refl. lra.
  - cbn [infa] in Hi, Hj. destruct (part_ex l i Hi) as (v & k & s & _ & Es & Hk & ->). destruct (part_ex l j Hj) as (v' & k' & s' & _ & Es' & Hk' & ->). rewrite (cdof_IC l v s) by assumption.
    rewrite Forall_forall in IH. assert (Hin := nth_error_In' _ _ _ Es). assert (Hfs := all_of _ _ _ Hf Hin).
    assert (Ev : forall X c, (c < idim s)%nat -> basis_fun (IC l) x (list_sum (firstn v' (map infa l)) + k') X (list_sum (firstn v (map idim l)) + c)%nat = if (v' =? v)%nat then ishape s' x k' c (of_vec X) else 0).
    { intros X c Hc. unfold basis_fun. now apply (ishape_IC l v' s' k' v s c). }
    destruct (Nat.eqb_spec v' v) as [->|D].
    + assert (s' = s) by congruence. subst s'. rewrite (cdof_ext s Q x _ _ (basis_fun s x k') (flat_iwf _ Hfs) Hk Ev). replace (delta _ _) with (delta k k'); [now apply IH|].
      unfold delta. destruct (Nat.eqb_spec k k'), (Nat.eqb_spec (list_sum (firstn v (map infa l)) + k) (list_sum (firstn v (map infa l)) + k')); trivial; lia.
    + rewrite (cdof_zero s Q x _ _ (flat_iwf _ Hfs) Hk Ev). unfold delta. destruct (Nat.eqb_spec (list_sum (firstn v (map infa l)) + k) (list_sum (firstn v' (map infa l)) + k')) as [M|M]; [|apply near_refl; lra].
      elim D. symmetry. apply (block_unique (map infa l) v v' (list_sum (firstn v (map infa l)) + k)%nat); rewrite ?map_length, ?(nth_size l v s infa Es), ?(nth_size l v' s' infa Es'); try lia; apply nth_error_Some; congruence.
Qed.
End Dual.

(** *** Spaces built from scalar spaces: the dofs in barycentric coordinates *)
Lemma cdof_bary : forall s Q x x' i g g', flat s -> leaves scalar_space s -> on_simplex 2 (q_tri Q) -> on_simplex 3 (q_tet Q) -> (i < infa s)%nat ->
  (forall w c, Rsum 4 w = 1 -> (c < idim s)%nat -> g (vec_of (comb x w)) c = g' (vec_of (comb x' w)) c) -> cdof s Q x i g = cdof s Q x' i g'.
Proof.
  intros s Q x x' i g g' Hf Hl H2 H3. revert i g g'. induction s as [s|n s IH|l IH|l W IH] using isp_ind'; intros i g g' Hi Hg; cbn [flat leaves] in Hf, Hl; [| | |contradiction].
  - cbn [cdof idim infa] in *. destruct (nodal s) eqn:Hn.
    + assert (Hs := node_sum s i Hn Hi). assert (0 < fdim s)%nat by (destruct s; cbn; lia). destruct s; try discriminate Hn; cbn [dof_value]; now apply Hg.
    + destruct s; try discriminate Hn; try discriminate Hl; cbn [dof_value nfa fdim] in *.
      * apply qsum_ext. intros p w Hp. apply Hg; [|lia]. exact (proj2 (H3 p w Hp)).
      * apply qsum_ext. intros p w Hp. apply Hg; [|lia]. apply facew_sum; [exact Hi|]. exact (proj2 (H2 p w Hp)).
  - cbn [cdof infa idim] in *. assert (Hs : (0 < infa s)%nat) by (destruct (infa s); lia). apply IH; trivial; [apply Nat.mod_upper_bound; lia|]. intros w c Hw Hc. apply Hg; [exact Hw|].
    assert (i / infa s < n)%nat by (apply Nat.div_lt_upper_bound; lia). nia.
  - cbn [infa idim] in *. destruct (part_ex l i Hi) as (v & k & s & _ & Es & Hk & ->). rewrite !(cdof_IC l v s) by assumption. rewrite Forall_forall in IH. assert (Hin := nth_error_In' _ _ _ Es).
    apply IH; [exact Hin|exact (all_of _ _ _ Hf Hin)|exact (all_of _ _ _ Hl Hin)|exact Hk|]. intros w c Hw Hc. apply Hg; [exact Hw|]. assert (B := part_bound l v s idim Es). lia.
Qed.
Lemma ishape_bary : forall s x x' j c w, flat s -> leaves scalar_space s -> nondegenerate x -> nondegenerate x' -> Rsum 4 w = 1 -> (j < infa s)%nat -> (c < idim s)%nat ->
  ishape s x j c (of_vec (vec_of (comb x w))) = ishape s x' j c (of_vec (vec_of (comb x' w))).
Proof.
  intros s x x' j c w Hf Hl Hx Hx' Hw. revert j c. induction s as [s|n s IH|l IH|l W IH] using isp_ind'; intros j c Hj Hc; cbn [flat leaves] in Hf, Hl; [| | |contradiction].
  - cbn [ishape infa] in *. rewrite !sval_comb by assumption. reflexivity.
  - cbn [ishape infa idim] in *. assert (Hs : (0 < infa s)%nat) by (destruct (infa s); lia). assert (Hd : (0 < idim s)%nat) by (destruct (idim s); lia).
    destruct (c / idim s =? j / infa s)%nat; [|reflexivity]. apply IH; trivial; apply Nat.mod_upper_bound; lia.
  - cbn [infa idim] in *. destruct (part_ex l j Hj) as (v & k & s & _ & Es & Hk & ->). destruct (comp_of_ok (map idim l) c Hc) as (v' & k' & _ & Hv' & Hk' & ->). rewrite map_length in Hv'.
    destruct (nth_error l v') as [s'|] eqn:Es'; [|apply nth_error_None in Es'; lia]. rewrite (nth_size l v' s' idim Es') in Hk'. rewrite !(ishape_IC l v s k v' s' k') by assumption. destruct (Nat.eqb_spec v v') as [->|]; [|reflexivity].
    assert (s' = s) by congruence. subst s'. rewrite Forall_forall in IH. assert (Hin := nth_error_In' _ _ _ Es). apply IH; [exact Hin|exact (all_of _ _ _ Hf Hin)|exact (all_of _ _ _ Hl Hin)|exact Hk|exact Hk'].
Qed.
(** dof j of the members for basis function k of the union *)
Definition gram (l : list isp) (Q : quads) (x : tetra) (j k : nat) : R := sub_dof l Q x j (basis_fun (IU l []) x k).
Lemma gram_at : forall l Q x v s k v' s' k', nth_error l v = Some s -> (k < infa s)%nat -> nth_error l v' = Some s' -> (k' < infa s')%nat ->
  gram l Q x (list_sum (firstn v (map infa l)) + k) (list_sum (firstn v' (map infa l)) + k') = cdof s Q x k (basis_fun s' x k').
Proof.
  intros l Q x v s k v' s' k' Hv Hk Hv' Hk'. unfold gram. rewrite (sub_dof_at l v s) by assumption. f_equal. apply fun2_ext. intros X c. unfold basis_fun. now apply (ishape_IU l [] v' s').
Qed.
Lemma gram_element : forall l Q x x' d j k, (forall s, In s l -> flat s /\ leaves scalar_space s /\ idim s = d) -> on_simplex 2 (q_tri Q) -> on_simplex 3 (q_tet Q) -> nondegenerate x -> nondegenerate x' ->
  (j < list_sum (map infa l))%nat -> (k < list_sum (map infa l))%nat -> gram l Q x j k = gram l Q x' j k.
Proof.
  intros l Q x x' d j k Hl H2 H3 Hx Hx' Hj Hk. destruct (part_ex l j Hj) as (v & q & s & _ & Es & Hq & ->). destruct (part_ex l k Hk) as (v' & q' & s' & _ & Es' & Hq' & ->). rewrite !(gram_at l Q _ v s q v' s' q') by assumption.
  destruct (Hl s (nth_error_In' _ _ _ Es)) as (Hf & Hs & Hd). destruct (Hl s' (nth_error_In' _ _ _ Es')) as (Hf' & Hs' & Hd'). apply cdof_bary; trivial. intros w c Hw Hc. unfold basis_fun. apply ishape_bary; trivial. congruence.
Qed.
