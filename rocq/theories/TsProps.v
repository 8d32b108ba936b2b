(** C67: the order of the vertices is left out only when it has no influence. *)
From Coq Require Import NArith Reals.
From Verif Require Import Prelude DofModel DofSpec DofProofs SymModel SymSpec SymProofs SymProps OrdModel OrdProofs2 SparsityModel SparsitySpec GeomIterSpec GdModel GdSpec GdProofs TsModel TsSpec TsProofs.

(** Vertex order left out: all dofs are at the centres of their entities, without orientation. *)
Theorem C67_left_out : forall d, wf d -> comp_node_perm d = false -> forall x, In x (layout d) -> order_free x.
Proof. exact free_dof. Qed.
Print Assumptions C67_left_out.
(** Then the place and the sign of every dof are the same for all orders. *)
Theorem C67_locus : forall d i lo p q, wf d -> comp_node_perm d = false -> local_order d i = Some lo ->
  locus_index d lo p = locus_index d lo q /\ locus_index d lo p <> None /\
  locus_sign (lo_type lo) (lo_elem lo) p = Some 1%Z.
Proof.
  intros d i lo p q Hwf H E. destruct (free_locus d i lo p Hwf H E) as [P1 P2]. destruct (free_locus d i lo q Hwf H E) as [Q1 _].
  split; [congruence|]. split; [congruence|exact P2].
Qed.
Print Assumptions C67_locus.
(** The index table of a cell and the gathered values are those of the true order. *)
Theorem C67_table : forall (A : Type) d g p q (numb : LocalOrder -> A), wf d -> order_permutation g = Some p -> canonical_indexes d g = Some q ->
  asm_table d q numb = asm_table d p numb.
Proof.
  intros A d g p q numb Hwf Ep Eq. unfold canonical_indexes in Eq. destruct (comp_node_perm d) eqn:H; [congruence|]. now apply free_table.
Qed.
Print Assumptions C67_table.
Theorem C67_gather_partial : forall avail data d path g p q off out v, wf d -> nested_view d path = Some v -> geom_safe (v_base v) ->
  order_permutation g = Some p -> canonical_indexes d g = Some q ->
  gather avail data d path q off out = gather avail data d path p off out.
Proof.
  intros avail data d path g p q off out v Hwf Ev Hg Ep Eq. unfold canonical_indexes in Eq. destruct (comp_node_perm d) eqn:H; [congruence|]. now apply free_gather with v.
Qed.
Print Assumptions C67_gather_partial.
(** The order is computed whenever there is a dof that depends on it. *)
Theorem C67_computed : forall d g x, wf d -> In x (layout d) -> ~ order_free x -> canonical_indexes d g = order_permutation g.
Proof.
  intros d g x Hwf Hx Hn. unfold canonical_indexes. destruct (comp_node_perm d) eqn:H; [reflexivity|]. destruct Hn. now apply (free_dof d).
Qed.
Print Assumptions C67_computed.
(** It is computed only if some dof is not at a centre or is oriented, for maps with symmetry tables. *)
Theorem C67_needed : forall d, wf d -> tabled d -> comp_node_perm d = true -> exists x, In x (layout d) /\ ~ order_free x.
Proof.
  intros d Hwf Htab H. unfold comp_node_perm in H. apply orb_true_iff in H as [H|H].
  - apply negb_true_iff in H. unfold trivially_symmetric in H. apply not_true_iff_false in H. rewrite forallb_forall in H.
    assert (Hex : exists t, t < 6 /\ 0 < num_dof d t /\ (sym_components d t = mask_undef \/ N.shiftr (sym_components d t) 1 <> 0%N)).
    { assert (G : forall l, ~ (forall x, In x l -> (if 0 <? num_dof d x then let m := sym_components d x in negb ((m =? mask_undef)%N || negb (N.shiftr m 1 =? 0)%N) else true) = true) ->
        exists t, In t l /\ 0 < num_dof d t /\ (sym_components d t = mask_undef \/ N.shiftr (sym_components d t) 1 <> 0%N)).
      { induction l as [|y l IH]; intros Hl; [destruct Hl; intros x []|]. cbv zeta in Hl.
        destruct (Nat.ltb_spec 0 (num_dof d y)) as [Hy|Hy].
        - destruct (N.eqb_spec (sym_components d y) mask_undef) as [E|E]; [exists y; split; [now left|]; auto|].
          destruct (N.eqb_spec (N.shiftr (sym_components d y) 1) 0) as [E'|E']; [|exists y; split; [now left|]; auto].
          destruct IH as (t & Ht & Q); [|exists t; split; [now right|exact Q]]. intros Q. apply Hl. intros x [<-|Hx]; [|now apply Q].
          apply Nat.ltb_lt in Hy. rewrite Hy. apply N.eqb_neq in E. rewrite E. apply N.eqb_eq in E'. now rewrite E'.
        - destruct IH as (t & Ht & Q); [|exists t; split; [now right|exact Q]]. intros Q. apply Hl. intros x [<-|Hx]; [|now apply Q].
          apply Nat.ltb_ge in Hy. now rewrite Hy. }
      destruct (G (seq 0 ngeom) H) as (t & Ht & Q). exists t. split; [apply in_seq in Ht; unfold ngeom in Ht; lia|exact Q]. }
    destruct Hex as (t & Ht & _ & Hm).
    assert (Hc : exists c, N.testbit (sym_components d t) (N.of_nat (S c)) = true).
    { destruct Hm as [->|Hm]; [exists 4; reflexivity|]. apply N.bit_log2 in Hm. rewrite N.shiftr_spec' in Hm. exists (N.to_nat (N.log2 (N.shiftr (sym_components d t) 1))).
      replace (N.of_nat (S (N.to_nat (N.log2 (N.shiftr (sym_components d t) 1))))) with (N.log2 (N.shiftr (sym_components d t) 1) + 1)%N by lia. exact Hm. }
    destruct Hc as [c Hc]. destruct (bit_dof d t (S c) Hwf Htab Ht Hc) as (x & l & Hx & _ & Es). exists x. split; [exact Hx|]. intros [Q _]. congruence.
  - assert (Hex : exists t, (t = 2 \/ t = 4) /\ 0 < num_dof d t).
    { apply orb_true_iff in H as [H|H]; apply Nat.ltb_lt in H; [exists 2|exists 4]; auto. }
    destruct Hex as (t & Ht & Hn). rewrite num_dof_cnt in Hn by (assumption || lia).
    assert (Hin : In (t, 0, 0) (loci d)) by (apply in_loci; destruct Ht as [-> | ->]; cbn; lia).
    apply in_map_iff in Hin as (x & E & Hx). exists x. split; [exact Hx|]. unfold locus in E. injection E as E1 _ _. intros (_ & Q1 & Q2). destruct Ht; congruence.
Qed.
Print Assumptions C67_needed.
(** P2 x P2 x P2 x P1 needs no order, P3 and the lowest Nedelec space do; a component without a
    table asks for it too. *)
Definition P1s : dmap := unite_of_sym [1; 0; 0; 0; 0; 0; 0; 0; 0; 0; 0; 0; 0; 0; 0; 0].
Definition P2s : dmap := unite_of_sym [1; 1; 0; 0; 0; 0; 0; 0; 0; 0; 0; 0; 0; 0; 0; 0].
Definition P3s : dmap := unite_of_sym [1; 0; 1; 0; 0; 1; 0; 0; 0; 0; 0; 0; 0; 0; 0; 0].
Definition Neds : dmap := unite_of_sym [0; 0; 0; 1; 0; 0; 0; 0; 0; 0; 0; 0; 0; 0; 0; 0].
Example C67_ex : let d := Complex [Vector 3 P2s; P1s] in let g := [40; 10; 30; 20]%Z in
  wf d /\ geom_safe d /\ tabled d /\ comp_node_perm d = false /\ canonical_indexes d g = Some [0; 1; 2; 3] /\ order_permutation g = Some [3; 0; 2; 1] /\
  tabled (Vector 2 P3s) /\ comp_node_perm (Vector 2 P3s) = true /\ canonical_indexes (Complex [P1s; Neds]) g = Some [3; 0; 2; 1] /\
  comp_node_perm (Complex [P1s; Unite [1; 0; 0; 0; 0; 0] None]) = true.
Proof. repeat split; try (cbn; lia); try discriminate; try reflexivity; cbn; auto. Qed.
