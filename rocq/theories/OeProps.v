(** C19: the numbering in the order chosen by the user. *)
From Verif Require Import Prelude DofModel DofSpec EnumModel EnumSpec EnumProofs EnumProofs2 EnumProps ExtSpec OeModel OeSpec OeProofs.
From Verif Require ExtModel ExtProps ExtProofs ExtProofs4.
From Verif Require Import DofProofs.
From Coq Require Import Permutation.

Lemma lex_irr a : ~ lex a a.
Proof. induction a as [|x a IH]; intros H; inversion H; subst; [lia|auto]. Qed.
Lemma lex_asym a : forall b, lex a b -> ~ lex b a.
Proof. induction a as [|x a IH]; intros b H H'; inversion H; subst; inversion H'; subst; try lia. eapply IH; eauto. Qed.
Lemma increasing_nth L : increasing L -> forall i j a b, nth_error L i = Some a -> nth_error L j = Some b -> i < j <-> lex a b.
Proof.
  intros HI. assert (F : forall L, increasing L -> forall i j a b, nth_error L i = Some a -> nth_error L j = Some b -> i < j -> lex a b).
  { clear. induction L as [|x L IH]; intros HI i j a b Hi Hj H; [destruct i; discriminate|]. destruct HI as (H1 & H2). destruct j as [|j]; [lia|]. destruct i as [|i].
    - cbn in Hi, Hj. injection Hi as ->. apply H1. eapply nth_error_In; eauto.
    - cbn in Hi, Hj. apply (IH H2 i j); auto. lia. }
  intros i j a b Hi Hj. split; [apply (F L); auto|]. intros Hx. destruct (Nat.lt_trichotomy i j) as [C|[C|C]]; [auto| |].
  - exfalso. subst j. assert (a = b) by congruence. subst. exact (lex_irr _ Hx).
  - exfalso. exact (lex_asym _ _ Hx (F L HI j i b a Hj Hi C)).
Qed.
Lemma increasing_inj L : increasing L -> forall i j a, nth_error L i = Some a -> nth_error L j = Some a -> i = j.
Proof. intros HI i j a Hi Hj. pose proof (increasing_nth L HI i j a a Hi Hj). pose proof (increasing_nth L HI j i a a Hj Hi). pose proof (lex_irr a). destruct (Nat.lt_trichotomy i j) as [C|[C|C]]; tauto. Qed.

Section C19.
Variables (order perm : list nat).
Hypothesis HP : Permutation order (seq 0 5).
Hypothesis Hperm : set_arrangement order = Some perm.
Variables (l : list dmap) (total : nat -> nat) (gids : nat -> list nat).
Hypothesis Hw : wf (Complex l).
Let r := setup_rank l total gids.

Lemma facts : exists n m, arr_facts order perm n m /\ length order = 5.
Proof. destruct (arr_ok order HP) as (p & n & m & E & F). exists n, m. split; [congruence|]. rewrite (Permutation_length HP). reflexivity. Qed.
Lemma end_len : r_endind r = r_begind r + list_sum (map (fun d => i_nd l d * r_num r d) (seq 0 4)).
Proof. unfold r. rewrite <- init_4. reflexivity. Qed.
End C19.

(** Every owned dof has a number, in the interval of the process *)
Theorem C19_in_range : forall order perm rv l total gids g x, Permutation order (seq 0 5) -> set_arrangement order = Some perm -> wf (Complex l) ->
  let r := setup_rank l total gids in owned_dof l r g x ->
  exists n, ordered_index perm rv l r g x = Some n /\ r_begind r <= n < r_endind r.
Proof.
  intros order perm rv l total gids g x HP Hperm Hw r Hx. destruct (facts order perm HP Hperm) as (n & m & HF & Hl).
  destruct (oe_setup order perm n m HF l r Hw (ex_intro _ x (proj1 Hx))) as (L & E & HL & HE & Hs & HFw & HR).
  destruct (index_ok order perm n m HF l r Hw rv L E g x Hl HL HE Hs HFw Hx) as (i & Hi & Ei). eexists. split; [exact Ei|].
  unfold r. rewrite end_len. fold r. rewrite <- (listing_len order perm n m HF l r Hw L HL). assert (i < length L) by (apply nth_error_Some; congruence). unfold flip. destruct rv; lia.
Qed.
Print Assumptions C19_in_range.
(** Different owned dofs have different numbers *)
Theorem C19_injective : forall order perm rv l total gids g x g' x' n, Permutation order (seq 0 5) -> set_arrangement order = Some perm -> wf (Complex l) ->
  let r := setup_rank l total gids in owned_dof l r g x -> owned_dof l r g' x' ->
  ordered_index perm rv l r g x = Some n -> ordered_index perm rv l r g' x' = Some n -> g = g' /\ x = x'.
Proof.
  intros order perm rv l total gids g x g' x' k HP Hperm Hw r Hx Hx' H1 H2. destruct (facts order perm HP Hperm) as (n & m & HF & Hl).
  destruct (oe_setup order perm n m HF l r Hw (ex_intro _ x (proj1 Hx))) as (L & E & HL & HE & Hs & HFw & HR).
  destruct (index_ok order perm n m HF l r Hw rv L E g x Hl HL HE Hs HFw Hx) as (i & Hi & Ei). destruct (index_ok order perm n m HF l r Hw rv L E g' x' Hl HL HE Hs HFw Hx') as (i' & Hi' & Ei').
  rewrite H1 in Ei. rewrite H2 in Ei'. apply Some_inj in Ei, Ei'. assert (i < length L) by (apply nth_error_Some; congruence). assert (i' < length L) by (apply nth_error_Some; congruence).
  assert (i = i') by (unfold flip in *; destruct rv; lia). subst i'. rewrite Hi in Hi'. apply Some_inj in Hi' as Hk. apply (key_inj order perm n m HF) in Hk as (Ho & ->). split; [|auto].
  destruct Hx as (_ & _ & Hg). destruct Hx' as (_ & _ & Hg'). lia.
Qed.
Print Assumptions C19_injective.
(** Every number of the interval belongs to an owned dof *)
Theorem C19_surjective : forall order perm rv l total gids n, Permutation order (seq 0 5) -> set_arrangement order = Some perm -> wf (Complex l) ->
  let r := setup_rank l total gids in r_begind r <= n < r_endind r ->
  exists g x, owned_dof l r g x /\ ordered_index perm rv l r g x = Some n.
Proof.
  intros order perm rv l total gids k HP Hperm Hw r Hk. destruct (facts order perm HP Hperm) as (n & m & HF & Hl).
  destruct (any_onto l r k Hw) as (g0 & x0 & Hx0 & _). { rewrite init_0. unfold r. rewrite init_4. exact Hk. }
  destruct (oe_setup order perm n m HF l r Hw (ex_intro _ x0 Hx0)) as (L & E & HL & HE & Hs & HFw & HR).
  assert (Hlen : r_endind r = r_begind r + length L) by (unfold r; rewrite end_len; fold r; rewrite (listing_len order perm n m HF l r Hw L HL); reflexivity).
  destruct (inverse_ok order perm n m HF l r Hw false rv L E k HL HE Hs HR ltac:(discriminate) ltac:(lia)) as (g & x & Hx & Hj & _). exists g, x. split; [auto|].
  destruct (index_ok order perm n m HF l r Hw rv L E g x Hl HL HE Hs HFw Hx) as (i & Hi & Ei). rewrite Ei. f_equal.
  assert (i = flip rv (length L) (k - r_begind r)) by (eapply increasing_inj; [apply HL|exact Hi|exact Hj]). unfold flip in *. destruct rv; lia.
Qed.
Print Assumptions C19_surjective.
(** The numbers follow the chosen order of the attributes, or the opposite order after setReverse *)
Theorem C19_order : forall order perm rv l total gids g x g' x' n n', Permutation order (seq 0 5) -> set_arrangement order = Some perm -> wf (Complex l) ->
  let r := setup_rank l total gids in owned_dof l r g x -> owned_dof l r g' x' ->
  ordered_index perm rv l r g x = Some n -> ordered_index perm rv l r g' x' = Some n' ->
  let k := dof_key order (g - r_beg r (geom_dim (x_type x))) x in let k' := dof_key order (g' - r_beg r (geom_dim (x_type x'))) x' in
  n < n' <-> if rv then lex k' k else lex k k'.
Proof.
  intros order perm rv l total gids g x g' x' k k' HP Hperm Hw r Hx Hx' H1 H2. destruct (facts order perm HP Hperm) as (n & m & HF & Hl). cbv zeta.
  destruct (oe_setup order perm n m HF l r Hw (ex_intro _ x (proj1 Hx))) as (L & E & HL & HE & Hs & HFw & HR).
  destruct (index_ok order perm n m HF l r Hw rv L E g x Hl HL HE Hs HFw Hx) as (i & Hi & Ei). destruct (index_ok order perm n m HF l r Hw rv L E g' x' Hl HL HE Hs HFw Hx') as (i' & Hi' & Ei').
  rewrite H1 in Ei. rewrite H2 in Ei'. apply Some_inj in Ei, Ei'. assert (i < length L) by (apply nth_error_Some; congruence). assert (i' < length L) by (apply nth_error_Some; congruence).
  unfold flip in *. destruct rv.
  - rewrite <- (increasing_nth L (proj1 HL) i' i _ _ Hi' Hi). lia.
  - rewrite <- (increasing_nth L (proj1 HL) i i' _ _ Hi Hi'). lia.
Qed.
Print Assumptions C19_order.
(** The inverse query undoes the numbering; with the assert of the code compiled in, the first number of the process is missing *)
Theorem C19_inverse_partial : forall chk order perm rv l total gids g x n, Permutation order (seq 0 5) -> set_arrangement order = Some perm -> wf (Complex l) ->
  let r := setup_rank l total gids in owned_dof l r g x -> ordered_index perm rv l r g x = Some n -> (chk = true -> n <> r_begind r) ->
  ordered_inverse chk perm rv l r n = Some (geom_dim (x_type x), g, x).
Proof.
  intros chk order perm rv l total gids g x k HP Hperm Hw r Hx H1 Hc. destruct (C19_in_range order perm rv l total gids g x HP Hperm Hw Hx) as (k1 & H1' & Hk). fold r in H1', Hk. rewrite H1 in H1'. apply Some_inj in H1'. subst k1.
  destruct (facts order perm HP Hperm) as (n & m & HF & Hl).
  destruct (oe_setup order perm n m HF l r Hw (ex_intro _ x (proj1 Hx))) as (L & E & HL & HE & Hs & HFw & HR).
  assert (Hlen : r_endind r = r_begind r + length L) by (unfold r; rewrite end_len; fold r; rewrite (listing_len order perm n m HF l r Hw L HL); reflexivity).
  destruct (index_ok order perm n m HF l r Hw rv L E g x Hl HL HE Hs HFw Hx) as (i & Hi & Ei). rewrite H1 in Ei. apply Some_inj in Ei. assert (Hi' : i < length L) by (apply nth_error_Some; congruence).
  destruct (inverse_ok order perm n m HF l r Hw chk rv L E k HL HE Hs HR) as (g' & x' & Hx' & Hj & EI); [intros C; specialize (Hc C); lia|lia|]. rewrite EI.
  assert (Hij : flip rv (length L) (k - r_begind r) = i) by (unfold flip in *; destruct rv; lia). rewrite Hij, Hi in Hj. apply Some_inj in Hj as Hk'. apply (key_inj order perm n m HF) in Hk' as (Ho & <-).
  destruct Hx as (_ & _ & Hg). destruct Hx' as (_ & _ & Hg'). assert (g = g') by lia. subst. reflexivity.
Qed.
Print Assumptions C19_inverse_partial.
(** The assert refuses the first number of every process: operator()(EnumerateIndex) fails for an owned dof *)
Theorem C19_first_refuted : forall order perm rv l total gids, Permutation order (seq 0 5) -> set_arrangement order = Some perm -> wf (Complex l) ->
  let r := setup_rank l total gids in r_begind r < r_endind r ->
  exists g x, owned_dof l r g x /\ ordered_index perm rv l r g x = Some (r_begind r) /\ ordered_inverse true perm rv l r (r_begind r) = None.
Proof.
  intros order perm rv l total gids HP Hperm Hw r Hk. destruct (C19_surjective order perm rv l total gids (r_begind r) HP Hperm Hw ltac:(fold r; lia)) as (g & x & Hx & H). fold r in Hx, H. exists g, x. split; [auto|]. split; [auto|].
  unfold ordered_inverse. destruct (loc_emap perm l r); [|reflexivity]. cbn [obind]. destruct (insert_pos perm); [|reflexivity]. cbn [obind]. destruct (depends_on perm); [|reflexivity]. cbn [obind].
  unfold guard. rewrite Nat.ltb_irrefl. reflexivity.
Qed.
Print Assumptions C19_first_refuted.
(** The numbers stored in the tag by setup, without oriented dofs; with them setup fails (see C17_setup_oriented_refuted) *)
Theorem C19_tag_partial : forall order perm rv l total gids g x, Permutation order (seq 0 5) -> set_arrangement order = Some perm -> wf (Complex l) -> no_oriented l ->
  let r := setup_rank l total gids in owned_dof l r g x ->
  ordered_order perm rv l r g x = ordered_index perm rv l r g x /\ ordered_order perm rv l r g x <> None.
Proof.
  intros order perm rv l total gids g x HP Hperm Hw Hno r Hx. set (d := geom_dim (x_type x)). pose proof Hx as (Hv & Hd & Hg). fold d in Hd, Hg.
  set (val := fun k => match nth_error (descs l d) k with Some y => match ordered_index perm rv l r g y with Some n => n | None => 0 end | None => 0 end).
  assert (Hk : forall k, k < i_nd l d -> exists y, nth_error (descs l d) k = Some y).
  { intros k H. destruct (nth_error (descs l d) k) as [y|] eqn:E; [eauto|]. apply nth_error_None in E. rewrite length_descs in E by assumption. lia. }
  assert (Hrow : ordered_row perm rv l r d g = Some (map val (seq 0 (i_nd l d)))).
  { unfold ordered_row. apply all_some_spec. rewrite map_map. apply map_ext_in. intros k H. apply in_seq in H. destruct (Hk k ltac:(lia)) as [y Ey].
    destruct (descs_nth l d k y Hw Hd Ey) as (Hy & Hgd & El).
    rewrite (full_index_desc l d k y) by (try assumption; intros Hor; rewrite (no_oriented_desc l y) in Hor by assumption; discriminate).
    cbn [obind ext_of e_desc]. unfold val. rewrite Ey. destruct (C19_in_range order perm rv l total gids g y HP Hperm Hw) as (n & En & _); [split; [auto|]; fold r; rewrite Hgd; split; auto|]. fold r in En. rewrite En. reflexivity. }
  destruct (C19_in_range order perm rv l total gids g x HP Hperm Hw Hx) as (n & En & _). fold r in En. unfold ordered_order. fold d. rewrite Hrow. cbn [obind]. rewrite full_desc_ok by assumption. cbn [obind].
  rewrite elem_id_tpos. fold (local_id l x). unfold rd. rewrite nth_error_map_seq by (now apply local_lt). unfold val, d. rewrite descs_at by assumption. rewrite En. split; [reflexivity|discriminate].
Qed.
Print Assumptions C19_tag_partial.

(** Two variables, one of them a vector; five nodes, three edges, two cells; element numbers in front of the types *)
Definition ex_vars : list dmap := [Vector 2 (Unite [1; 1; 0; 0; 0; 0] None); Unite [0; 0; 0; 0; 0; 1] None].
Definition ex_gids (d : nat) : list nat := match d with 0 => [4; 3; 5; 6; 7] | 1 => [0; 1; 2] | 3 => [9; 8] | _ => [] end.
Definition ex_rank : rank := setup_rank ex_vars (fun _ => 20) ex_gids.
Example C19_ex : exists perm, set_arrangement [3; 1; 2; 0; 4] = Some perm /\ owned_dof ex_vars ex_rank 5 (Desc 0 0 1 0) /\ r_begind ex_rank = 14 /\ r_endind ex_rank = 32 /\
  map (fun p => ordered_index perm false ex_vars ex_rank (fst p) (snd p)) [(3, Desc 0 0 0 0); (0, Desc 1 0 0 0); (8, Desc 5 1 0 0); (3, Desc 0 0 1 0); (5, Desc 0 0 1 0); (7, Desc 0 0 1 0)] = map Some [14; 15; 16; 17; 26; 31] /\
  map (ordered_inverse true perm false ex_vars ex_rank) [14; 15; 31; 32] = [None; Some (1, 0, Desc 1 0 0 0); Some (0, 7, Desc 0 0 1 0); None] /\
  ordered_index perm true ex_vars ex_rank 3 (Desc 0 0 0 0) = Some 31.
Proof.
  eexists. split; [reflexivity|]. split; [|vm_compute; auto 8]. split; [split; [cbn; lia|]; eexists; split; [reflexivity|cbn; lia]|]. split; vm_compute; lia.
Qed.
