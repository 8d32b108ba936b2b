(** C65: setting up enumerators: names of tags, documented orders, chosen base. *)
From Coq Require Import String Permutation.
From Verif Require Import Prelude DofModel DofSpec EnumModel EnumSpec ExtSpec OeModel OeSpec OeProps EnumProofs2 EnumProps MpModel LcModel LcSpec LcProofs LcProofs2.
Open Scope nat_scope.

(** The search for a free prefix ends *)
Theorem C65_prefix_found : forall names num fuel, List.length names < fuel -> exists p num', generate names num fuel = Some (p, num') /\ ~ In p names /\ num < num'.
Proof.
  intros names num fuel Hf. destruct (generate names num fuel) as [[p num']|] eqn:E; [|exfalso; now apply (generate_total names num fuel Hf)].
  exists p, num'. split; [reflexivity|]. apply generate_sound in E as (k & _ & Hk & -> & Hn). split; [exact Hn|lia].
Qed.
Print Assumptions C65_prefix_found.

Definition clean (names : list string) (num : nat) : Prop := forall n, In n names -> generated num n \/ foreign n.
Lemma setup_clean : forall l names num fuel, clean names num -> List.length names < fuel -> exists names' num', setup_names l fuel (names, num) = Some (names', num') /\ clean names' num' /\
  (forall n, In n names -> In n names') /\ List.length names' <= List.length names + 4.
Proof.
  intros l names num fuel Hc Hf. destruct (C65_prefix_found names num fuel Hf) as (p & num' & E & _ & Hlt). pose proof (generate_sound names fuel num p num' E) as (k & -> & Hk & -> & _).
  destruct (create_tags_ok l ("_GenEnum" ++ to_string k) names) as (names' & E' & H).
  { intros d Hd _ Hin. rewrite append_assoc in Hin. destruct (Hc _ Hin) as [(k' & d' & Hk' & Hd' & En)|Hfo]; [|now apply (Hfo k d Hd)]. apply name_inj in En as (-> & _); [lia|assumption..]. }
  exists names', (k + 1). unfold setup_names. cbn [fst snd]. rewrite E. cbn [obind fst snd]. rewrite E'. cbn [obind]. split; [reflexivity|]. split; [|split].
  - intros n Hn. apply H in Hn as [Hn|(d & Hd & _ & ->)].
    + destruct (Hc n Hn) as [(k' & d' & Hk' & Hd' & En)|Hfo]; [left; exists k', d'; repeat split; try assumption; lia|now right].
    + left. exists k, d. rewrite append_assoc. repeat split; [lia|exact Hd].
  - intros n Hn. apply H. now left.
  - clear -E'. unfold create_tags in E'. cbn [fold_left obind] in E'. repeat match type of E' with context [var_mask l ?d] => destruct (var_mask l d); cbn [obind] in E' end;
      repeat match type of E' with context [negb ?b] => destruct (negb b); cbn [guard obind] in E'; try discriminate end; injection E' as <-; cbn [List.length]; lia.
Qed.
(** Enumerators are set up and destroyed in any order in one process: no name clashes, when the mesh starts without generated names *)
Theorem C65_names_partial : forall h names num fuel, (forall n, In n names -> foreign n) -> List.length names + 4 * List.length h < fuel -> exists st, run fuel h (names, num) = Some st.
Proof.
  assert (G : forall h names num fuel, clean names num -> List.length names + 4 * List.length h < fuel -> exists st, run fuel h (names, num) = Some st).
  { induction h as [|e h IH]; intros names num fuel Hc Hf; cbn [run]; [eauto|]. cbn [List.length] in Hf. destruct e as [l|k]; cbn [run_event].
    - destruct (setup_clean l names num fuel Hc ltac:(lia)) as (names' & num' & -> & Hc' & _ & Hl). cbn [obind]. apply IH; [exact Hc'|lia].
    - cbn [obind fst snd]. apply IH; [intros n Hn; apply filter_In in Hn as (Hn & _); auto|]. unfold delete_tags.
      assert (L : forall f (x : list string), List.length (filter f x) <= List.length x) by (intros f x; induction x as [|a x IHx]; cbn; [lia|destruct (f a); cbn; lia]). specialize (L (fun n => negb (existsb (fun d => String.eqb n (("_GenEnum" ++ to_string k) ++ postfix d)) [0; 1; 2; 3])) names). lia. }
  intros h names num fuel Hfo Hf. apply G; [|exact Hf]. intros n Hn. right. now apply Hfo.
Qed.
Print Assumptions C65_names_partial.
(** Setup adds one new tag for every dimension with dofs, destruction removes the tags of this enumerator and no others *)
Theorem C65_tags : forall l names num fuel names' num', setup_names l fuel (names, num) = Some (names', num') ->
  exists k, num <= k < num' /\ (forall d, d < 4 -> 0 < i_nd l d -> ~ In ("_GenEnum" ++ to_string k ++ postfix d)%string names) /\
    forall n, In n names' <-> In n names \/ exists d, d < 4 /\ 0 < i_nd l d /\ n = ("_GenEnum" ++ to_string k ++ postfix d)%string.
Proof.
  intros l names num fuel names' num' E. unfold setup_names in E. cbn [fst snd] in E. destruct (generate names num fuel) as [[p q]|] eqn:Eg; cbn [obind fst snd] in E; [|discriminate].
  apply generate_sound in Eg as (k & -> & Hk & -> & _). destruct (create_tags l ("_GenEnum" ++ to_string k) names) as [nm|] eqn:Ec; cbn [obind] in E; [|discriminate]. injection E as <- <-.
  assert (Hm : forall d, d < 4 -> (var_mask l d = true <-> 0 < i_nd l d)) by (intros d Hd; unfold var_mask; rewrite andb_true_iff, !Nat.ltb_lt; tauto).
  assert (Hf : forall d, d < 4 -> var_mask l d = true -> ~ In (("_GenEnum" ++ to_string k) ++ postfix d)%string names) by (intros d Hd Hv Hin; rewrite (create_tags_fail l _ names d Hd Hv Hin) in Ec; discriminate).
  destruct (create_tags_ok l _ names Hf) as (nm' & Ec' & H). rewrite Ec in Ec'. injection Ec' as <-. exists k. split; [lia|]. split.
  - intros d Hd Hn Hin. apply (Hf d Hd); [now apply Hm|now rewrite append_assoc].
  - intros n. rewrite H. split; (intros [Hn|(d & Hd & Hv & ->)]; [now left|right; exists d; rewrite append_assoc; repeat split; [exact Hd|now apply Hm]]).
Qed.
Print Assumptions C65_tags.
Theorem C65_destroy : forall k names n, In n (delete_tags ("_GenEnum" ++ to_string k)%string names) <-> In n names /\ forall d, d < 4 -> n <> ("_GenEnum" ++ to_string k ++ postfix d)%string.
Proof.
  intros k names n. unfold delete_tags. rewrite filter_In, negb_true_iff. split; intros (A & B); split; try exact A.
  - intros d Hd En. subst n. assert (X : existsb (fun e => String.eqb ("_GenEnum" ++ to_string k ++ postfix d) (("_GenEnum" ++ to_string k) ++ postfix e)) [0; 1; 2; 3] = true); [|congruence].
    apply existsb_exists. exists d. split; [cbn; lia|]. rewrite append_assoc. apply String.eqb_refl.
  - match goal with |- ?b = false => destruct b eqn:E; [|reflexivity] end. apply existsb_exists in E as (d & Hd & E). apply String.eqb_eq in E. rewrite append_assoc in E. exfalso. apply (B d); [cbn in Hd; lia|exact E].
Qed.
Print Assumptions C65_destroy.
Theorem C65_other_enumerators : forall k k' d names, d < 4 -> k <> k' -> In ("_GenEnum" ++ to_string k' ++ postfix d)%string names -> In ("_GenEnum" ++ to_string k' ++ postfix d)%string (delete_tags ("_GenEnum" ++ to_string k)%string names).
Proof. intros k k' d names Hd Hne Hin. apply C65_destroy. split; [exact Hin|]. intros e He E. apply name_inj in E as (-> & _); [congruence|assumption..]. Qed.
Print Assumptions C65_other_enumerators.
(** A mesh loaded with the tags of an earlier process: the prefix is tested, not the names made from it, and setup throws *)
Theorem C65_saved_refuted : forall l names num fuel d, d < 4 -> 0 < i_nd l d -> 0 < fuel -> ~ In ("_GenEnum" ++ to_string num)%string names -> In ("_GenEnum" ++ to_string num ++ postfix d)%string names ->
  setup_names l fuel (names, num) = None.
Proof.
  intros l names num fuel d Hd Hn Hf Hp Hin. destruct fuel as [|f]; [lia|]. unfold setup_names. cbn [fst snd generate]. rewrite (proj2 (have_false _ _) Hp). cbn [obind fst snd]. rewrite (create_tags_fail l _ names d Hd); [reflexivity| |now rewrite append_assoc].
  unfold var_mask. apply andb_true_iff. split; now apply Nat.ltb_lt.
Qed.
Print Assumptions C65_saved_refuted.
Example C65_saved_example : setup_names [Unite [1; 0; 0; 0; 0; 0] None] 5 (["_GenEnum0_n_"%string], 0) = None /\ setup_names [Unite [1; 0; 0; 0; 0; 0] None] 5 (["_GenEnum1_n_"%string], 0) = Some (["_GenEnum0_n_"; "_GenEnum1_n_"]%string, 1).
Proof. split; reflexivity. Qed.
Example C65_foreign_example : foreign "node_coords"%string.
Proof. intros k d _ E. discriminate. Qed.

(** Every documented order is the order of the numbers *)
Theorem C65_documented : forall h h1 t order, documented t = Some order -> set_type h t = Some h1 ->
  exists perm, setup_holder h1 = Some (Holder (Some (Ordered order)) t) /\ set_arrangement order = Some perm /\
  forall l total gids g x g' x' n n', wf (Complex l) -> let r := setup_rank l total gids in owned_dof l r g x -> owned_dof l r g' x' ->
    ordered_index perm false l r g x = Some n -> ordered_index perm false l r g' x' = Some n' ->
    (n < n' <-> lex (dof_key order (g - r_beg r (geom_dim (x_type x))) x) (dof_key order (g' - r_beg r (geom_dim (x_type x'))) x')).
Proof.
  intros h h1 t order Hd Hs. assert (E : h1 = Holder (invoker h) t) by (unfold set_type in Hs; destruct (m_t h); congruence). subst h1.
  assert (HP : Permutation order (seq 0 5)).
  { destruct t; try discriminate; injection Hd as <-; apply NoDup_Permutation; try apply seq_NoDup; try (repeat constructor; cbn; lia); intros x; cbn; lia. }
  destruct (set_arrangement order) as [perm|] eqn:Ea; [|destruct t; try discriminate; injection Hd as <-; vm_compute in Ea; discriminate].
  exists perm. split; [destruct t; try discriminate; injection Hd as <-; reflexivity|]. split; [reflexivity|]. intros l total gids g x g' x' n n' Hw r Hx Hx' E1 E2.
  apply (C19_order order perm false l total gids g x g' x' n n' HP Ea Hw Hx Hx' E1 E2).
Qed.
Print Assumptions C65_documented.
(** ANITYPE: ELEM_TYPE VAR DIM DOF_ID ELEM_ID; unoriented degrees of freedom of an edge or face come before oriented ones *)
Theorem C65_anitype_order : forall l total gids g x g' x' n n', wf (Complex l) -> consecutive gids -> valid_desc l x -> valid_desc l x' ->
  In g (gids (geom_dim (x_type x))) -> In g' (gids (geom_dim (x_type x'))) -> let r := setup_rank l total gids in
  simple_index ANITYPE l r (geom_dim (x_type x)) g x = Some n -> simple_index ANITYPE l r (geom_dim (x_type x')) g' x' = Some n' ->
  (n < n' <-> lex [x_type x; x_var x; x_dim x; x_pos x; g] [x_type x'; x_var x'; x_dim x'; x_pos x'; g']).
Proof.
  intros l total gids g x g' x' n n' Hw Hc Hx Hx' Hg Hg' r E E'. apply (owned_gids l total gids Hc) in Hg; [|now apply (dim_lt4 l)]. apply (owned_gids l total gids Hc) in Hg'; [|now apply (dim_lt4 l)]. fold r in Hg, Hg'.
  change [x_type x; x_var x; x_dim x; x_pos x; g] with (ani_key g x). change [x_type x'; x_var x'; x_dim x'; x_pos x'; g'] with (ani_key g' x'). split.
  - intros Hlt. destruct (lex_total (ani_key g x) (ani_key g' x') eq_refl) as [H|[H|H]]; [exact H| |].
    + pose proof (ani_lt l r g' x' g x n' n Hw Hx' Hx Hg' Hg E' E H). lia.
    + exfalso. unfold ani_key in H. injection H as A B C D G. assert (x = x') by (destruct x, x'; cbn in *; congruence). subst x' g'. rewrite E in E'. injection E' as <-. lia.
  - intros H. exact (ani_lt l r g x g' x' n n' Hw Hx Hx' Hg Hg' E E' H).
Qed.
Print Assumptions C65_anitype_order.
(** The other two kinds select the simple enumerator *)
Theorem C65_simple : forall h h1, (set_type h KAni = Some h1 -> setup_holder h1 = Some (Holder (Some (Simple ANITYPE)) KAni)) /\ (set_type h KMini = Some h1 -> setup_holder h1 = Some (Holder (Some (Simple MINIBLOCKS)) KMini)).
Proof. intros [b t] h1. unfold set_type. cbn [m_t invoker]. split; destruct t; intros E; try discriminate; injection E as <-; reflexivity. Qed.
Print Assumptions C65_simple.
(** A base made by setBaseEnumerator<T>() is the one that is used, however often setup is called *)
Theorem C65_base_partial : forall h b n, Nat.iter (S n) (fun r => do h <- r; setup_holder h) (Some (set_base_new h b)) = Some (set_base_new h b).
Proof. intros h b n. induction n as [|n IH]; [reflexivity|]. cbn [Nat.iter nat_rect] in *. rewrite IH. reflexivity. Qed.
Print Assumptions C65_base_partial.
(** A base given as a pointer or value is replaced by setup, unless the type was set to NOSPECIFIED before *)
Theorem C65_base_refuted : forall h id, m_t h <> KNoSpecified -> exists h', setup_holder (set_base h (User id)) = Some h' /\ invoker h' <> Some (User id).
Proof. intros [b t] id H. cbn [m_t] in H. destruct t; [..|congruence]; eexists; (split; [reflexivity|discriminate]). Qed.
Print Assumptions C65_base_refuted.
(** NOSPECIFIED is accepted, contrary to the message of the exception, and setup of a holder without base then follows a null pointer *)
Theorem C65_nospecified_refuted : forall h, m_t h <> KNoSpecified -> exists h', set_type h KNoSpecified = Some h' /\ (invoker h = None -> setup_holder h' = None).
Proof. intros [b t] H. cbn [m_t] in H. destruct t; [..|congruence]; eexists; (split; [reflexivity|]); cbn [invoker]; intros ->; reflexivity. Qed.
Print Assumptions C65_nospecified_refuted.
(** After setBaseEnumerator<T>() no type can be chosen any more, not even after Clear, and setup after Clear follows a null pointer *)
Theorem C65_locked_refuted : forall h b t, set_type (clear (set_base_new h b)) t = None /\ setup_holder (clear (set_base_new h b)) = None.
Proof. intros h b t. split; reflexivity. Qed.
Print Assumptions C65_locked_refuted.
Example C65_holder_example : match set_type new_holder KByElemType with Some h => setup_holder h = Some (Holder (Some (Ordered [2; 0; 1; 3; 4])) KByElemType) | None => False end.
Proof. reflexivity. Qed.
