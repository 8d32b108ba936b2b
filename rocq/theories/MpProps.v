(** C64: from an unknown back to the element of the process. *)
From Coq Require Import Permutation Sorting.Sorted.
From Verif Require Import Prelude DofModel DofSpec EnumModel EnumSpec EnumProofs EnumProofs2 EnumProps OeModel OeSpec OeProps GwModel CpModel MpModel MpSpec MpProofs MpProofs2.
From Verif Require IenModel IenSpec IenProps.
Open Scope nat_scope.

(** When a map is missing or the update is forced, the maps of all requested dimensions lead to the elements, other maps are kept *)
Theorem C64_maps : forall w et forced junk s, unique_ids w ->
  forced = true \/ (exists d, d < 4 /\ et d = true /\ back s d = None) ->
  exists s', create_maps w et forced junk s = Some s' /\ (forall d, d < 4 -> et d = true -> leads w s' d) /\ (forall d, et d = false -> back s' d = back s d).
Proof.
  intros w et forced junk s Hu Hf. destruct (create_new w et forced junk s Hu) as (s' & E & _ & H & K).
  - destruct Hf as [Hf|(d & Hd & He & Hb)]; [now left|right]. intros C. destruct (C d Hd He) as (C' & _). contradiction.
  - exists s'. split; [exact E|]. split; [intros d Hd He; apply H; assumption|intros d He; now apply K].
Qed.
Print Assumptions C64_maps.
(** Any enumerators set up one after another on a mesh that does not change *)
Theorem C64_same_mesh : forall w ls junk, unique_ids w ->
  exists s, each ls (fun l s => setup_maps l w junk s) no_maps = Some s /\ forall l d, In l ls -> d < 4 -> 0 < i_nd l d -> leads w s d.
Proof.
  intros w ls junk Hu.
  assert (G : forall ls s, (forall d, d < 4 -> back s d <> None -> leads w s d) -> exists s', each ls (fun l s => setup_maps l w junk s) s = Some s' /\
    (forall d, d < 4 -> back s' d <> None -> leads w s' d) /\ (forall d, back s d <> None -> back s' d <> None) /\ forall l d, In l ls -> d < 4 -> 0 < i_nd l d -> back s' d <> None).
  { clear ls. induction ls as [|l ls IH]; intros s Hs; cbn [each].
    - exists s. split; [reflexivity|]. split; [exact Hs|]. split; [auto|intros l d []].
    - assert (X : exists s1, setup_maps l w junk s = Some s1 /\ (forall d, d < 4 -> back s1 d <> None -> leads w s1 d) /\ (forall d, back s d <> None -> back s1 d <> None) /\ forall d, d < 4 -> 0 < i_nd l d -> back s1 d <> None).
      { assert (Hm : forall d, d < 4 -> 0 < i_nd l d -> var_mask l d = true) by (intros d A B; unfold var_mask; apply andb_true_iff; split; apply Nat.ltb_lt; assumption).
        unfold setup_maps. destruct (existsb (fun d => var_mask l d && match back s d, cont s d with Some _, Some _ => false | _, _ => true end) [0; 1; 2; 3]) eqn:Ex.
        - apply existsb_exists in Ex as (d0 & Hd0 & Ex). apply andb_true_iff in Ex as (He0 & Ex). destruct (create_new w (var_mask l) false junk s Hu) as (s1 & E & C & L & K).
          { right. intros C. destruct (C d0 ltac:(cbn in Hd0; lia) He0) as (A & B). destruct (back s d0), (cont s d0); congruence. }
          exists s1. split; [exact E|]. split; [|split].
          + intros d Hd Hb. destruct (var_mask l d) eqn:Em; [apply L; assumption|]. destruct (K d Em) as (Eb & _). rewrite Eb in Hb. intros b i Hf Hi. unfold element. rewrite Eb. exact (Hs d Hd Hb b i Hf Hi).
          + intros d Hb. destruct (var_mask l d) eqn:Em; [apply C; [|exact Em]|destruct (K d Em) as (-> & _); exact Hb]. unfold var_mask in Em. apply andb_true_iff in Em as (Em & _). now apply Nat.ltb_lt.
          + intros d Hd Hn. apply C; auto.
        - assert (C : complete (var_mask l) s).
          { intros d Hd He. assert (Y : var_mask l d && match back s d, cont s d with Some _, Some _ => false | _, _ => true end = false).
            { match goal with |- ?b = false => destruct b eqn:Y; [|reflexivity] end. rewrite <- Ex. symmetry. apply existsb_exists. exists d. split; [cbn; lia|exact Y]. }
            rewrite He in Y. cbn [andb] in Y. destruct (back s d), (cont s d); try discriminate. split; discriminate. }
          exists s. split; [now apply create_old|]. split; [exact Hs|]. split; [auto|]. intros d Hd Hn. apply C; auto. }
      destruct X as (s1 & E1 & H1 & K1 & N1). rewrite E1. cbn [obind]. destruct (IH s1 H1) as (s' & E & H & K & N). exists s'. split; [exact E|]. split; [exact H|]. split; [auto|]. intros l' d [<-|Hin] Hd Hn; [apply K, N1; assumption|eapply N; eassumption]. }
  destruct (G ls no_maps) as (s & E & H & _ & N); [intros d _ Hb; exfalso; now apply Hb|]. exists s. split; [exact E|]. intros l d Hin Hd Hn. apply H; [exact Hd|]. eapply N; eassumption.
Qed.
Print Assumptions C64_same_mesh.

(** The unknown of a dof leads back to its element and description, for both kinds of enumerators; missing as in C17 and C19 *)
Definition of_rank (l : list dmap) (w : world) : rank := setup_rank l (w_total w) (gids w).
Theorem C64_unknown_anitype_partial : forall l w s i x n, wf (Complex l) -> consecutive (gids w) -> valid_desc l x ->
  let d := geom_dim (x_type x) in let r := of_rank l w in
  owns w d i -> leads w s d ->
  (is_oriented (x_type x) = true -> exists y, valid_desc l y /\ x_type y = x_type x /\ nth_error (descs l d) (cnt (Complex l) (x_type x - 1)) = Some y /\ y <> x) ->
  simple_index ANITYPE l r d (w_gid w d i) x = Some n ->
  exists g, simple_inverse ANITYPE l r n = Some (d, g, x) /\ element s d (g - r_beg r d) = Some i.
Proof.
  intros l w s i x n Hw Hc Hx d r Hi HL Ho E. exists (w_gid w d i). split.
  - apply (C17_anitype_inverse_partial l (w_total w) (gids w)); try assumption. apply gids_in. eauto.
  - change (r_beg r d) with (beg_id w d). apply HL; [now apply (beg_first w d i)|exact Hi].
Qed.
Print Assumptions C64_unknown_anitype_partial.
Theorem C64_unknown_ordered_partial : forall chk order perm rv l w s i x n, Permutation order (seq 0 5) -> set_arrangement order = Some perm -> wf (Complex l) -> consecutive (gids w) -> valid_desc l x ->
  let d := geom_dim (x_type x) in let r := of_rank l w in
  owns w d i -> leads w s d -> ordered_index perm rv l r (w_gid w d i) x = Some n -> (chk = true -> n <> r_begind r) ->
  exists g, ordered_inverse chk perm rv l r n = Some (d, g, x) /\ element s d (g - r_beg r d) = Some i.
Proof.
  intros chk order perm rv l w s i x n HP Hperm Hw Hc Hx d r Hi HL E Hk. exists (w_gid w d i). split.
  - apply (C19_inverse_partial chk order perm rv l (w_total w) (gids w) (w_gid w d i) x n HP Hperm Hw); [|exact E|exact Hk].
    assert (Ho : owned r d (w_gid w d i)) by (apply (owned_gids l (w_total w) (gids w) Hc); [now apply (dim_lt4 l)|apply gids_in; eauto]). split; [exact Hx|exact Ho].
  - change (r_beg r d) with (beg_id w d). apply HL; [now apply (beg_first w d i)|exact Hi].
Qed.
Print Assumptions C64_unknown_ordered_partial.

(** After a change of the mesh the maps of the old mesh are used: another element is found *)
Theorem C64_stale_refuted : forall l w1 w2 junk junk' d i1 i2 b1 b2, unique_ids w1 -> d < 4 -> 0 < i_nd l d -> owns w1 d i1 -> owns w2 d i2 -> first_id w1 d b1 -> first_id w2 d b2 ->
  w_gid w1 d i1 - b1 = w_gid w2 d i2 - b2 -> i1 <> i2 ->
  exists s, setup_maps l w1 junk no_maps = Some s /\ setup_maps l w2 junk' s = Some s /\ element s d (w_gid w2 d i2 - b2) = Some i1 /\ ~ leads w2 s d.
Proof.
  intros l w1 w2 junk junk' d i1 i2 b1 b2 Hu Hd Hn H1 H2 F1 F2 E Hne. assert (Hm : var_mask l d = true) by (unfold var_mask; apply andb_true_iff; split; now apply Nat.ltb_lt).
  destruct (create_new w1 (var_mask l) false junk no_maps Hu) as (s & E1 & C & L & _); [right; intros C; destruct (C d Hd Hm) as (C' & _); now apply C'|].
  destruct (L d Hd Hm) as (HL & _). exists s. split; [exact E1|]. split; [now apply create_old|]. assert (X : element s d (w_gid w2 d i2 - b2) = Some i1) by (rewrite <- E; now apply HL). split; [exact X|].
  intros H. specialize (H b2 i2 F2 H2). congruence.
Qed.
Print Assumptions C64_stale_refuted.
(** or, when the mesh has grown, the map is read out of bounds *)
Theorem C64_grown_refuted : forall l w1 w2 junk junk' d i2 b2, unique_ids w1 -> d < 4 -> 0 < i_nd l d -> (exists i, owns w1 d i) -> owns w2 d i2 -> first_id w2 d b2 -> offsets_below w1 d (w_gid w2 d i2 - b2) ->
  exists s, setup_maps l w1 junk no_maps = Some s /\ setup_maps l w2 junk' s = Some s /\ element s d (w_gid w2 d i2 - b2) = None.
Proof.
  intros l w1 w2 junk junk' d i2 b2 Hu Hd Hn (i & Hi) H2 F2 Hb. assert (Hm : var_mask l d = true) by (unfold var_mask; apply andb_true_iff; split; now apply Nat.ltb_lt).
  destruct (create_new w1 (var_mask l) false junk no_maps Hu) as (s & E1 & C & L & _); [right; intros C; destruct (C d Hd Hm) as (C' & _); now apply C'|].
  destruct (L d Hd Hm) as (_ & _ & a & Ea & Hl). exists s. split; [exact E1|]. split; [now apply create_old|]. unfold element. rewrite Ea. cbn [obind]. apply nth_error_None. rewrite Hl.
  unfold end_id. destruct (gids w1 d) as [|g0 L0] eqn:Eg; [exfalso; assert (In (w_gid w1 d i) (gids w1 d)) by (apply gids_in; eauto); rewrite Eg in *; contradiction|].
  destruct (end_fold (g0 :: L0) 0) as (_ & Hlt & [Hz|(g & Hg & ->)]); [specialize (Hlt g0 (or_introl eq_refl)); lia|]. rewrite <- Eg in Hg. apply gids_in in Hg as (j & Hj & <-). specialize (Hb _ j (beg_first w1 d i Hi) Hj). lia.
Qed.
Print Assumptions C64_grown_refuted.

(** The second tag lists the existing elements of the dimension by intervals (C26): proved when one dimension is requested *)
Definition lists (a : list Z) (L : list Z) : Prop :=
  IenModel.size (pairs a) = Some (Z.of_nat (length L)) /\
  forall n v, nth_error L n = Some v -> exists it, IenModel.find_left (pairs a) (Z.of_nat n) = Some it /\ IenModel.deref (pairs a) it = Some (Z.of_nat n, v).
Theorem C64_intervals_partial : forall w et forced junk s d, unique_ids w -> d < 4 -> (forall e, e < 4 -> et e = (e =? d)) -> forced = true \/ back s d = None ->
  exists s' a, create_maps w et forced junk s = Some s' /\ cont s' d = Some a /\ lists a (existing w d).
Proof.
  intros w et forced junk s d Hu Hd He Hf. destruct (create_new w et forced junk s Hu) as (s' & E & _ & L & _).
  { destruct Hf as [Hf|Hf]; [now left|right]. intros C. destruct (C d Hd) as (C' & _); [rewrite He, Nat.eqb_refl by exact Hd; reflexivity|contradiction]. }
  destruct (L d Hd) as (_ & Ec & _); [rewrite He, Nat.eqb_refl by exact Hd; reflexivity|]. exists s', (cont_runs (all_lids w et)). split; [exact E|]. split; [exact Ec|].
  rewrite (one_dim w et d Hd He). destruct (cont_runs_ok (existing w d) (existing_sorted w d)) as (ivs & Hi & Ei & Ep). unfold lists. rewrite Ep, <- Ei. split; [now apply IenProps.C26_size|].
  intros n v Hn. destruct (IenProps.C26_by_number ivs Hi (Z.of_nat n)) as (A & _ & _). destruct (A v ltac:(lia)) as (it & F & _ & D); [now rewrite Nat2Z.id|]. eauto.
Qed.
Print Assumptions C64_intervals_partial.
Lemma lists_inj : forall a L L', lists a L -> lists a L' -> L = L'.
Proof.
  intros a L L' (S1 & H1) (S2 & H2). assert (El : length L = length L') by (rewrite S1 in S2; injection S2; lia). apply nth_ext with (d := 0%Z) (d' := 0%Z); [exact El|]. intros n Hn.
  destruct (H1 n (nth n L 0%Z)) as (it & F & D); [now apply nth_error_nth'|]. destruct (H2 n (nth n L' 0%Z)) as (it' & F' & D'); [apply nth_error_nth'; lia|]. rewrite F in F'. injection F' as <-. rewrite D in D'. now injection D'.
Qed.
(** With two dimensions every tag lists the elements of both: one of them is wrong unless the local IDs are the same *)
Theorem C64_intervals_refuted : forall w et junk d e, unique_ids w -> d < 4 -> e < 4 -> et d = true -> et e = true -> existing w d <> existing w e ->
  exists s' a, create_maps w et false junk no_maps = Some s' /\ cont s' d = Some a /\ cont s' e = Some a /\ ~ (lists a (existing w d) /\ lists a (existing w e)).
Proof.
  intros w et junk d e Hu Hd He Td Te Hne. destruct (create_new w et false junk no_maps Hu) as (s' & E & _ & L & _); [right; intros C; destruct (C d Hd Td) as (C' & _); now apply C'|].
  exists s', (cont_runs (all_lids w et)). split; [exact E|]. split; [apply L; assumption|]. split; [apply L; assumption|]. intros (A & B). apply Hne. eapply lists_inj; eassumption.
Qed.
Print Assumptions C64_intervals_refuted.

(** Three nodes, one of them a ghost, GlobalIDs 5, 4: the next mesh has lost its first node *)
Definition w1 := World (fun d => if d =? 0 then [Owned; Owned; Ghost] else []) (fun d i => nth i [5; 4; 9] 0) (fun _ => 10).
Definition w2 := World (fun d => if d =? 0 then [Deleted; Owned; Owned] else []) (fun d i => nth i [0; 5; 4] 0) (fun _ => 10).
Definition p1 := [Unite [1; 0; 0; 0; 0; 0] None].
Lemma w1_unique : unique_ids w1.
Proof.
  intros d i j (A & B) (C & D) E. unfold w1 in *. cbn [w_mesh w_gid] in *. destruct (d =? 0); cbn [length] in *; [|lia]. destruct i as [|[|[|i]]]; destruct j as [|[|[|j]]]; cbn in *; try reflexivity; try discriminate; lia.
Qed.
Example C64_example : match setup_maps p1 w1 (fun _ => 7) no_maps with Some s => element s 0 0 = Some 1 /\ element s 0 1 = Some 0 /\ cont s 0 = Some [0%Z; 0%Z; 3%Z; 3%Z] | None => False end.
Proof. vm_compute. auto. Qed.
Example C64_stale_example : owns w1 0 1 /\ owns w2 0 2 /\ first_id w1 0 4 /\ first_id w2 0 4 /\ consecutive (gids w1).
Proof.
  assert (F1 : owns w1 0 1) by (split; [cbn; lia|reflexivity]). assert (F2 : owns w2 0 2) by (split; [cbn; lia|reflexivity]). split; [exact F1|]. split; [exact F2|]. split; [|split].
  - split; [exists 1; split; [exact F1|reflexivity]|]. intros i (A & B). cbn in A, B. destruct i as [|[|[|i]]]; cbn in *; try discriminate; lia.
  - split; [exists 2; split; [exact F2|reflexivity]|]. intros i (A & B). cbn in A, B. destruct i as [|[|[|i]]]; cbn in *; try discriminate; lia.
  - intros d Hd. destruct d as [|[|[|[|d]]]]; [exists 4; apply perm_swap|exists 0; apply Permutation_refl..|lia].
Qed.
Definition w3 := World (fun d => if d =? 0 then [Owned; Deleted; Owned; Owned] else if d =? 3 then [Owned] else []) (fun d i => nth i [0; 0; 1; 2] 0) (fun _ => 10).
Example C64_intervals_example : existing w3 0 = [0; 2; 3]%Z /\ cont_runs (existing w3 0) = [0; 0; 1; 2; 3; 4]%Z /\ existing w3 3 = [0]%Z /\ cont_runs (all_lids w3 (fun d => (d =? 0) || (d =? 3))) = [0; 0; 1; 2; 3; 0; 4; 1]%Z.
Proof. vm_compute. auto. Qed.
