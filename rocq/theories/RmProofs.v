From Coq Require Import NArith Permutation.
From Verif Require Import Prelude DofModel DofSpec DofProofs DofProofs2 SymModel SymSpec SymProofs SymProofs2 SymProofs3 OrdModel OrdProofs2 TsModel TsProofs RmModel RmSpec.

Lemma omap_ok : forall {A B} (f : A -> option B) (Q : A -> B -> Prop) l, (forall x, In x l -> exists y, f x = Some y /\ Q x y) ->
  exists r, omap f l = Some r /\ Forall2 Q l r.
Proof.
  intros A B f Q l. induction l as [|x l IH]; intros H; [exists []; split; [reflexivity|constructor]|].
  destruct (H x (or_introl eq_refl)) as (y & Ey & Hy). destruct IH as (r & Er & Hr); [intros z Hz; apply H; now right|].
  exists (y :: r). cbn. rewrite Ey. cbn. rewrite Er. split; [reflexivity|now constructor].
Qed.
Lemma loop_forall : forall {A} (P : A -> Prop) (tab : list (nat * Z)) tv n a r0 r, Forall P tv -> Forall P r0 ->
  for_range a n (fun i r => do pos <- rd tab i; do _ <- guard (negb (snd pos =? 0)%Z); do v <- rd tv (fst pos); Some (r ++ [v])) r0 = Some r -> Forall P r.
Proof.
  intros A P tab tv n. induction n as [|n IH]; intros a r0 r Ht H0 E; cbn [for_range] in E; [injection E as <-; exact H0|].
  destruct (rd tab a) as [pos|]; [|discriminate]. cbn [obind] in E. destruct (guard (negb (snd pos =? 0)%Z)); [|discriminate]. cbn [obind] in E.
  destruct (rd tv (fst pos)) as [v|] eqn:Ev; [|discriminate]. cbn [obind] in E. apply (IH _ _ _ Ht) in E; [exact E|].
  apply Forall_app. split; [exact H0|]. constructor; [|constructor]. rewrite Forall_forall in Ht. apply Ht. now apply nth_error_In in Ev.
Qed.
Lemma renumber_forall : forall {A} (P : A -> Prop) d dim big xs ys tv tv', Forall P tv -> renumber d dim big xs ys tv = Some tv' -> Forall P tv'.
Proof.
  intros A P d dim big xs ys tv tv' Ht E. unfold renumber in E. cbv zeta in E. destruct (renum_perm big xs ys) as [perm|]; [|discriminate]. cbn [obind] in E.
  match type of E with (do tab <- ?X; _) = _ => destruct X as [tab|]; [|discriminate] end. cbn [obind] in E.
  match type of E with (do r <- ?X; _) = _ => destruct X as [r|] eqn:Er; [|discriminate] end. cbn [obind] in E. injection E as <-.
  apply Forall_app. split; [eapply loop_forall; [exact Ht|constructor|exact Er]|]. rewrite Forall_forall in *. intros x Hx. apply Ht.
  rewrite <- (firstn_skipn (match dim with 0 => num_dof d 0 | 1 => num_dof d 1 + num_dof d 2 | 2 => num_dof d 3 + num_dof d 4 | _ => num_dof d 5 end) tv). apply in_or_app. now right.
Qed.
Lemma concat_block : forall {A} b (ls : list (list A)) rest k x, Forall (fun y => length y = b) ls -> nth_error ls k = Some x -> firstn b (skipn (b * k) (concat ls ++ rest)) = x.
Proof.
  intros A b ls rest. induction ls as [|y ls IH]; intros k x Hf E; [destruct k; discriminate|]. inversion Hf as [|? ? Hy Hf']; subst. cbn [concat]. rewrite <- app_assoc. destruct k as [|k].
  - injection E as <-. rewrite Nat.mul_0_r. cbn [skipn]. rewrite firstn_app, Nat.sub_diag, firstn_all. cbn [firstn]. apply app_nil_r.
  - cbn [nth_error] in E. replace (length y * S k) with (length y + length y * k) by lia. rewrite skipn_app, skipn_all2 by lia. cbn [app].
    replace (length y + length y * k - length y) with (length y * k) by lia. now apply IH.
Qed.
Lemma concat_len : forall {A} b (ls : list (list A)), Forall (fun y => length y = b) ls -> length (concat ls) = b * length ls.
Proof. intros A b ls H. induction H as [|y ls Hy Hf IH]; cbn [concat length]; [lia|]. rewrite app_length, IH. lia. Qed.
Lemma chunks_len : forall {A} b n (l : list A), b * n <= length l -> Forall (fun y => length y = b) (chunks b n l).
Proof.
  intros A b n l H. apply Forall_forall. intros y Hy. unfold chunks in Hy. apply in_map_iff in Hy as (k & <- & Hk). apply in_seq in Hk. rewrite firstn_length, skipn_length. nia.
Qed.
Lemma skipn_add : forall {A} a b (l : list A), skipn a (skipn b l) = skipn (b + a) l.
Proof. intros A a b. induction b as [|b IH]; intros l; [reflexivity|]. destruct l as [|x l]; [now rewrite !skipn_nil|]. cbn [skipn Nat.add]. apply IH. Qed.
Lemma inum_stored : forall d q, wf d -> inum_dofs d q = stored_dofs d q.
Proof. intros d q H. unfold inum_dofs, stored_dofs. rewrite !num_dof_cnt by (assumption || lia). now destruct q as [|[|[|q]]]. Qed.

(** Dofs whose place does not depend on the order. *)
Lemma single_point : forall d i lo c l p, wf d -> labelled d -> is_perm4 p -> local_order d i = Some lo -> lo_sym lo = Some (c, l) -> npoints (lo_type lo) c <= 1 ->
  locus_index d lo p = Some ((if oriented (lo_type lo) then num_dof d (lo_type lo - 1) else 0) + (lo_leid lo - l)).
Proof.
  intros d i lo c l p Hwf Hlab Hp E Es Hn. destruct (lo_facts d Hwf Hlab i lo E) as (c' & l' & Es' & En & A1 & A2 & A3 & A4 & A5 & A6). rewrite Es in Es'. injection Es' as <- <-.
  destruct (index_placed (lo_type lo) (lo_elem lo) c l p A1 A2 A4 Hp) as (r & Er & Hr & _). unfold locus_index. rewrite Es. cbn [obind fst snd]. rewrite Er. cbn [obind]. f_equal. lia.
Qed.
Lemma unmasked : forall d i lo, wf d -> in_gmask d (geom_dim (lo_type lo)) = false -> local_order d i = Some lo -> exists l, lo_sym lo = Some (0, l).
Proof.
  intros d i lo Hwf H E. destruct (local_order_inv d i lo Hwf E) as (_ & En & _). apply nth_error_In in En. pose proof (mask_dof d _ Hwf En) as Hm. pose proof (type_lt d _ En) as Ht.
  unfold dof_of_lo in *. cbn [d_type] in *. unfold class_bit in Hm. cbn [d_sym] in Hm.
  assert (Q : N.shiftr (sym_components d (lo_type lo)) 1 = 0%N).
  { destruct (N.eqb_spec (N.shiftr (sym_components d (lo_type lo)) 1) 0) as [Z|Z]; [exact Z|exfalso]. apply not_true_iff_false in H. apply H. unfold in_gmask. apply existsb_exists.
    exists (lo_type lo). split; [apply in_seq; unfold ngeom; lia|]. rewrite Nat.eqb_refl. apply N.eqb_neq in Z. now rewrite Z. }
  destruct (lo_sym lo) as [[c l]|]; [|rewrite (shiftr_bit _ 4 Q) in Hm; discriminate]. destruct c as [|c]; [now exists l|]. rewrite (shiftr_bit _ c Q) in Hm. discriminate.
Qed.
Lemma npoints0 : forall t, npoints t 0 <= 1.
Proof. intros t. unfold npoints, points. destruct (geom_dim t) as [|[|[|[|q]]]]; cbn; lia. Qed.
Lemma few_dofs : forall d i lo c l, wf d -> labelled d -> local_order d i = Some lo -> lo_sym lo = Some (c, l) -> stored_dofs d (geom_dim (lo_type lo)) <= 1 -> npoints (lo_type lo) c <= 1.
Proof.
  intros d i lo c l Hwf Hlab E Es Hs. destruct (lo_facts d Hwf Hlab i lo E) as (c' & l' & Es' & En & A1 & A2 & A3 & A4 & A5 & A6). rewrite Es in Es'. injection Es' as <- <-.
  destruct (oclosed_layout d Hwf i _ _ _ _ _ En) as (_ & _ & _ & H). specialize (H (npoints (lo_type lo) c - 1) ltac:(lia)). destruct (dof_facts d _ _ _ _ _ _ Hwf H) as (_ & _ & B & _).
  assert (cnt d (lo_type lo) <= stored_dofs d (geom_dim (lo_type lo))); [|lia].
  clear -A1. destruct (lo_type lo) as [|[|[|[|[|[|t]]]]]]; try lia; cbn [geom_dim]; unfold stored_dofs; cbn; lia.
Qed.

Definition dofs_kept {A} (d : dmap) (block shift : nat) (g h : list Z) (t e : nat) (tv tv' : list A) : Prop :=
  forall i lo, local_order d i = Some lo -> lo_type lo = t -> lo_elem lo = e ->
    exists a b, locus_index d lo (gperm h) = Some a /\ locus_index d lo (gperm g) = Some b /\ a < stored_dofs d (geom_dim t) /\ b < stored_dofs d (geom_dim t) /\
      values_at block shift tv' a = values_at block shift tv b.
Lemma locus_lt : forall d i lo g, wf d -> labelled d -> length g = 4 -> NoDup g -> local_order d i = Some lo ->
  exists b, locus_index d lo (gperm g) = Some b /\ b < stored_dofs d (geom_dim (lo_type lo)).
Proof.
  intros d i lo q Hwf Hlab Hq Hnq El. destruct (lo_facts d Hwf Hlab i lo El) as (c & l & Es & En & A1 & A2 & A3 & A4 & A5 & A6).
  destruct (index_placed (lo_type lo) (lo_elem lo) c l (gperm q) A1 A2 A4 (gperm_perm q Hq Hnq)) as (r & Er & Hr & _).
  exists (slot_of d (lo_type lo) (lo_leid lo - l + r)). split.
  - unfold locus_index. rewrite Es. cbn [obind fst snd]. rewrite Er. cbn [obind]. unfold slot_of. now rewrite Nat.add_assoc.
  - rewrite <- inum_stored by assumption. change (inum_dofs d) with (ndata d). apply slot_lt; [assumption|]. destruct (oclosed_layout d Hwf i _ _ _ _ _ En) as (_ & _ & _ & H). specialize (H r Hr).
    destruct (dof_facts d _ _ _ _ _ _ Hwf H) as (_ & _ & B & _). now rewrite num_dof_cnt by assumption.
Qed.
(** Unchanged data are right when every dof is alone on its orbit. *)
Lemma kept_same : forall {A} d block shift big q xs ys g h t e (tv : list A), wf d -> labelled d -> seen_from big q xs ys g h t e ->
  (forall i lo c l, local_order d i = Some lo -> lo_type lo = t -> lo_sym lo = Some (c, l) -> npoints t c <= 1) -> dofs_kept d block shift g h t e tv tv.
Proof.
  intros A d block shift big q xs ys g h t e tv Hwf Hlab (Hg & Hng & Hh & Hnh & _) H i lo El Ht He.
  destruct (locus_lt d i lo g Hwf Hlab Hg Hng El) as (b & Eb & Hb). destruct (locus_lt d i lo h Hwf Hlab Hh Hnh El) as (a & Ea & Ha). rewrite Ht in Ha, Hb.
  destruct (lo_facts d Hwf Hlab i lo El) as (c & l & Es & _). specialize (H i lo c l El Ht Es). rewrite <- Ht in H.
  pose proof (single_point d i lo c l (gperm g) Hwf Hlab (gperm_perm g Hg Hng) El Es H) as P1. pose proof (single_point d i lo c l (gperm h) Hwf Hlab (gperm_perm h Hh Hnh) El Es H) as P2.
  assert (a = b) by congruence. subst a. exists b, b. auto.
Qed.
Lemma tag_ok : forall {A} d big block shift compressed (el : element A) (tv : list A), wf d -> labelled d -> 0 < block ->
  (exists g h t e, seen_from big (el_dim el) (el_old el) (el_new el) g h t e) ->
  shift + block * stored_dofs d (el_dim el) <= length tv \/ (compressed = true /\ length tv < shift + 2 * block) ->
  exists tv', renumber_tag d big block shift compressed el tv = Some tv' /\
    same_around shift (block * stored_dofs d (el_dim el)) tv tv' /\
    (length tv < shift + block * stored_dofs d (el_dim el) -> tv' = tv) /\
    (shift + block * stored_dofs d (el_dim el) <= length tv -> forall g h t e, seen_from big (el_dim el) (el_old el) (el_new el) g h t e -> dofs_kept d block shift g h t e tv tv').
Proof.
  intros A d big block shift compressed el tv Hwf Hlab Hb Hseen Hlen. unfold renumber_tag. rewrite inum_stored by assumption. set (n := stored_dofs d (el_dim el)) in *.
  destruct (compressed && (length tv <? shift + 2 * block)) eqn:Ec.
  - exists tv. split; [reflexivity|]. split; [repeat split|]. split; [reflexivity|]. intros Hle g h t e Hs. apply andb_true_iff in Ec as [_ Ec]. apply Nat.ltb_lt in Ec.
    eapply kept_same; [assumption|assumption|exact Hs|]. intros i lo c l El Ht Es. rewrite <- Ht. apply (few_dofs d i lo c l Hwf Hlab El Es).
    destruct Hs as (_ & _ & _ & _ & _ & _ & _ & _ & Hq & _). rewrite Ht, Hq. fold n. nia.
  - assert (Hle : shift + block * n <= length tv).
    { destruct Hlen as [H|[H1 H2]]; [exact H|]. rewrite H1 in Ec. apply Nat.ltb_lt in H2. rewrite H2 in Ec. discriminate. }
    rewrite (proj2 (Nat.leb_le _ _) Hle). cbn [guard obind]. set (cs := chunks block n (skipn shift tv)).
    assert (Hcl : length cs = n) by (unfold cs, chunks; now rewrite map_length, seq_length).
    assert (Hcf : Forall (fun y => length y = block) cs) by (apply chunks_len; rewrite skipn_length; lia).
    assert (Hnd : forall t, geom_dim t = el_dim el -> ndata d (geom_dim t) <= length cs) by (intros t Hq; rewrite Hq; change (ndata d) with (inum_dofs d); rewrite inum_stored by assumption; fold n; lia).
    destruct Hseen as (g0 & h0 & t0 & e0 & Hg & Hng & Hh & Hnh & Hbg & Hbh & Ht & He & Hq & vs & Hvs & Ex & Ey).
    destruct (renumber_ok d g0 h0 big t0 e0 vs cs Hwf Hlab Hg Hng Hh Hnh Hbg Hbh Ht He Hvs (Hnd t0 Hq)) as (r & Er & Hrl & _). rewrite Hq, <- Ex, <- Ey in Er. rewrite Er. cbn [obind].
    pose proof (renumber_forall _ _ _ _ _ _ _ _ Hcf Er) as Hrf. pose proof (concat_len block r Hrf) as Hrc. rewrite Hrl, Hcl in Hrc.
    assert (Hf : length (firstn shift tv) = shift) by (rewrite firstn_length; lia).
    eexists. split; [reflexivity|]. split; [|split; [lia|]].
    + split; [rewrite !app_length, Hf, Hrc, skipn_length; lia|]. split.
      * rewrite firstn_app, Hf, Nat.sub_diag. cbn [firstn]. rewrite app_nil_r. apply firstn_all2. lia.
      * rewrite app_assoc, skipn_app, skipn_all2 by (rewrite app_length; lia). cbn [app]. rewrite app_length, Hf, Hrc, Nat.sub_diag. reflexivity.
    + intros _ g h t e Hs i lo El Hty Hel. clear Hg Hng Hh Hnh Hbg Hbh Ht He Hvs Hq Ex Ey vs.
      destruct Hs as (Hg & Hng & Hh & Hnh & Hbg & Hbh & Ht & He & Hq & vs & Hvs & Ex & Ey).
      destruct (renumber_ok d g h big t e vs cs Hwf Hlab Hg Hng Hh Hnh Hbg Hbh Ht He Hvs (Hnd t Hq)) as (r' & Er' & _ & Hall). rewrite Hq, <- Ex, <- Ey, Er in Er'. injection Er' as <-.
      destruct (locus_lt d i lo g Hwf Hlab Hg Hng El) as (b & Eb & Hbl). destruct (locus_lt d i lo h Hwf Hlab Hh Hnh El) as (a & Ea & Hal). rewrite Hty in Hal, Hbl.
      exists a, b. do 4 (split; [assumption|]). specialize (Hall i lo a b El Hty Hel Ea Eb). rewrite Hq in Hal, Hbl. fold n in Hal, Hbl.
      assert (Ecs : nth_error cs b = Some (values_at block shift tv b)).
      { unfold cs, chunks. rewrite nth_error_map_seq by assumption. unfold values_at. now rewrite skipn_add. }
      rewrite Ecs in Hall. unfold values_at at 1. rewrite <- (skipn_add (block * a) shift). rewrite (skipn_app shift), (skipn_all2 (firstn shift tv)) by lia. cbn [app]. rewrite Hf, Nat.sub_diag. change (skipn 0 (concat r ++ skipn (shift + block * n) tv)) with (concat r ++ skipn (shift + block * n) tv).
      now apply concat_block.
Qed.
Lemma mesh_ok : forall {A} d big block shifts compressed (m : list (element A)), wf d -> labelled d -> 0 < block ->
  (forall el, In el m -> exists g h t e, seen_from big (el_dim el) (el_old el) (el_new el) g h t e) ->
  (forall el tv, In el m -> In (Some tv) (el_data el) ->
     shifts (el_dim el) + block * stored_dofs d (el_dim el) <= length tv \/ (compressed = true /\ length tv < shifts (el_dim el) + 2 * block)) ->
  exists m', reorder_mesh d big block shifts compressed m = Some m' /\
    Forall2 (fun el el' => el_dim el' = el_dim el /\ el_old el' = el_old el /\ el_new el' = el_new el /\
      Forall2 (fun x x' => match x, x' with
        | None, None => True
        | Some tv, Some tv' => same_around (shifts (el_dim el)) (block * stored_dofs d (el_dim el)) tv tv' /\
            (length tv < shifts (el_dim el) + block * stored_dofs d (el_dim el) -> tv' = tv) /\
            (shifts (el_dim el) + block * stored_dofs d (el_dim el) <= length tv ->
             forall g h t e, seen_from big (el_dim el) (el_old el) (el_new el) g h t e -> dofs_kept d block (shifts (el_dim el)) g h t e tv tv')
        | _, _ => False end) (el_data el) (el_data el')) m m'.
Proof.
  intros A d big block shifts compressed m Hwf Hlab Hb Hseen Hlen. apply omap_ok. intros el Hel. destruct (in_gmask d (el_dim el)) eqn:Em.
  - unfold renumber_elem.
    match goal with |- context [omap ?f (el_data el)] => destruct (omap_ok f (fun x x' => match x, x' with
        | None, None => True
        | Some tv, Some tv' => same_around (shifts (el_dim el)) (block * stored_dofs d (el_dim el)) tv tv' /\
            (length tv < shifts (el_dim el) + block * stored_dofs d (el_dim el) -> tv' = tv) /\
            (shifts (el_dim el) + block * stored_dofs d (el_dim el) <= length tv ->
             forall g h t e, seen_from big (el_dim el) (el_old el) (el_new el) g h t e -> dofs_kept d block (shifts (el_dim el)) g h t e tv tv')
        | _, _ => False end) (el_data el)) as (r & Er & Hr) end.
    + intros [tv|] Hx; [|exists None; now split]. destruct (tag_ok d big block (shifts (el_dim el)) compressed el tv Hwf Hlab Hb (Hseen el Hel) (Hlen el tv Hel Hx)) as (tv' & E & H).
      exists (Some tv'). rewrite E. now split.
    + rewrite Er. cbn [obind]. eexists. split; [reflexivity|]. cbn [el_dim el_old el_new el_data]. auto.
  - exists el. split; [reflexivity|]. do 3 (split; [reflexivity|]). induction (el_data el) as [|x l IH]; constructor; [|exact IH].
    destruct x as [tv|]; [|exact I]. split; [repeat split|]. split; [reflexivity|]. intros _ g h t e Hs. eapply kept_same; [assumption|assumption|exact Hs|].
    intros i lo c l0 El Ht Es. destruct Hs as (_ & _ & _ & _ & _ & _ & _ & _ & Hq & _). subst t. rewrite <- Hq in Em. destruct (unmasked d i lo Hwf Em El) as (l1 & E1). rewrite E1 in Es. injection Es as <- <-. apply npoints0.
Qed.
Lemma forall2_impl : forall {A B} (P Q : A -> B -> Prop) l r, (forall x y, P x y -> Q x y) -> Forall2 P l r -> Forall2 Q l r.
Proof. intros A B P Q l r H F. induction F; constructor; auto. Qed.
