From Verif Require Import Prelude DofModel DofSpec DofProofs SymModel SymSpec SymProofs SymProofs2 SymProofs3 OrdModel OrdSpec.
From Coq Require Import Permutation.

(** *** Connectivity *)
Section Cell.
  Variable nodes : list nat.
  Hypothesis Hlen : length nodes = 4.
  Hypothesis Hnd : NoDup nodes.
  Let nd i := nth i nodes 0.
  Lemma nd_inj : forall a b, a < 4 -> b < 4 -> (nd a =? nd b) = (a =? b).
  Proof.
    intros a b Ha Hb. destruct (Nat.eqb_spec a b) as [->|Hne]; [apply Nat.eqb_refl|]. apply Nat.eqb_neq. intros H. apply Hne.
    eapply NoDup_nth; [exact Hnd|rewrite Hlen; exact Ha|rewrite Hlen; exact Hb|exact H].
  Qed.
  Lemma find_nd : forall a, a < 4 -> find_node nodes (nd a) = Some a.
  Proof.
    intros a Ha. unfold find_node. cbn [seq fold_left].
    assert (E : forall i, i < 4 -> nth_error nodes i = Some (nd i)) by (intros i Hi; apply nth_error_nth'; lia).
    rewrite !E, !nd_inj by lia. destruct a as [|[|[|[|a]]]]; [reflexivity..|lia].
  Qed.
  Lemma find_id : forall a, a < 4 -> find_node id4 a = Some a.
  Proof. intros a Ha. destruct a as [|[|[|[|a]]]]; [reflexivity..|lia]. Qed.
  Lemma face_step_id : forall flc a b c d edges, a < 4 -> b < 4 -> c < 4 -> d < 4 ->
    face_step nodes flc (nd a, nd b) (nd c, nd d) edges = face_step id4 flc (a, b) (c, d) edges.
  Proof.
    intros flc a b c d edges Ha Hb Hc Hd. unfold face_step. cbn [fst snd]. rewrite !find_nd, !find_id, !nd_inj by assumption. reflexivity.
  Qed.
End Cell.

Lemma perm3 : forall (l : list nat) x y z, Permutation l [x; y; z] ->
  In l [[x; y; z]; [x; z; y]; [y; x; z]; [y; z; x]; [z; x; y]; [z; y; x]].
Proof.
  intros l x y z H. pose proof (Permutation_length H) as Hl. destruct l as [|a [|b [|c [|]]]]; try discriminate.
  assert (Ha : In a [x; y; z]) by (eapply Permutation_in; [exact H|now left]).
  destruct Ha as [<-|[<-|[<-|[]]]].
  - apply Permutation_cons_inv in H. apply Permutation_length_2_inv in H. cbn [In]. destruct H as [H|H]; injection H as -> ->; auto.
  - assert (H' : Permutation (y :: [b; c]) (y :: [x; z])) by (eapply perm_trans; [exact H|apply perm_swap]).
    apply Permutation_cons_inv in H'. apply Permutation_length_2_inv in H'. cbn [In]. destruct H' as [H'|H']; injection H' as -> ->; auto.
  - assert (H' : Permutation (z :: [b; c]) (z :: [x; y])).
    { eapply perm_trans; [exact H|]. apply (Permutation_cons_append [x; y] z) || (apply Permutation_sym; apply (Permutation_cons_append [x; y] z)). }
    apply Permutation_cons_inv in H'. apply Permutation_length_2_inv in H'. cbn [In]. destruct H' as [H'|H']; injection H' as -> ->; auto 7.
Qed.

(* the four face and edge tables, checked on all cases *)
Definition put_edges (E : nat -> nat) (f : nat) (edges : list nat) : list nat :=
  map (fun m => if mem m (face_edges f) then E m else nth m edges 0) (seq 0 6).
Lemma face_step_ok : forall nodes E f tau o0 o1 edges, length nodes = 4 -> NoDup nodes -> f < 4 -> Permutation tau (face_edges f) -> length edges = 6 ->
  let nd i := nth i nodes 0 in
  let ends (o : bool) m := if o then (nd (fst (edge_ends m)), nd (snd (edge_ends m))) else (nd (snd (edge_ends m)), nd (fst (edge_ends m))) in
  face_step nodes (map E tau) (ends o0 (nth 0 tau 0)) (ends o1 (nth 1 tau 0)) edges = Some (put_edges E f edges, f).
Proof.
  intros nodes E f tau o0 o1 edges Hl Hn Hf Ht He nd ends.
  destruct edges as [|x0 [|x1 [|x2 [|x3 [|x4 [|x5 [|]]]]]]]; try discriminate.
  destruct f as [|[|[|[|f]]]]; [| | | |lia];
    match type of Ht with Permutation _ ?L => let v := eval vm_compute in L in change L with v in Ht end; apply perm3 in Ht;
    repeat (destruct Ht as [<-|Ht]); try destruct Ht; unfold ends, nd; destruct o0, o1; cbn [nth edge_ends fst snd];
    (rewrite face_step_id by (assumption || lia)); reflexivity.
Qed.

Lemma perm4_cases : forall s, Permutation s (seq 0 4) -> In s perms4.
Proof.
  intros s H. apply in_perms4. split; [|split].
  - now rewrite (Permutation_length H).
  - eapply Permutation_NoDup; [apply Permutation_sym; exact H|apply seq_NoDup].
  - apply Forall_forall. intros x Hx. eapply Permutation_in in Hx; [|exact H]. apply in_seq in Hx. lia.
Qed.
Lemma face_edges_lt : forall f m, In m (face_edges f) -> m < 6.
Proof. intros f m H. apply filter_In in H. destruct H as [H _]. apply in_seq in H. lia. Qed.
Lemma put_len : forall E f e, length (put_edges E f e) = 6.
Proof. intros. unfold put_edges. now rewrite map_length, seq_length. Qed.

Lemma collect_ok : forall nodes lc fe en E F e0 f0, tet_cell nodes lc fe en E F -> length e0 = 6 -> length f0 = 4 ->
  collect nodes lc fe en e0 f0 = Some (map E (seq 0 6), map F (seq 0 4)).
Proof.
  intros nodes lc fe en E F e0 f0 H He Hf. destruct H as [Hl Hn Hlc Hfe Hen].
  assert (Hstep : forall f edges, f < 4 -> length edges = 6 -> exists a b, rd (fe (F f)) 0 = Some a /\ rd (fe (F f)) 1 = Some b /\
     face_step nodes (fe (F f)) (en a) (en b) edges = Some (put_edges E f edges, f)).
  { intros f edges Hf4 Hle. destruct (Permutation_map_inv _ _ (Hfe f Hf4)) as (tau & Etau & Hp). rewrite Etau.
    pose proof (Permutation_length Hp) as Hlen3. assert (H3 : length (face_edges f) = 3) by (destruct f as [|[|[|[|f]]]]; [reflexivity..|lia]).
    assert (Hlt : forall m, In m tau -> m < 6) by (intros m Hm; apply (face_edges_lt f); eapply Permutation_in; [apply Permutation_sym; exact Hp|exact Hm]).
    destruct tau as [|t0 [|t1 [|t2 [|]]]]; cbn [length] in Hlen3; try lia. exists (E t0), (E t1). split; [reflexivity|]. split; [reflexivity|].
    assert (Ho : forall m, m < 6 -> exists o : bool, en (E m) = if o then (nth (fst (edge_ends m)) nodes 0, nth (snd (edge_ends m)) nodes 0) else (nth (snd (edge_ends m)) nodes 0, nth (fst (edge_ends m)) nodes 0)).
    { intros m Hm. destruct (Hen m Hm) as [->| ->]; [now exists true|now exists false]. }
    destruct (Ho t0) as [o0 E0]; [apply Hlt; cbn; auto|]. destruct (Ho t1) as [o1 E1]; [apply Hlt; cbn; auto|]. rewrite E0, E1.
    apply (face_step_ok nodes E f [t0; t1; t2] o0 o1 edges); try assumption. apply Permutation_sym. exact Hp. }
  destruct (Permutation_map_inv _ _ Hlc) as (sg & Esg & Hsg). apply Permutation_sym in Hsg.
  pose proof (Permutation_length Hsg) as Hsl. pose proof (perm4_cases sg Hsg) as Hin.
  assert (Hslt : forall f, In f sg -> f < 4) by (intros f Hff; eapply Permutation_in in Hff; [|exact Hsg]; apply in_seq in Hff; lia).
  destruct sg as [|s0 [|s1 [|s2 [|s3 [|]]]]]; try discriminate. rewrite Esg. cbn [map].
  destruct (Hstep s0 e0) as (a0 & b0 & A0 & B0 & S0); [apply Hslt; cbn; auto|assumption|].
  destruct (Hstep s1 (put_edges E s0 e0)) as (a1 & b1 & A1 & B1 & S1); [apply Hslt; cbn; auto|apply put_len|].
  destruct (Hstep s2 (put_edges E s1 (put_edges E s0 e0))) as (a2 & b2 & A2 & B2 & S2); [apply Hslt; cbn; auto|apply put_len|].
  unfold collect, for_. cbn [for_range]. change (rd [F s0; F s1; F s2; F s3] 0) with (Some (F s0)). change (rd [F s0; F s1; F s2; F s3] 1) with (Some (F s1)).
  change (rd [F s0; F s1; F s2; F s3] 2) with (Some (F s2)). change (rd [F s0; F s1; F s2; F s3] 3) with (Some (F s3)).
  destruct f0 as [|y0 [|y1 [|y2 [|y3 [|]]]]]; try discriminate. cbn [obind]. rewrite A0. cbn [obind]. rewrite B0. cbn [obind]. rewrite S0. cbn [obind fst snd].
  clear Hstep A0 B0 S0 Hlc Hfe Hen Esg Hsg Hslt.
  vm_compute in Hin.
  repeat (destruct Hin as [Hin|Hin]; [injection Hin as <- <- <- <-; cbn [wr obind]; rewrite A1; cbn [obind]; rewrite B1; cbn [obind]; rewrite S1; cbn [obind fst snd wr];
    rewrite A2; cbn [obind]; rewrite B2; cbn [obind]; rewrite S2; cbn [obind fst snd wr]; reflexivity|]). destruct Hin.
Qed.
