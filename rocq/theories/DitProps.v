(** C69: the iterator over all dofs of a map. *)
From Verif Require Import Prelude DofModel DofSpec DofProofs DofProofs2 DofProps ValModel ValSpec ValProps DitModel DitSpec.
Local Open Scope Z_scope.

Definition cached_ok (d : dmap) (i : dof_iter) : Prop := forall lo, it_geom i = Some lo -> local_order d (Z.to_nat (it_gid i)) = Some lo.
Lemma deref_ok : forall d i lo, wf d -> Z.of_nat (num_dof_tet d) < M32 -> 0 <= it_gid i -> cached_ok d i -> local_order d (Z.to_nat (it_gid i)) = Some lo ->
  exists j, it_deref (local_order d) (num_dof_tet d) i = Some (lo, j) /\ it_gid j = it_gid i /\ cached_ok d j.
Proof.
  intros d i lo Hwf Hn H0 Hc E. unfold it_deref. destruct (it_geom i) as [lc|] eqn:Eg.
  - exists i. specialize (Hc lc Eg). rewrite E in Hc. injection Hc as <-. split; [reflexivity|]. split; [reflexivity|]. intros lo' E'. rewrite Eg in E'. injection E' as <-. exact E.
  - destruct (named_lt d _ lo Hwf E) as [Hi Hg]. assert (Hl : it_gid i <? Z.of_nat (num_dof_tet d) = true) by (apply Z.ltb_lt; lia). rewrite Hl. cbn [guard obind]. rewrite E. cbn [obind]. cbv zeta.
    assert (El : LO (Z.to_nat (it_gid i)) (lo_type lo) (lo_elem lo) (lo_leid lo) (lo_sym lo) = lo) by (rewrite <- Hg; now destruct lo). rewrite El.
    eexists. split; [reflexivity|]. cbn [it_gid it_geom]. split; [reflexivity|]. intros lo' E'. cbn [it_gid it_geom] in *. injection E' as <-. exact E.
Qed.
(** Any sequence of moves (steps, jumps, back and forth, also through positions outside the
    map) and accesses shows the dofs of the positions. *)
Theorem C69_history : forall d ops pos out, wf d -> Z.of_nat (num_dof_tet d) < 2 ^ 32 -> shown d ops pos = Some out ->
  it_run (local_order d) (num_dof_tet d) ops (It (pos mod 2 ^ 32) None) = Some out.
Proof.
  intros d ops pos out Hwf Hn H. change (2 ^ 32) with M32 in *.
  assert (G : forall ops pos out i, it_gid i = pos mod M32 -> cached_ok d i -> shown d ops pos = Some out -> it_run (local_order d) (num_dof_tet d) ops i = Some out).
  { clear pos out ops H. induction ops as [|[n|] r IH]; intros pos out i Hi Hc H; cbn [shown it_run] in *; [exact H| |].
    - apply (IH (pos + n)); [|intros lo E; discriminate|exact H]. unfold it_move. cbn [it_gid]. rewrite Hi. now rewrite Zplus_mod_idemp_l.
    - destruct (Z.leb_spec 0 pos) as [Hp|Hp]; [|discriminate]. destruct (local_order d (Z.to_nat pos)) as [lo|] eqn:E; [|discriminate]. cbn [obind] in H. destruct (shown d r pos) as [l|] eqn:Er; [|discriminate]. cbn [obind] in H. injection H as <-.
      destruct (named_lt d _ lo Hwf E) as [Hlt _]. rewrite Z.mod_small in Hi by lia. destruct (deref_ok d i lo Hwf Hn) as (j & Ej & Hj & Hcj); [lia|exact Hc|now rewrite Hi|]. rewrite Ej. cbn [obind fst snd].
      rewrite (IH pos l j); [reflexivity| |exact Hcj|exact Er]. rewrite Hj, Hi. symmetry. apply Z.mod_small. lia. }
  apply (G ops pos out); [reflexivity|intros lo E; discriminate|exact H].
Qed.
Print Assumptions C69_history.
(** The loop from begin to end visits all dofs, in the order of their numbers. *)
Theorem C69_walk : forall d, wf d -> Z.of_nat (num_dof_tet d) < 2 ^ 32 ->
  exists L, it_walk (local_order d) (num_dof_tet d) (num_dof_tet d) it_begin = Some L /\ length L = num_dof_tet d /\
    forall i, (i < num_dof_tet d)%nat -> exists lo, nth_error L i = Some lo /\ local_order d i = Some lo.
Proof.
  intros d Hwf Hn. change (2 ^ 32) with M32 in *. set (N := num_dof_tet d) in *.
  assert (G : forall f k i, (k + f = N)%nat -> it_gid i = Z.of_nat k -> cached_ok d i -> exists L, it_walk (local_order d) N f i = Some L /\ length L = f /\
    forall a, (a < f)%nat -> exists lo, nth_error L a = Some lo /\ local_order d (k + a)%nat = Some lo).
  { induction f as [|f IH]; intros k i Hk Hi Hc; cbn [it_walk]; unfold it_eq, it_end; cbn [it_gid]; rewrite Hi, (Z.mod_small (Z.of_nat N)) by lia.
    - rewrite (proj2 (Z.eqb_eq _ _)) by lia. exists []. split; [reflexivity|]. split; [reflexivity|]. intros a Ha. lia.
    - rewrite (proj2 (Z.eqb_neq _ _)) by lia. destruct (C02_valid d k Hwf) as (lo & E & _); [fold N; lia|].
      destruct (deref_ok d i lo Hwf Hn) as (j & Ej & Hj & Hcj); [lia|exact Hc|now rewrite Hi, Nat2Z.id|]. fold N in Ej. rewrite Ej. cbn [obind fst snd].
      destruct (IH (S k) (it_move 1 j)) as (L & EL & Hl & HL); [lia| |intros x Hx; discriminate|].
      { unfold it_move. cbn [it_gid]. rewrite Hj, Hi. rewrite Z.mod_small by lia. lia. }
      rewrite EL. cbn [obind]. exists (lo :: L). split; [reflexivity|]. split; [cbn; lia|]. intros [|a] Ha; [exists lo; split; [reflexivity|now rewrite Nat.add_0_r]|].
      destruct (HL a ltac:(lia)) as (x & H1 & H2). exists x. split; [exact H1|]. now replace (k + S a)%nat with (S k + a)%nat by lia. }
  destruct (G N 0%nat it_begin) as (L & EL & Hl & HL); [lia|reflexivity|intros x Hx; discriminate|]. exists L. auto.
Qed.
Print Assumptions C69_walk.
(** Differences and comparisons are those of the positions (up to 2^31 dofs). *)
Theorem C69_difference : forall p q a b, 0 <= p < 2 ^ 31 -> 0 <= q < 2 ^ 31 ->
  it_minus (It p a) (It q b) = p - q /\ it_eq (it_move (p - q) (It q b)) (It p a) = true /\ (it_lt (It p a) (It q b) = true <-> p < q).
Proof.
  intros p q a b Hp Hq. assert (E32 : M32 = 2 * 2 ^ 31) by reflexivity. split; [|split].
  - unfold it_minus. cbn [it_gid]. cbv zeta. destruct (Z.le_gt_cases q p) as [H|H].
    + rewrite Z.mod_small by lia. rewrite (proj2 (Z.ltb_lt _ _)) by lia. reflexivity.
    + rewrite <- (Z_mod_plus_full (p - q) 1 M32), Z.mod_small by lia. rewrite (proj2 (Z.ltb_ge _ _)) by lia. lia.
  - unfold it_eq, it_move. cbn [it_gid]. apply Z.eqb_eq. replace (q + (p - q)) with p by lia. apply Z.mod_small. lia.
  - unfold it_lt. cbn [it_gid]. apply Z.ltb_lt.
Qed.
Print Assumptions C69_difference.
(** Views: the record has the number in the view but the position in the whole map, so it is
    neither the record of the view for this number nor accepted by it. *)
Theorem C69_view_refuted : exists d path v lo lo' j, wf d /\ nested_view d path = Some v /\
  it_deref (view_local_order v) (num_dof_tet (v_base v)) it_begin = Some (lo, j) /\ view_local_order v 0 = Some lo' /\ lo <> lo' /\ view_valid_order v lo = false.
Proof.
  exists (Complex [P1map; P1map]), [1%nat]. do 4 eexists. split; [cbn; repeat split|]. split; [vm_compute; reflexivity|]. split; [vm_compute; reflexivity|]. split; [vm_compute; reflexivity|].
  split; [discriminate|vm_compute; reflexivity].
Qed.
Print Assumptions C69_view_refuted.
Example C69_ex : it_run (local_order stokes) (num_dof_tet stokes) [Move 20; Move (-5); Deref; Deref; Move (-16); Move 2; Deref] it_begin =
  shown stokes [Move 20; Move (-5); Deref; Deref; Move (-16); Move 2; Deref] 0 /\
  shown stokes [Move 20; Move (-5); Deref; Deref; Move (-16); Move 2; Deref] 0 = Some [LO 15 1 1 1 (Some (0, 0)); LO 15 1 1 1 (Some (0, 0)); LO 1 0 1 0 (Some (0, 0))]%nat.
Proof. split; vm_compute; reflexivity. Qed.
