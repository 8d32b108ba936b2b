(** C45 for a whole mesh: reorder_mesh_function_data. *)
From Coq Require Import Permutation.
From Verif Require Import Prelude DofModel DofSpec SymModel SymSpec SymProofs SymProofs2 SymProps EnumProofs2 OrdModel OrdProofs OrdProofs2 OrdProps RmModel RmSpec RmProofs.

(** Any number of elements of all dimensions and of tags, blocks of any size after any number
    of other values, also when dimensions are skipped and short arrays taken for repeated
    values: the call succeeds, the elements stay, and every dof of every cell around an
    element, addressed with the new identifiers, has the values it had with the old ones. *)
Theorem C45_mesh : forall {A} d big block shifts compressed (m : list (element A)), wf d -> labelled d -> 0 < block ->
  (forall el, In el m -> exists g h t e, seen_from big (el_dim el) (el_old el) (el_new el) g h t e) ->
  (forall el tv, In el m -> In (Some tv) (el_data el) ->
     shifts (el_dim el) + block * stored_dofs d (el_dim el) <= length tv \/ (compressed = true /\ length tv < shifts (el_dim el) + 2 * block)) ->
  exists m', reorder_mesh d big block shifts compressed m = Some m' /\
    Forall2 (fun el el' => el_dim el' = el_dim el /\ el_old el' = el_old el /\ el_new el' = el_new el /\
      Forall2 (tag_renumbered d big block (shifts (el_dim el)) el) (el_data el) (el_data el')) m m'.
Proof.
  intros A d big block shifts compressed m Hwf Hlab Hb Hs Hl. destruct (mesh_ok d big block shifts compressed m Hwf Hlab Hb Hs Hl) as (m' & E & H). exists m'. split; [exact E|].
  eapply forall2_impl; [|exact H]. cbv beta. intros el el' (H1 & H2 & H3 & H4). do 3 (split; [assumption|]). eapply forall2_impl; [|exact H4]. cbv beta.
  intros [tv|] [tv'|] Hx; try exact Hx. destruct Hx as (X1 & X2 & X3). split; [exact X1|]. split; [exact X2|]. intros Hle g h t e Hsee pg ph i lo Epg Eph El Ht He.
  specialize (X3 Hle g h t e Hsee i lo El Ht He). destruct Hsee as (Hg & Hng & Hh & Hnh & _).
  rewrite C22_order_permutation in Epg, Eph by assumption. apply Some_inj in Epg, Eph.
  assert (Ep1 : pg = gperm g) by (symmetry; exact Epg). assert (Ep2 : ph = gperm h) by (symmetry; exact Eph). subst pg ph. exact X3.
Qed.
Print Assumptions C45_mesh.
(* Two dofs on edges and one on faces, blocks of two values, edges after one other value:
   the values of the edge are exchanged, the second tag has none, the face is skipped. *)
Definition mesh_ex : list (element nat) :=
  [Elem 1 [7; 9]%Z [9; 7]%Z [Some [50; 11; 12; 21; 22; 60]; None]; Elem 2 [7; 8; 9]%Z [9; 8; 7]%Z [Some [31; 32]; None]].
Example C45_mesh_ex : reorder_mesh ex_map 100 2 (fun q => if q =? 1 then 1 else 0) false mesh_ex =
  Some [Elem 1 [7; 9]%Z [9; 7]%Z [Some [50; 21; 22; 11; 12; 60]; None]; Elem 2 [7; 8; 9]%Z [9; 8; 7]%Z [Some [31; 32]; None]].
Proof. reflexivity. Qed.
Example C45_mesh_ex_seen : forall el, In el mesh_ex -> exists g h t e, seen_from 100 (el_dim el) (el_old el) (el_new el) g h t e.
Proof.
  assert (N1 : NoDup [7; 8; 9; 10]%Z) by (repeat constructor; cbn; intuition discriminate). assert (N2 : NoDup [9; 8; 7; 10]%Z) by (repeat constructor; cbn; intuition discriminate).
  intros el [<-|[<-|[]]]; exists [7; 8; 9; 10]%Z, [9; 8; 7; 10]%Z; cbn [el_dim el_old el_new].
  - exists 1, 1. split; [reflexivity|]. split; [exact N1|]. split; [reflexivity|]. split; [exact N2|]. split; [cbn; intuition lia|]. split; [cbn; intuition lia|].
    split; [lia|]. split; [cbn; lia|]. split; [reflexivity|]. exists [0; 2]. split; [apply Permutation_refl|]. now split.
  - exists 3, 0. split; [reflexivity|]. split; [exact N1|]. split; [reflexivity|]. split; [exact N2|]. split; [cbn; intuition lia|]. split; [cbn; intuition lia|].
    split; [lia|]. split; [cbn; lia|]. split; [reflexivity|]. exists [0; 1; 2]. split; [apply Permutation_refl|]. now split.
Qed.
Example C45_mesh_ex_sizes : forall el tv, In el mesh_ex -> In (Some tv) (el_data el) -> (if el_dim el =? 1 then 1 else 0) + 2 * stored_dofs ex_map (el_dim el) <= length tv.
Proof. intros el tv [<-|[<-|[]]] H; cbn in H; destruct H as [H|[H|[]]]; try discriminate; injection H as <-; vm_compute; lia. Qed.

(** Values of oriented dofs: one dof per oriented edge (lowest order Nedelec). The edges are
    skipped, so the stored value keeps its sign although the edge turned round. *)
Theorem C45_mesh_oriented_refuted : exists d g h pg ph lo (v : Z) el, wf d /\ labelled d /\ seen_from 100 1 (el_old el) (el_new el) g h 2 (lo_elem lo) /\
  order_permutation g = Some pg /\ order_permutation h = Some ph /\ local_order d 0 = Some lo /\ lo_type lo = 2 /\
  el_data el = [Some [v]] /\ reorder_mesh d 100 1 (fun _ => 0) false [el] = Some [el] /\
  exists s s', locus_sign 2 (lo_elem lo) pg = Some s /\ locus_sign 2 (lo_elem lo) ph = Some s' /\ (s * v <> s' * v)%Z.
Proof.
  exists (Unite [0; 0; 1; 0; 0; 0] (Some [0; 0; 0; 1; 0; 0; 0; 0; 0; 0; 0; 0; 0; 0; 0; 0])), [1; 2; 3; 4]%Z, [2; 1; 3; 4]%Z, [0; 1; 2; 3], [1; 0; 2; 3], (LO 0 2 0 0 (Some (0, 0))), 1%Z, (Elem 1 [1; 2]%Z [2; 1]%Z [Some [1%Z]]).
  split; [repeat constructor|]. split; [intros x Hx; vm_compute in Hx; repeat (destruct Hx as [<-|Hx]; [discriminate|]); destruct Hx|].
  split. { split; [reflexivity|]. split; [repeat constructor; cbn; intuition discriminate|]. split; [reflexivity|]. split; [repeat constructor; cbn; intuition discriminate|].
    split; [cbn; intuition lia|]. split; [cbn; intuition lia|]. split; [lia|]. split; [cbn; lia|]. split; [reflexivity|]. exists [0; 1]. split; [apply Permutation_refl|]. now split. }
  do 6 (split; [reflexivity|]). exists 1%Z, (-1)%Z. split; [reflexivity|]. split; [reflexivity|]. lia.
Qed.
Print Assumptions C45_mesh_oriented_refuted.
