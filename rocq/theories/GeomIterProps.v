(** C07 for the iteration in geometric order. *)
From Coq Require Import NArith.
From Verif Require Import Prelude DofModel DofSpec SparsityModel SparsitySpec GeomIterSpec GeomIterProofs.

(** Geometric order: for every map whose compositions use one of the two types of every
    dimension, the iteration ends without a failed check, visits exactly the dofs on
    selected entities, each once, and goes entity by entity. *)
Theorem C07_iteration_geom_partial : forall d s, wf d -> in_range s -> geom_safe d ->
  exists L, sp_iterate true d s = Some L /\ NoDup L /\
    (forall lo, In lo L <-> (local_order d (lo_gid lo) = Some lo /\ sel s (geom_dim (lo_type lo)) (lo_elem lo))) /\ by_entity L.
Proof.
  intros d s Hwf Hr Hg. exists (EB d (pos s)). split; [now apply iterate_geom|]. destruct (exact_EB d s Hwf) as [H1 H2].
  split; [exact H1|]. split; [exact H2|]. now apply EB_order.
Qed.
Print Assumptions C07_iteration_geom_partial.
(** In particular for repetitions, nested or not, of any leaf, also with oriented and
    unoriented dofs on the same entities. *)
Theorem C07_iteration_geom_repetition : forall k m nd sy s, wf (Unite nd sy) -> in_range s ->
  exists L, sp_iterate true (Vector k (Vector m (Unite nd sy))) s = Some L /\ exact_visit (Vector k (Vector m (Unite nd sy))) s L /\ by_entity L.
Proof.
  intros k m nd sy s Hwf Hr. set (d := Vector k (Vector m (Unite nd sy))). exists (EB d (pos s)).
  split; [apply iterate_geom; [exact Hwf|exact I|assumption]|]. split; [now apply exact_EB|now apply EB_order].
Qed.
Print Assumptions C07_iteration_geom_repetition.
(** Two copies of (P2 x P1 x P0) over a face, an edge, a node and the cell. *)
Example C07_geom_ex : let d := Vector 2 (Complex [Unite [1;1;0;0;0;0] None; Unite [1;0;0;0;0;0] None; Unite [0;0;0;0;0;1] None]) in
  let s := Sp 4 9 2 1 in
  wf d /\ geom_safe d /\ in_range s /\
  option_map (map lo_gid) (sp_iterate true d s) = Some [2; 12; 17; 27; 4; 19; 7; 22; 14; 29].
Proof. split; [repeat split|]. split; [cbn; repeat split; auto|]. split; [repeat split|]. vm_compute. reflexivity. Qed.
