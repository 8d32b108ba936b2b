(** Properties of the generated meshes. *)
From Verif Require Import Prelude RSum MeshModel MeshSpec MeshProofs MeshProofs2 MeshProofs3 MeshProofs4.
From Coq Require Import Reals ZArith Lia Lra Permutation.
Open Scope R_scope.

(** The processes form a grid: their number is the product of the numbers per axis, and
    every position of the grid is that of exactly one process. *)
Theorem C55_processes : forall size sizes, (1 <= size)%nat ->
  let P := procs_per_axis size sizes in
  (axis 0 P * axis 1 P * axis 2 P)%nat = size /\
  (forall r, (r < size)%nat -> forall d, (d < 3)%nat -> (axis d (proc_coords r P) < axis d P)%nat) /\
  (forall r r', (r < size)%nat -> (r' < size)%nat -> proc_coords r P = proc_coords r' P -> r = r') /\
  (forall a b c, (a < axis 0 P)%nat -> (b < axis 1 P)%nat -> (c < axis 2 P)%nat -> exists r, (r < size)%nat /\ proc_coords r P = (a, b, c)).
Proof.
  intros size sizes Hs P. split; [apply (procs_vol size sizes Hs)|]. split; [|split].
  - intros r Hr d Hd. destruct (coords_ok size sizes r Hr) as (H0 & H1 & H2 & _). do 3 (destruct d as [|d]; [assumption|]). lia.
  - intros r r' Hr Hr' E. destruct (coords_ok size sizes r Hr) as (_ & _ & _ & Er). destruct (coords_ok size sizes r' Hr') as (_ & _ & _ & Er'). fold P in Er, Er'. rewrite E in Er. lia.
  - intros a b c Ha Hb Hc. eexists. apply (coords_onto size sizes a b c Hs Ha Hb Hc).
Qed.
Print Assumptions C55_processes.

(** When the parts of the axes do not run over the end of the box: if every axis has at
    least as many steps as the square of its number of processes less one, or a number of
    steps that its processes divide.  In particular a single process. *)
Theorem C55_fits : forall size sizes, (1 <= size)%nat ->
  (forall d, (d < 3)%nat -> let p := axis d (procs_per_axis size sizes) in ((p - 1) * (p - 1) <= axis d sizes)%nat \/ Nat.divide p (axis d sizes)) -> all_fit size sizes.
Proof.
  intros size sizes Hs H d Hd. pose proof (procs_pos size sizes d Hs). destruct (H d Hd) as [Q|Q]; [now apply fits_square|now apply fits_divides].
Qed.
Print Assumptions C55_fits.

(** Every process creates tetrahedra whose nodes are in the box. *)
Theorem C55_tetrahedra_partial : forall size sizes A O, proper sizes A O -> countable sizes -> all_fit size sizes ->
  forall r, (r < size)%nat -> exists nodes cells, generate r size sizes A O = Some (nodes, cells) /\
    (forall p, In p nodes -> in_box A O p) /\ forall c, In c cells -> exists vs, tetrahedron nodes c vs.
Proof. intros size sizes A O Hp Hc Hf r Hr. apply (main_tetra size sizes A O Hp Hc Hf r Hr). Qed.
Print Assumptions C55_tetrahedra_partial.

(** The tetrahedra of all processes cover the box and nothing else. *)
Theorem C55_cover_partial : forall size sizes A O, (1 <= size)%nat -> proper sizes A O -> countable sizes -> all_fit size sizes ->
  forall p, in_box A O p <-> exists r vs l, (r < size)%nat /\ cell_of r size sizes A O vs /\ lies_in vs l p.
Proof.
  intros size sizes A O Hs Hp Hc Hf p. split.
  - apply (main_cover size sizes A O Hp Hc Hf p Hs).
  - intros (r & vs & l & Hr & C & L). apply (main_inside size sizes A O Hp Hc Hf r vs l p Hr C L).
Qed.
Print Assumptions C55_cover_partial.

(** A point inside a cell is in no other cell: no cell is created twice, by one process or
    by two, and no two cells overlap. *)
Theorem C55_once_partial : forall size sizes A O, proper sizes A O -> countable sizes -> all_fit size sizes ->
  forall r n vs r' n' vs' p, (r < size)%nat -> nth_cell r size sizes A O n vs -> inside vs p ->
    (r' < size)%nat -> nth_cell r' size sizes A O n' vs' -> (exists l', lies_in vs' l' p) -> r = r' /\ n = n' /\ Permutation vs vs'.
Proof. intros size sizes A O Hp Hc Hf. apply (main_once size sizes A O Hp Hc Hf). Qed.
Print Assumptions C55_once_partial.

(** The mesh is conforming: cells that share a point share the face, edge or node on
    which it lies, and give its vertices the same weights. *)
Theorem C55_conforming_partial : forall size sizes A O, proper sizes A O -> countable sizes -> all_fit size sizes ->
  forall r vs l r' vs' l' p, (r < size)%nat -> cell_of r size sizes A O vs -> lies_in vs l p ->
    (r' < size)%nat -> cell_of r' size sizes A O vs' -> lies_in vs' l' p ->
    forall v w, 0 < w -> (In (v, w) l <-> In (v, w) l').
Proof.
  intros size sizes A O Hp Hc Hf r vs l r' vs' l' p Hr C L Hr' C' L' v w Hw. split; intros H.
  - apply (main_conforming size sizes A O Hp Hc Hf r vs l r' vs' l' p Hr C L Hr' C' L' v w H Hw).
  - apply (main_conforming size sizes A O Hp Hc Hf r' vs' l' r vs l p Hr' C' L' Hr C L v w H Hw).
Qed.
Print Assumptions C55_conforming_partial.

(** All cells have the same volume, that of a step of the grid divided by six. *)
Theorem C55_volume_partial : forall size sizes A O, proper sizes A O -> countable sizes -> all_fit size sizes ->
  forall r a b c d, (r < size)%nat -> cell_of r size sizes A O [a; b; c; d] ->
    Rabs (volume6 a b c d) / 6 = (axis 0 A - axis 0 O) / INR (axis 0 sizes) * ((axis 1 A - axis 1 O) / INR (axis 1 sizes)) * ((axis 2 A - axis 2 O) / INR (axis 2 sizes)) / 6.
Proof. intros size sizes A O Hp Hc Hf r a b c d Hr C. f_equal. apply (main_volume size sizes A O Hp Hc Hf r a b c d Hr C). Qed.
Print Assumptions C55_volume_partial.

(** The cube is the box from the origin with equal sides. *)
Theorem C55_cube_partial : forall size sizes len, (1 <= size)%nat -> 0 < len -> (forall d, (d < 3)%nat -> (0 < axis d sizes)%nat) -> countable sizes -> all_fit size sizes ->
  forall p, (forall d, (d < 3)%nat -> 0 <= axis d p <= len) <->
    exists r nodes cells cell vs l, (r < size)%nat /\ generate_cube r size sizes len = Some (nodes, cells) /\ In cell cells /\ tetrahedron nodes cell vs /\ lies_in vs l p.
Proof.
  intros size sizes len Hs Hl Hz Hc Hf p. assert (Hp : proper sizes (len, len, len) (0, 0, 0)).
  { intros d Hd. split; [now apply Hz|]. destruct d as [|[|d]]; exact Hl. }
  pose proof (C55_cover_partial size sizes (len, len, len) (0, 0, 0) Hs Hp Hc Hf p) as K. split; intros H.
  - destruct (proj1 K) as (r & vs & l & Hr & (nodes & cells & cell & E & Hin & T) & L).
    + split; [exact (H 0%nat ltac:(lia))|]. split; [exact (H 1%nat ltac:(lia))|exact (H 2%nat ltac:(lia))].
    + exists r, nodes, cells, cell, vs, l. auto.
  - destruct H as (r & nodes & cells & cell & vs & l & Hr & E & Hin & T & L).
    assert (B : in_box (len, len, len) (0, 0, 0) p) by (apply K; exists r, vs, l; split; [exact Hr|]; split; [exists nodes, cells, cell; auto|exact L]).
    destruct B as (B0 & B1 & B2). intros d Hd. do 3 (destruct d as [|d]; [assumption|]). lia.
Qed.
Print Assumptions C55_cube_partial.

(** What is missing above: without [all_fit] the mesh leaves the box.  Four processes
    and 5 x 1 x 1 steps on the unit cube: the third process creates a cell beyond it. *)
Theorem C55_box_refuted : exists size sizes A O r nodes cells p, (1 <= size)%nat /\ proper sizes A O /\ countable sizes /\ (r < size)%nat /\
  generate r size sizes A O = Some (nodes, cells) /\ cells <> [] /\ In p nodes /\ axis 0 A < axis 0 p.
Proof.
  exists 4%nat, (5, 1, 1)%nat, (1, 1, 1), (0, 0, 0), 2%nat.
  destruct (generate 2 4 (5, 1, 1)%nat (1, 1, 1) (0, 0, 0)) as [(nodes, cells)|] eqn:E; [|exfalso; revert E; cbv -[Rplus Rmult Rminus Rdiv IZR]; discriminate].
  exists nodes, cells, (node_at (5, 1, 1)%nat (1, 1, 1) (0, 0, 0) 6 0 0).
  split; [lia|]. split; [intros d Hd; do 3 (destruct d as [|d]; [cbn; split; [lia|lra]|]); lia|]. split; [unfold countable; cbn; lia|]. split; [lia|]. split; [reflexivity|].
  assert (N : nodes = new_nodes (mkLocal (4, 0, 0)%Z (2, 1, 1)%Z (6, 1, 1)%Z) (5, 1, 1)%nat (1, 1, 1) (0, 0, 0)) by (revert E; unfold generate; change (local_of 2 4 (5, 1, 1)%nat) with (mkLocal (4, 0, 0)%Z (2, 1, 1)%Z (6, 1, 1)%Z); destruct (new_cells _ _); cbn [obind]; [intros E; now injection E as <- _|discriminate]).
  split; [|split].
  - intros ->. revert E. cbv -[Rplus Rmult Rminus Rdiv IZR]. discriminate.
  - subst nodes. unfold new_nodes. apply in_flat_map. exists 6%Z. split; [apply upto_in; cbn; lia|]. apply in_flat_map. exists 0%Z. split; [apply upto_in; cbn; lia|]. apply in_map_iff. exists 0%Z. split; [reflexivity|apply upto_in; cbn; lia].
  - cbn. unfold node_coord. cbn. lra.
Qed.
Print Assumptions C55_box_refuted.

(** Concrete cases *)
Example C55_fit_example : all_fit 6 (7, 4, 4)%nat /\ procs_per_axis 6 (7, 4, 4)%nat = (3, 2, 1)%nat /\ countable (7, 4, 4)%nat /\ proper (7, 4, 4)%nat (2, 1, 1) (0, -1, 0).
Proof.
  split; [|split; [reflexivity|split; [unfold countable; cbn; lia|]]].
  - apply C55_fits; [lia|]. intros d Hd. change (procs_per_axis 6 (7, 4, 4)%nat) with (3, 2, 1)%nat. left. do 3 (destruct d as [|d]; [cbn; lia|]). lia.
  - intros d Hd. do 3 (destruct d as [|d]; [cbn; split; [lia|lra]|]). lia.
Qed.
Example C55_single_example : forall sizes, all_fit 1 sizes.
Proof. intros sizes. apply C55_fits; [lia|]. intros d Hd. right. destruct d as [|[|d]]; cbn; apply Nat.divide_1_l. Qed.
Example C55_cells_example : option_map (fun m => (length (fst m), length (snd m))) (generate 1 2 (2, 1, 1)%nat (1, 1, 1) (0, 0, 0)) = Some (8, 6)%nat.
Proof. reflexivity. Qed.
