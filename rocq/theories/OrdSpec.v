(** Vocabulary for C21, C23, C24, C45. *)
From Verif Require Import Prelude DofModel SymSpec.
From Coq Require Import Permutation Reals.

(** Canonical numbering of the edges and faces of a tetrahedron. *)
Definition edge_ends (m : nat) : nat * nat := nth m [(0, 1); (0, 2); (0, 3); (1, 2); (1, 3); (2, 3)] (0, 0).
Definition face_nodes (f : nat) : list nat := nth f [[0; 1; 2]; [1; 2; 3]; [2; 3; 0]; [3; 0; 1]] [].
Definition mem (x : nat) (l : list nat) : bool := existsb (Nat.eqb x) l.
Definition face_edges (f : nat) : list nat :=
  filter (fun m => mem (fst (edge_ends m)) (face_nodes f) && mem (snd (edge_ends m)) (face_nodes f)) (seq 0 6).

(** A cell with nodes [nodes] (in the chosen order) whose edges are E 0 .. E 5 and faces
    F 0 .. F 3 in the canonical numbering; the mesh lists the faces of the cell, the edges
    of a face and the nodes of an edge in any order. *)
Record tet_cell (nodes lc : list nat) (fe : nat -> list nat) (en : nat -> nat * nat) (E F : nat -> nat) : Prop := {
  tc_len : length nodes = 4;
  tc_nodup : NoDup nodes;
  tc_faces : Permutation lc (map F (seq 0 4));
  tc_face_edges : forall f, f < 4 -> Permutation (fe (F f)) (map E (face_edges f));
  tc_edge_nodes : forall m, m < 6 ->
    en (E m) = (nth (fst (edge_ends m)) nodes 0, nth (snd (edge_ends m)) nodes 0) \/
    en (E m) = (nth (snd (edge_ends m)) nodes 0, nth (fst (edge_ends m)) nodes 0)
}.

(** Number of inversions of a list of identifiers; the sorting permutation is even iff
    the number is even. *)
Fixpoint inversions (l : list Z) : nat :=
  match l with [] => 0 | x :: r => length (filter (fun y => (y <? x)%Z) r) + inversions r end.

(** Six times the signed volume: (b - a) . ((c - a) x (d - a)). *)
Definition triple (a b c d : nat -> R) : R :=
  let u j := (b j - a j)%R in let v j := (c j - a j)%R in let w j := (d j - a j)%R in
  (u 0%nat * (v 1%nat * w 2%nat - v 2%nat * w 1%nat) + u 1%nat * (v 2%nat * w 0%nat - v 0%nat * w 2%nat) + u 2%nat * (v 0%nat * w 1%nat - v 1%nat * w 0%nat))%R.
