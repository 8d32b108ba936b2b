(** What a tetrahedral mesh of a box is. *)
From Verif Require Import Prelude MeshModel.
From Coq Require Import Reals ZArith.
Open Scope R_scope.

(** [p] is the combination of the points with weights that sum to one and are not negative. *)
Definition wsum (f : point -> R) (l : list (point * R)) : R := fold_right (fun q s => snd q * f (fst q) + s) 0 l.
Definition combination (l : list (point * R)) (p : point) : Prop :=
  (forall v w, In (v, w) l -> 0 <= w) /\ wsum (fun _ => 1) l = 1 /\
  p = (wsum (axis 0) l, wsum (axis 1) l, wsum (axis 2) l).
(** [p] lies in the convex hull of the points, with the weights [l]. *)
Definition lies_in (vs : list point) (l : list (point * R)) (p : point) : Prop := map fst l = vs /\ combination l p.

(** The faces of the cell are the four faces of the tetrahedron of the four nodes [vs]. *)
Definition tetrahedron (nodes : list point) (cell : list (list nat)) (vs : list point) : Prop :=
  exists ns : list nat, length ns = 4%nat /\ NoDup ns /\ map (rd nodes) ns = map Some vs /\
    length cell = 4%nat /\
    (forall f, In f cell -> length f = 3%nat /\ NoDup f /\ incl f ns) /\
    (forall n, In n ns -> exists f, In f cell /\ ~ In n f).

(** A process creates a cell with the vertices [vs]. *)
Definition cell_of (rank size : nat) (sizes : axes) (A O : point) (vs : list point) : Prop :=
  exists nodes cells cell, generate rank size sizes A O = Some (nodes, cells) /\ In cell cells /\ tetrahedron nodes cell vs.

(** The [n]-th cell that a process creates has the vertices [vs]. *)
Definition nth_cell (rank size : nat) (sizes : axes) (A O : point) (n : nat) (vs : list point) : Prop :=
  exists nodes cells cell, generate rank size sizes A O = Some (nodes, cells) /\ rd cells n = Some cell /\ tetrahedron nodes cell vs.
(** [p] is inside the tetrahedron: all weights are positive. *)
Definition inside (vs : list point) (p : point) : Prop := exists l, lies_in vs l p /\ forall v w, In (v, w) l -> 0 < w.

Definition in_box (A O p : point) : Prop :=
  axis 0 O <= axis 0 p <= axis 0 A /\ axis 1 O <= axis 1 p <= axis 1 A /\ axis 2 O <= axis 2 p <= axis 2 A.
(** Six times the signed volume *)
Definition volume6 (a b c d : point) : R :=
  let u k := axis k b - axis k a in let v k := axis k c - axis k a in let w k := axis k d - axis k a in
  u 0%nat * (v 1%nat * w 2%nat - v 2%nat * w 1%nat) - u 1%nat * (v 0%nat * w 2%nat - v 2%nat * w 0%nat) + u 2%nat * (v 0%nat * w 1%nat - v 1%nat * w 0%nat).

(** All processes together divide an axis without running over its end. *)
Definition fits (size procs : nat) : Prop := (avgsize size procs * (procs - 1) <= size)%nat.
Definition all_fit (size : nat) (sizes : axes) : Prop :=
  forall d, (d < 3)%nat -> fits (axis d sizes) (axis d (procs_per_axis size sizes)).
(** The numbers of nodes fit into an unsigned integer. *)
Definition countable (sizes : axes) : Prop :=
  ((Z.of_nat (axis 0 sizes) + 1) * (Z.of_nat (axis 1 sizes) + 1) * (Z.of_nat (axis 2 sizes) + 1) < 2 ^ 32)%Z.
Definition proper (sizes : axes) (A O : point) : Prop :=
  (forall d, (d < 3)%nat -> (0 < axis d sizes)%nat /\ axis d O < axis d A).
