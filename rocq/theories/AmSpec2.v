(** What the theorems on node metrics ask of traits, cells and nodes. *)
From Verif Require Import Prelude RSum GeoModel DenseSpec SvdSpec AmModel AmSpec.
Local Open Scope R_scope.

(** 0 < kEigenEps < M_lambda_min <= M_lambda_max, as with the default values *)
Definition sane (ke : R) (tr : traits) : Prop := 0 < ke /\ ke < lam_min tr /\ lam_min tr <= lam_max tr.
(** a cell with nfa dofs *)
Definition wf_cell (nfa : nat) (c : cell) : Prop := length (c_d c) = nfa /\ length (c_B c) = (nfa * nfa)%nat /\ forall f, (f < 4)%nat -> length (c_A c f) = (3 * nfa)%nat.
(** nodes know cells of the mesh, their arrays hold at least six numbers *)
Definition wf_mesh (nfa : nat) (cells : list cell) (nodes : list (list nat * list R)) : Prop :=
  (0 < nfa)%nat /\ (forall c, In c cells -> wf_cell nfa c) /\ forall n, In n nodes -> (forall i, In i (fst n) -> (i < length cells)%nat) /\ (6 <= length (snd n))%nat.
Definition wf (v : view) : Prop := length (absH v) = 9%nat /\ length (sv v) = 3%nat.
Definition usable (v : view) : bool := negb (degen v).
Definition det_of (v : view) : R := nth 0 (sv v) 0 * nth 1 (sv v) 0 * nth 2 (sv v) 0.
(** a smallest value of zero, or a ratio of values above H_lambda_max_rel *)
Definition flag (ke : R) (tr : traits) (s : nat -> R) : Prop := s 0%nat <= ke \/ h_rel tr * s 0%nat < s 2%nat.
(** no value exceeds t *)
Definition small (t : R) (v : view) : Prop := forall x, In x (sv v) -> x <= t.
Definition diag (d : nat -> R) : matrix := fun i j => if (i =? j)%nat then d i else 0.
(** values within all bounds of the traits *)
Definition inside (tr : traits) (d : nat -> R) : Prop :=
  (forall i, (i < 3)%nat -> lam_min tr <= d i <= lam_max tr) /\ forall i j, (i < 3)%nat -> (j < 3)%nat -> d i <= Rmax (lam_rel tr) 1 * d j.
(** d times its product to the power -1/5 *)
Definition scaled (d : nat -> R) : nat -> R := fun i => d i * Rpower (d 0%nat * d 1%nat * d 2%nat) (- (1 / 5)).
