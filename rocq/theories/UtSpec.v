(** What storage tags, integrals over a mesh and a printed number are *)
From Coq Require Import ZArith Reals List.
From Verif Require Import Prelude RSum BasModel BasSpec QuadModel QuadSpec UtModel.
Import ListNotations.
Open Scope R_scope.

(** The cells that a process owns *)
Definition owned_cells (slots : list (option icell)) : list icell :=
  flat_map (fun s => match s with Some c => if ic_ghost c then [] else [c] | None => [] end) slots.
(** Every local id is visited once, by an existing thread *)
Definition valid_sched (n nthreads : nat) (sched : list (nat * nat)) : Prop :=
  Permutation.Permutation (map fst sched) (seq 0 n) /\ forall i t, In (i, t) sched -> (t < nthreads)%nat.
(** The point of the cell with barycentric coordinates p *)
Definition phys (c : icell) (p : list R) : list R := map (at_bary (ic_node c) p) [0; 1; 2]%nat.
(** The quadrature sum of the mathematical integrand: component d of val at the point with barycentric coordinates p
    and physical coordinates x *)
Definition integrand : Type := icell -> list R -> list R -> nat -> R.
Definition quad_sum (F : formula) (val : integrand) (d : nat) (cells : list icell) : R :=
  fold_right Rplus 0 (map (fun c => ic_vol c * qsum F (fun p => val c p (phys c p) d)) cells).
(** The user function fills its matrix with the values of the integrand at the given points *)
Definition evaluates (dim q : nat) (P : list R) (func : user_func) (val : integrand) : Prop :=
  forall c X F0, length X = (3 * q)%nat -> length F0 = (dim * q)%nat -> exists F1, func c P X F0 = Some F1 /\ length F1 = (dim * q)%nat /\
    forall n d, (n < q)%nat -> (d < dim)%nat ->
      nth (d + dim * n) F1 0 = val c (map (fun i => nth (4 * n + i) P 0) [0; 1; 2; 3]%nat) (map (fun k => nth (3 * n + k) X 0) [0; 1; 2]%nat) d.

(** The number written by digits, the most significant first *)
Definition value (ds : list nat) : nat := fold_left (fun a d => 10 * a + d)%nat ds 0%nat.
