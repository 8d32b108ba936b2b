(** Vocabulary for C27, C28, C46. *)
From Verif Require Import Prelude RSum.
Local Open Scope R_scope.

(** Determinant of a 3x3 matrix: the Leibniz sum. *)
Definition det3 (a : nat -> nat -> R) : R :=
  a 0%nat 0%nat * a 1%nat 1%nat * a 2%nat 2%nat + a 0%nat 1%nat * a 1%nat 2%nat * a 2%nat 0%nat + a 0%nat 2%nat * a 1%nat 0%nat * a 2%nat 1%nat
  - a 0%nat 2%nat * a 1%nat 1%nat * a 2%nat 0%nat - a 0%nat 1%nat * a 1%nat 0%nat * a 2%nat 2%nat - a 0%nat 0%nat * a 1%nat 2%nat * a 2%nat 1%nat.
Definition delta (i j : nat) : R := if (i =? j)%nat then 1 else 0.
(** B is a left and a right inverse of A. *)
Definition inverse_of (a b : nat -> nat -> R) : Prop := forall i j, (i < 3)%nat -> (j < 3)%nat ->
  Rsum 3 (fun k => b i k * a k j) = delta i j /\ Rsum 3 (fun k => a i k * b k j) = delta i j.
(** Entry (i, j) of the column-major 3x3 matrix stored at offset o. *)
Definition at3 (l : list R) (o i j : nat) : R := nth (o + (i + 3 * j)) l 0.

(** Tetrahedron with vertices x k, coordinates x k i; its edge matrix has columns
    x (k+1) - x 0 and it is non-degenerate if the determinant of these is not 0. *)
Definition edge_matrix (x : nat -> nat -> R) (i k : nat) : R := x (S k) i - x 0%nat i.
Definition nondegenerate (x : nat -> nat -> R) : Prop := det3 (edge_matrix x) <> 0.
(** The numbers w are the barycentric coordinates of the point y. *)
Definition barycentric (x : nat -> nat -> R) (y w : nat -> R) : Prop :=
  Rsum 4 w = 1 /\ forall i, (i < 3)%nat -> Rsum 4 (fun k => w k * x k i) = y i.

(** Vectors of R^3 as triples. *)
Definition co (v : R * R * R) (i : nat) : R := match i with 0%nat => fst (fst v) | 1%nat => snd (fst v) | _ => snd v end.
Definition dot (u v : nat -> R) : R := Rsum 3 (fun i => u i * v i).
Definition diff (u v : R * R * R) (i : nat) : R := co u i - co v i.
(** Determinant of the edges b - a, c - a, d - a. *)
Definition tetdet (a b c d : R * R * R) : R := det3 (fun i k => diff (match k with 0%nat => b | 1%nat => c | _ => d end) a i).
(** Square of the area of the parallelogram on b - a, c - a (Gram determinant). *)
Definition gram2 (a b c : R * R * R) : R := dot (diff b a) (diff b a) * dot (diff c a) (diff c a) - dot (diff b a) (diff c a) * dot (diff b a) (diff c a).
(** A convex combination of four points. *)
Definition weights (w : nat -> R) : Prop := Rsum 4 w = 1 /\ forall k, (k < 4)%nat -> 0 <= w k.
Definition combine (w : nat -> R) (x : nat -> R * R * R) (i : nat) : R := Rsum 4 (fun k => w k * co (x k) i).
