(** Eigenvalues the traits allow, cells without a regular one, means. *)
From Verif Require Import Prelude RSum GeoModel DenseSpec QrSpec SvdSpec AmModel AmSpec AmSpec2.
Local Open Scope R_scope.

(** l ascending: each value goes to the nearest one within the bounds; if the largest then exceeds r times the smallest, r =
    max(lambda_rel, 1), each is also brought within the factor sqrt r of their geometric mean *)
Definition limited (tr : traits) (l : nat -> R) : nat -> R :=
  let n := fun k => nearest (lam_min tr) (lam_max tr) (l k) in
  let r := Rmax (lam_rel tr) 1 in
  let g := Rpower (n 0%nat * n 1%nat * n 2%nat) (1 / 3) in
  fun k => if Rlt_dec (r * n 0%nat) (n 2%nat) then nearest (lam_min tr) (lam_max tr) (nearest (g / sqrt r) (g * sqrt r) (n k)) else n k.
(** the values above t; how many; their product *)
Definition exceeding (t : R) (s : list R) : list R := filter (fun x => if Rlt_dec t x then true else false) s.
Definition rank (t : R) (v : view) : nat := length (exceeding t (sv v)).
Definition weight (t : R) (v : view) : R := fold_right Rmult 1 (exceeding t (sv v)).
(** l' has the values above t of l and the smallest of them in place of all others *)
Definition lifted (t : R) (l l' : nat -> R) : Prop :=
  (forall k, (k < 3)%nat -> t < l k -> l' k = l k) /\
  (forall j, (j < 3)%nat -> t < l j -> (forall i, (i < 3)%nat -> t < l i -> l j <= l i) -> forall k, (k < 3)%nat -> l k <= t -> l' k = l j).
(** what the eigensolver finds for a: an orthonormal basis q and l = q^T a q, ascending; with success they are eigenvectors and
    eigenvalues up to 90 eps *)
Definition analysed (eps : R) (sweeps : nat) (a : matrix) (l : nat -> R) (q : matrix) : Prop :=
  orthonormal 3 q /\ orthonormal 3 (transposed q) /\ ascending l /\ (forall k, (k < 3)%nat -> l k = form a (column q k)) /\
  ((exists e0 V0, SvdModel.jacobi_eigen eps sweeps 3 (store 3 3 a) [0; 0; 0] (repeat 0 9) = Some (true, e0, V0)) -> eigen_pairs 3 a (10 * INR 3 * INR 3 * eps) l q).
(** the geometric mean *)
Definition geometric (ds : list (nat -> R)) : nat -> R := fun i => exp (total (map (fun d => ln (d i)) ds) / INR (length ds)).
