(** Metrics, independently of how they are computed.  A metric is a symmetric 3 x 3 matrix; an array holds XX YY ZZ XY YZ XZ. *)
From Verif Require Import Prelude RSum GeoModel GeoSpec DenseSpec QrSpec SvdSpec.
Local Open Scope R_scope.

(** the matrix an array of six numbers stands for *)
Definition metric_of (m : list R) : matrix := fun i j =>
  nth (match i, j with O, O => 0 | 1, 1 => 1 | 2, 2 => 2 | O, 1 | 1, O => 3 | 1, 2 | 2, 1 => 4 | O, 2 | 2, O => 5 | _, _ => 6 end)%nat m 0.
(** x^T a x and |x|^2 *)
Definition form (a : matrix) (x : nat -> R) : R := inner 3 x (mult 3 a x).
Definition sq (x : nat -> R) : R := inner 3 x x.
Definition between (lo hi : R) (a : matrix) : Prop := forall x, lo * sq x <= form a x <= hi * sq x.
(** squared lengths of unit vectors differ at most by the factor r *)
Definition anisotropy (r : R) (a : matrix) : Prop := forall x y, form a x * sq y <= r * form a y * sq x.
Definition ascending (e : nat -> R) : Prop := e 0%nat <= e 1%nat <= e 2%nat.
(** a has exactly the orthonormal eigenvectors v with the values e *)
Definition spectrum (a : matrix) (e : nat -> R) (v : matrix) : Prop :=
  symmetric 3 a /\ orthonormal 3 v /\ orthonormal 3 (transposed v) /\ forall i k, (i < 3)%nat -> (k < 3)%nat -> mult 3 a (column v k) i = e k * v i k.
(** the array has at least six numbers, those beyond are kept *)
Definition kept (m m' : list R) : Prop := length m' = length m /\ forall k, (6 <= k)%nat -> nth k m' 0 = nth k m 0.
Definition scalar_metric (c : R) (m : list R) : Prop := forall i j, (i < 3)%nat -> (j < 3)%nat -> metric_of m i j = c * identity i j.
(** the nearest number of [lo, hi] *)
Definition nearest (lo hi x : R) : R := Rmin hi (Rmax lo x).
Definition total (l : list R) : R := fold_right Rplus 0 l.
(** (B d, d) for B stored by columns *)
Definition product (n : nat) (B d : list R) : R := Rsum n (fun i => nth i d 0 * Rsum n (fun j => nth (i + n * j) B 0 * nth j d 0)).
(** a tetrahedron: volume; area and centroid of the face with the vertices f, f + 1, f + 2 (mod 4) *)
Definition next (f k : nat) : nat := ((f + k) mod 4)%nat.
Definition volume (x : nat -> vec) : R := Rabs (tetdet (x 0%nat) (x 1%nat) (x 2%nat) (x 3%nat)) / 6.
Definition face_area (x : nat -> vec) (f : nat) : R := sqrt (gram2 (x f) (x (next f 1)) (x (next f 2))) / 2.
Definition middle (x : nat -> vec) (f i : nat) : R := (co (x f) i + co (x (next f 1)) i + co (x (next f 2)) i) / 3.
(** the gradient b + G^T y of a quadratic polynomial with the second derivatives G, integrated over the face f *)
Definition face_flux (x : nat -> vec) (b : nat -> R) (G : matrix) (f j : nat) : R := face_area x f * (b j + Rsum 3 (fun i => G i j * middle x f i)).
