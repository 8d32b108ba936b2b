(** Eigenvectors and singular vectors, independently of how they are computed.  Matrices are functions row -> column -> number. *)
From Verif Require Import Prelude RSum DenseSpec QrSpec.
Local Open Scope R_scope.

(** a x, for a with m columns *)
Definition mult (m : nat) (a : matrix) (x : nat -> R) : nat -> R := fun i => Rsum m (fun j => a i j * x j).
Definition inner (n : nat) (x y : nat -> R) : R := Rsum n (fun i => x i * y i).
Definition column (a : matrix) (j : nat) : nat -> R := fun i => a i j.
Definition transposed (a : matrix) : matrix := fun i j => a j i.
Definition decreasing (n : nat) (e : nat -> R) : Prop := forall i j, (i < j)%nat -> (j < n)%nat -> e j <= e i.
(** the columns of v are orthonormal; e are the Rayleigh quotients; a v_j = e_j v_j up to a vector of length tol *)
Definition eigen_pairs (n : nat) (a : matrix) (tol : R) (e : nat -> R) (v : matrix) : Prop :=
  orthonormal n v /\
  forall j, (j < n)%nat -> inner n (column v j) (mult n a (column v j)) = e j /\ norm2 n (fun i => mult n a (column v j) i - e j * v i j) <= tol.
(** the columns of a matrix are permuted together with the numbers *)
Definition rearranged (n : nat) (e : nat -> R) (v : matrix) (e' : nat -> R) (v' : matrix) : Prop :=
  exists s : nat -> nat, (forall i, (i < n)%nat -> (s i < n)%nat) /\ (forall i j, (i < n)%nat -> (j < n)%nat -> s i = s j -> i = j) /\
    (forall i, (i < n)%nat -> e' i = e (s i)) /\ (forall i j, (i < n)%nat -> (j < n)%nat -> v' i j = v i (s j)).
(** the sum of u_j s_j v_j^T *)
Definition factors (k : nat) (u : matrix) (s : nat -> R) (v : matrix) : matrix := fun i j => Rsum k (fun c => u i c * s c * v j c).
(** the numbers above the diagonal *)
Definition off_diagonal (n : nat) (a : matrix) : R := Rsum n (fun i => Rsum n (fun j => if (i <? j)%nat then a i j * a i j else 0)).
(** v are right singular vectors of b (l x k) with values s: |b v_j| = s_j, and the b v_j are orthogonal up to tol *)
Definition right_vectors (l k : nat) (b : matrix) (tol : R) (s : nat -> R) (v : matrix) : Prop :=
  orthonormal k v /\ orthonormal k (transposed v) /\ decreasing k s /\
  (forall j, (j < k)%nat -> 0 <= s j /\ norm2 l (mult k b (column v j)) = s j) /\
  (forall i j, (i < k)%nat -> (j < k)%nat -> i <> j -> Rabs (inner l (mult k b (column v i)) (mult k b (column v j))) <= tol).
(** u are the left singular vectors: b v_j = s_j u_j with |u_j| = 1 for s_j > eps; nothing is said when s_j <= eps *)
Definition left_vectors (l k : nat) (b : matrix) (eps : R) (s : nat -> R) (u v : matrix) : Prop :=
  forall j, (j < k)%nat -> eps < s j -> norm2 l (column u j) = 1 /\ forall i, (i < l)%nat -> mult k b (column v j) i = s j * u i j.
(** a = v^T a0 v with v orthogonal *)
Definition similar (n : nat) (a0 a v : matrix) : Prop :=
  symmetric n a /\ orthonormal n v /\ orthonormal n (transposed v) /\
  forall i j, (i < n)%nat -> (j < n)%nat -> inner n (column v i) (mult n a0 (column v j)) = a i j.
(** if the first k columns are orthonormal, all are, or a later one is almost zero *)
Definition completed (n k : nat) (eps : R) (u : matrix) : Prop :=
  (forall c d, (c < k)%nat -> (d < k)%nat -> inner n (column u c) (column u d) = if (c =? d)%nat then 1 else 0) ->
  orthonormal n u \/ exists j, (k <= j < n)%nat /\ norm2 n (column u j) <= eps.
