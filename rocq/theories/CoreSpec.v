(** What the elemental matrix should be, independently of how it is stored and computed. *)
From Verif Require Import Prelude RSum CoreModel.
Local Open Scope R_scope.

(** The jdim x idim matrix a tensor stands for.  A scalar tensor for a scalar function (idim = 1)
    in a vector expression (jdim > 1) multiplies every component. *)
Definition unit_entry (jdim idim k j : nat) : R := if (jdim =? idim)%nat then if (k =? j)%nat then 1 else 0 else 1.
Definition tmat (t : tensor) (jdim idim k j : nat) : R :=
  match t with
  | TNull => unit_entry jdim idim k j
  | TScalar s => s * unit_entry jdim idim k j
  | TSym m | TGen m => nth (k + jdim * j) m 0
  end.
(** Tensors the library documents as acceptable *)
Definition tensor_ok (jdim idim nfa : nat) (t : tensor) : Prop :=
  match t with
  | TNull | TScalar _ => jdim = idim \/ (nfa = 1 /\ idim = 1)%nat
  | TSym m => jdim = idim /\ length m = (jdim * idim)%nat /\ forall k j, (k < jdim)%nat -> (j < jdim)%nat -> nth (k + jdim * j) m 0 = nth (j + jdim * k) m 0
  | TGen m => length m = (jdim * idim)%nat
  end.

(** [band_of U dim nf q f u]: the stored block-diagonal matrix U represents u, where u r n k i
    is component k of the operator applied to basis function i at point n of element r. *)
Definition band_of (U : band) (dim nf q f : nat) (u : nat -> nat -> nat -> nat -> R) : Prop :=
  let P := nparts U in
  let row d := nth d (st_row U) 0%nat in let col d := nth d (st_col U) 0%nat in
  (1 <= P)%nat /\ length (st_row U) = S P /\ length (st_col U) = S P /\
  row 0%nat = 0%nat /\ row P = dim /\ col 0%nat = 0%nat /\ col P = nf /\
  (forall d, (d < P)%nat -> (row d <= row (S d))%nat /\ (col d <= col (S d))%nat) /\
  (forall d, (d < P)%nat -> exists data, nth_error (parts U) d = Some (data, (q * (row (S d) - row d))%nat) /\
    forall r n k i, (r < f)%nat -> (n < q)%nat -> (row d <= k < row (S d))%nat -> (col d <= i < col (S d))%nat ->
      nth_error data ((k - row d) + n * (row (S d) - row d) + q * (row (S d) - row d) * ((i - col d) + (col (S d) - col d) * r)) = Some (u r n k i)) /\
  (forall d d' r n k i, (d < P)%nat -> (d' < P)%nat -> d <> d' -> (r < f)%nat -> (n < q)%nat ->
    (row d <= k < row (S d))%nat -> (col d' <= i < col (S d'))%nat -> u r n k i = 0).

(** Point n of element r *)
Definition xyz (q : nat) (XYG : list R) (r n : nat) : point :=
  let c := (3 * (n + r * q))%nat in (nth c XYG 0, nth (c + 1) XYG 0, nth (c + 2) XYG 0).

(** Component k of D OpA(phi_i), or of its product with the normal *)
Definition flux (D : nat -> nat -> R) (N : nat -> R) (normal : bool) (dimA : nat) (u : nat -> R) (k : nat) : R :=
  if normal then Rsum 3 (fun c => N c * Rsum dimA (fun j => D (c + 3 * k)%nat j * u j))
  else Rsum dimA (fun j => D k j * u j).
(** Quadrature sum of (D OpA(phi_i)) . OpB(psi_j) *)
Definition form (q dimA dimB : nat) (w : nat -> R) (mes : R) (D : nat -> nat -> nat -> R) (N : nat -> R) (normal : bool) (u v : nat -> nat -> R) : R :=
  Rsum q (fun n => w n * mes * Rsum dimB (fun k => flux (D n) N normal dimA (u n) k * v n k)).

(** What a tensor trait promises about the user's function *)
Definition promise (F : functor) (constant : bool) (sp : sparsity) (q f : nat) (X : nat -> nat -> point) : Prop :=
  (constant = true -> forall r n, (r < f)%nat -> (n < q)%nat -> F (X r n) r = F (0, 0, 0) 0%nat) /\
  match sp with
  | Fixed k => forall r n, (r < f)%nat -> (n < q)%nat -> kind (F (X r n) r) = k
  | PerTetra => forall r n, (r < f)%nat -> (n < q)%nat -> kind (F (X r n) r) = kind (F (X r 0%nat) r)
  | PerSelection => forall r n, (r < f)%nat -> (n < q)%nat -> kind (F (X r n) r) = kind (F (X 0%nat 0%nat) 0%nat)
  | PerPoint => True
  end.
