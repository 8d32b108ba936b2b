(** Jacobi eigenvalues of symmetric matrices and singular value decomposition: fem/geometry.h:19-21, 497-729, the branch without
    Eigen.  m[i + j*n] is [mrd m n i j]; doubles are reals, [eps] is numeric_limits<Scalar>::epsilon().
    The work memory mem is split by the code into gram (K*K), evecs_buf (K*K) and eval (K); they are separate lists here. *)
From Verif Require Import Prelude RSum.
From Coq Require Export Reals Lra.
Local Open Scope R_scope.

(** std::atan2 *)
Definition atan2 (y x : R) : R :=
  if Rlt_dec 0 x then atan (y / x)
  else if Rlt_dec x 0 then if Rle_dec 0 y then atan (y / x) + PI else atan (y / x) - PI
  else if Rlt_dec 0 y then PI / 2 else if Rlt_dec y 0 then - (PI / 2) else 0.

(** geometry.h:501-503 *)
Definition jac_init (n : nat) (V : list R) : option (list R) :=
  for_ n (fun j V => for_ n (fun i V => mwr V n i j (if (i =? j)%nat then 1 else 0)) V) V.
(** geometry.h:508-511 *)
Definition jac_off (n : nat) (A : list R) : option R :=
  for_ n (fun p o => for_range (S p) (n - S p) (fun q o => do x <- mrd A n p q; Some (o + x * x)) o) 0.
(** geometry.h:527-534 *)
Definition jac_rows (n p q : nat) (c s : R) (A : list R) : option (list R) :=
  for_ n (fun k A => if ((k =? p) || (k =? q))%nat then Some A else
    do gkp <- mrd A n k p; do gkq <- mrd A n k q;
    do A <- mwr A n p k (c * gkp - s * gkq); do A <- mwr A n k p (c * gkp - s * gkq);
    do A <- mwr A n q k (s * gkp + c * gkq); mwr A n k q (s * gkp + c * gkq)) A.
(** geometry.h:535-537 *)
Definition jac_diag (n p q : nat) (c s app aqq apq : R) (A : list R) : option (list R) :=
  do A <- mwr A n p p (c * c * app - 2 * s * c * apq + s * s * aqq);
  do A <- mwr A n q q (s * s * app + 2 * s * c * apq + c * c * aqq);
  do A <- mwr A n q p 0; mwr A n p q 0.
(** geometry.h:539-544 *)
Definition jac_vecs (n p q : nat) (c s : R) (V : list R) : option (list R) :=
  for_ n (fun k V => do vkp <- mrd V n k p; do vkq <- mrd V n k q;
    do V <- mwr V n k p (c * vkp - s * vkq); mwr V n k q (s * vkp + c * vkq)) V.
(** geometry.h:518-544 *)
Definition jac_rot (tol : R) (n p q : nat) (AV : list R * list R) : option (list R * list R) :=
  let '(A, V) := AV in
  do apq <- mrd A n p q;
  if Rle_dec (Rabs apq) tol then Some (A, V) else
  do app <- mrd A n p p; do aqq <- mrd A n q q;
  let theta := 1 / 2 * atan2 (2 * apq) (aqq - app) in
  let c := cos theta in let s := sin theta in
  do A <- jac_rows n p q c s A;
  do A <- jac_diag n p q c s app aqq apq A;
  do V <- jac_vecs n p q c s V;
  Some (A, V).
(** geometry.h:516-546 *)
Definition jac_sweep (tol : R) (n : nat) (AV : list R * list R) : option (list R * list R) :=
  for_ n (fun p AV => for_range (S p) (n - S p) (fun q AV => jac_rot tol n p q AV) AV) AV.
(** geometry.h:506-547: [true] is err = 0 *)
Fixpoint jac_loop (tol : R) (n sweeps : nat) (AV : list R * list R) : option (bool * (list R * list R)) :=
  match sweeps with
  | O => Some (false, AV)
  | S k => do off <- jac_off n (fst AV); if Rle_dec off (tol * tol) then Some (true, AV) else do AV <- jac_sweep tol n AV; jac_loop tol n k AV
  end.
(** geometry.h:505 *)
Definition jac_tol (eps : R) (n : nat) : R := 10 * INR n * INR n * eps.
(** geometry.h:552-553 *)
Definition jac_eval (n : nat) (A e : list R) : option (list R) := for_ n (fun i e => do x <- mrd A n i i; wr e i x) e.
(** jacobi_symmetric_eigen, geometry.h:500-555: [true] is the value 0; [sweeps] is ANIFEM_JACOBI_MAX_SWEEPS *)
Definition jacobi_eigen (eps : R) (sweeps n : nat) (A e V : list R) : option (bool * list R * list R) :=
  do V <- jac_init n V;
  do (ok, (A, V)) <- jac_loop (jac_tol eps n) n sweeps (A, V);
  if ok : bool then do e <- jac_eval n A e; Some (true, e, V) else Some (false, e, V).

(** std::swap of two cells *)
Definition swap_at (m : list R) (i j : nat) : option (list R) := do x <- rd m i; do y <- rd m j; do m <- wr m i y; wr m j x.
(** geometry.h:569-570, adapt_mesh.cpp:87-88: swap of two columns *)
Definition swap_cols (n i b : nat) (V : list R) : option (list R) := for_ n (fun k V => swap_at V (k + n * i) (k + n * b)) V.
(** geometry.h:561-564 with >, adapt_mesh.cpp:79-82 with < *)
Definition sel_best (better : R -> R -> bool) (n i : nat) (e : list R) : option nat :=
  for_range (S i) (n - S i) (fun j b => do x <- rd e j; do y <- rd e b; Some (if better x y then j else b)) i.
Definition sort_eigen (better : R -> R -> bool) (n : nat) (eV : list R * list R) : option (list R * list R) :=
  for_ n (fun i eV => let '(e, V) := eV in do b <- sel_best better n i e;
    if (b =? i)%nat then Some (e, V) else do e <- swap_at e i b; do V <- swap_cols n i b V; Some (e, V)) eV.
Definition gtb (x y : R) : bool := if Rlt_dec y x then true else false.
Definition ltb (x y : R) : bool := if Rlt_dec x y then true else false.
(** sort_eigen_desc, geometry.h:557-572 *)
Definition sort_desc := sort_eigen gtb.

(** geometry.h:579-585, 591-598: column j becomes the unit vector e minus its projections to the columns before *)
Definition ortho_col (n j e : nat) (Q : list R) : option (list R) :=
  do Q <- for_ n (fun i Q => mwr Q n i j (if (i =? e)%nat then 1 else 0)) Q;
  for_ j (fun c Q =>
    do dot <- for_ n (fun i d => do x <- mrd Q n i c; do y <- mrd Q n i j; Some (d + x * y)) 0;
    for_ n (fun i Q => do x <- mrd Q n i j; do y <- mrd Q n i c; mwr Q n i j (x - dot * y)) Q) Q.
(** geometry.h:586-589, 600-603 *)
Definition col_norm (n j : nat) (Q : list R) : option R :=
  do s <- for_ n (fun i d => do x <- mrd Q n i j; Some (d + x * x)) 0; Some (sqrt s).
(** complete_orthonormal_cols, geometry.h:574-609 *)
Definition complete_cols (eps : R) (n done : nat) (Q : list R) : option (list R) :=
  for_range done (n - done) (fun j Q =>
    do Q <- ortho_col n j ((j - done) mod n) Q;
    do norm <- col_norm n j Q;
    do (Q, norm) <- (if Rle_dec norm eps then do Q <- ortho_col n j ((j + 1) mod n) Q; do norm <- col_norm n j Q; Some (Q, norm) else Some (Q, norm));
    if Rlt_dec eps norm then for_ n (fun i Q => do x <- mrd Q n i j; mwr Q n i j (x / norm)) Q else Some Q) Q.

(** gram_ata, geometry.h:611-620: a is n x m *)
Definition gram_ata (n m : nat) (a g : list R) : option (list R) :=
  for_ m (fun j g => for_range j (m - j) (fun k g =>
    do s <- for_ n (fun i s => do x <- mrd a n i j; do y <- mrd a n i k; Some (s + x * y)) 0;
    do g <- mwr g m k j s; mwr g m j k s) g) g.
(** gram_aat, geometry.h:622-631 *)
Definition gram_aat (n m : nat) (a g : list R) : option (list R) :=
  for_ n (fun j g => for_range j (n - j) (fun k g =>
    do s <- for_ m (fun i s => do x <- mrd a n j i; do y <- mrd a n k i; Some (s + x * y)) 0;
    do g <- mwr g n k j s; mwr g n j k s) g) g.
(** geometry.h:682-683, 709-710 *)
Definition sing_vals (k : nat) (e S : list R) : option (list R) := for_ k (fun i S => do x <- rd e i; wr S i (sqrt (Rmax 0 x))) S.
(** geometry.h:686-698: the columns of U (rows n) from those of V (rows m); [el t i] reads the element of A for row t of V
    and row i of U; and geometry.h:713-725 with the two exchanged *)
Definition other_cols (eps : R) (el : nat -> nat -> option R) (n m : nat) (V S U : list R) : option (list R) :=
  for_ m (fun j U => do sj <- rd S j;
    if Rlt_dec eps sj then
      for_ n (fun i U => do sum <- for_ m (fun t s => do x <- el t i; do y <- mrd V m t j; Some (s + x * y)) 0; mwr U n i j (sum / sj)) U
    else for_ n (fun i U => mwr U n i j 0) U) U.
(** jacobiSVD, geometry.h:643-729.  The results U, V are [None] when the pointers are null.  Simplified: both branches are the
    same function of the matrix g, the smaller size k, the larger size l and the access to A; K = k.
    The answer is (0 as [true], U, S, V) *)
Definition svd_half (eps : R) (sweeps k l : nat) (el : nat -> nat -> option R) (g : list R) (small big : option (list R)) (buf e S : list R)
  : option (bool * option (list R) * list R * option (list R)) :=
  do (ok, e, W) <- jacobi_eigen eps sweeps k g e (match small with Some v => v | None => buf end);
  if negb ok then Some (false, match small with Some _ => Some W | None => None end, S, big) else
  do (e, W) <- sort_desc k (e, W);
  do S <- sing_vals k e S;
  do big <- match big with
    | Some U => do U <- other_cols eps el l k W S U; do U <- complete_cols eps l k U; Some (Some U)
    | None => Some None end;
  Some (true, match small with Some _ => Some W | None => None end, S, big).
Definition jacobiSVD (eps : R) (sweeps N M : nat) (A : list R) (U : option (list R)) (S : list R) (V : option (list R)) (gram buf e : list R)
  : option (bool * option (list R) * list R * option (list R)) :=
  if (M <=? N)%nat then
    do g <- gram_ata N M A gram;
    do (ok, V, S, U) <- svd_half eps sweeps M N (fun t i => mrd A N i t) g V U buf e S;
    Some (ok, U, S, V)
  else
    do g <- gram_aat N M A gram;
    do (ok, U, S, V) <- svd_half eps sweeps N M (fun t i => mrd A N t i) g U V buf e S;
    Some (ok, U, S, V).
