(** Dense linear algebra: fem/geometry.h:203-403, the branch without Eigen.
    Doubles are reals; a pointer is a list of reals.  [None] is an access out of range.
    A thrown exception is the value [None] inside. *)
From Verif Require Import Prelude RSum.
Local Open Scope R_scope.

(** std::copy(src, src + n, dst) *)
Definition copy_n {A} (n : nat) (src dst : list A) : option (list A) :=
  for_ n (fun i dst => do v <- rd src i; wr dst i v) dst.

(** geometry.h:220 macro ID *)
Definition pid (N i j : nat) : nat := ((i - j) + (2 * N + 1 - j) * j / 2)%nat.

(** geometry.h:221-223 *)
Definition chol_pack (N : nat) (A L : list R) : option (list R) :=
  for_ N (fun k L => for_range k (N - k) (fun i L => do v <- rd A (i + k * N); wr L (pid N i k) v) L) L.
(** the same loop when mem coincides with A (geometry.h:209) *)
Definition chol_pack_inplace (N : nat) (L : list R) : option (list R) :=
  for_ N (fun k L => for_range k (N - k) (fun i L => do v <- rd L (i + k * N); wr L (pid N i k) v) L) L.

(** geometry.h:228-233, one step after the test of the pivot *)
Definition chol_step (N k : nat) (L : list R) : option (list R) :=
  do d <- rd L (pid N k k);
  do L <- wr L (pid N k k) (sqrt d);
  do L <- for_range (S k) (N - S k) (fun i L =>
      do x <- rd L (pid N i k); do y <- rd L (pid N k k); wr L (pid N i k) (x / y)) L;
  for_range (S k) (N - S k) (fun j L => for_range j (N - j) (fun i L =>
      do x <- rd L (pid N i j); do a <- rd L (pid N i k); do b <- rd L (pid N j k); wr L (pid N i j) (x - a * b)) L) L.
(** geometry.h:225-234 *)
Definition chol_factor (N : nat) (L : list R) : option (option (list R)) :=
  for_ N (fun k st => match st with
    | None => Some None
    | Some L => do d <- rd L (pid N k k);
                if Rle_dec d 0 then Some None else do L <- chol_step N k L; Some (Some L)
    end) (Some L).

(** geometry.h:239-245 *)
Definition chol_forward (N M : nat) (L Y : list R) : option (list R) :=
  for_ N (fun i Y => for_ M (fun k Y =>
    do Y <- for_ i (fun j Y => do y <- rd Y (i + N * k); do z <- rd Y (j + N * k); do l <- rd L (pid N i j); wr Y (i + N * k) (y - z * l)) Y;
    do y <- rd Y (i + k * N); do d <- rd L (pid N i i); wr Y (i + k * N) (y / d)) Y) Y.
(** geometry.h:246-252; the loops run downwards *)
Definition chol_backward (N M : nat) (L X : list R) : option (list R) :=
  for_ N (fun t X => let i := (N - 1 - t)%nat in for_ M (fun k X =>
    do X <- for_ t (fun u X => let j := (N - 1 - u)%nat in
        do x <- rd X (i + k * N); do z <- rd X (j + k * N); do l <- rd L (pid N j i); wr X (i + k * N) (x - z * l)) X;
    do x <- rd X (i + k * N); do d <- rd L (pid N i i); wr X (i + k * N) (x / d)) X) X.

(** geometry.h:236-252 after the factorisation: [same] when X is the memory of B, then X
    already holds the right-hand side *)
Definition chol_finish (N M : nat) (L : list R) (same : bool) (B X : list R) : option (list R) :=
  do Y <- (if same then Some X else copy_n (N * M) B X);
  do Y <- chol_forward N M L Y;
  chol_backward N M L Y.
(** geometry.h:211-254 cholesky_solve; [inplace] when mem is the memory of A, then mem
    already holds A.  The result holds X and mem. *)
Definition cholesky_solve (N M : nat) (inplace same : bool) (A B X mem : list R) : option (option (list R * list R)) :=
  do L <- (if inplace then chol_pack_inplace N mem else chol_pack N A mem);
  do st <- chol_factor N L;
  match st with
  | None => Some None
  | Some L => do X <- chol_finish N M L same B X; Some (Some (X, L))
  end.

(** geometry.h:263-265 and 398-400: the identity matrix *)
Definition fill_identity (N : nat) (Inv : list R) : option (list R) :=
  do Inv <- for_ (N * N) (fun i Inv => wr Inv i 0) Inv;
  for_ N (fun i Inv => wr Inv (i + i * N) 1) Inv.
(** geometry.h:262-267 cholesky_inverse *)
Definition cholesky_inverse (N : nat) (inplace : bool) (A Inv mem : list R) : option (option (list R * list R)) :=
  do Inv <- fill_identity N Inv;
  cholesky_solve N N inplace true A Inv Inv mem.

(** geometry.h:276-316 fullPivLU.  [eps] is numeric_limits::epsilon(). *)
(* 279-288: largest entry; None when every entry is zero (pi = pj = -1) *)
Definition find_pivot (N k : nat) (A : list R) : option (R * option (nat * nat)) :=
  for_range k (N - k) (fun i st => for_range k (N - k) (fun j st =>
    do v <- rd A (i + j * N);
    if Rlt_dec (fst st) (Rabs v) then Some (Rabs v, Some (i, j)) else Some st) st) (0, None).
Definition swap_cells {A} (m : list A) (i j : nat) : option (list A) :=
  do x <- rd m i; do y <- rd m j; do m <- wr m i y; wr m j x.
(* 291-292 and 295-296 *)
Definition swap_rows (N k pi : nat) (A : list R) : option (list R) :=
  for_ N (fun j A => swap_cells A (k + j * N) (pi + j * N)) A.
Definition swap_cols (N k pj : nat) (A : list R) : option (list R) :=
  for_ N (fun i A => swap_cells A (i + k * N) (i + pj * N)) A.
(* 297-299 *)
Definition max_below (N k : nat) (A : list R) : option R :=
  for_range (S k) (N - S k) (fun i m => do v <- rd A (i + k * N); Some (Rmax m (Rabs v))) 0.
(* 304-311 *)
Definition eliminate (N k : nat) (A : list R) : option (list R) :=
  for_range (S k) (N - S k) (fun i A =>
    do x <- rd A (i + k * N); do d <- rd A (k + k * N);
    let tmp := x / d in
    do A <- wr A (i + k * N) tmp;
    for_range (S k) (N - S k) (fun j A => do y <- rd A (i + j * N); do u <- rd A (k + j * N); wr A (i + j * N) (y - tmp * u)) A) A.
Definition lu_state : Type := (list R * list nat * list nat)%type.
Definition lu_step (eps : R) (N k : nat) (st : lu_state) : option lu_state :=
  let '(A, p, q) := st in
  do mp <- find_pivot N k A;
  do ij <- snd mp;
  let '(pi, pj) := ij in let max := fst mp in
  do p <- swap_cells p k pi;
  do A <- swap_rows N k pi A;
  do q <- swap_cells q k pj;
  do A <- swap_cols N k pj A;
  do max1 <- max_below N k A;
  do A <- (if Rlt_dec 0 max then if Rlt_dec 0 max1 then if Rlt_dec eps (max1 / max) then eliminate N k A else Some A else Some A else Some A);
  Some (A, p, q).
Definition full_piv_lu (eps : R) (N : nat) (st : lu_state) : option lu_state := for_ N (lu_step eps N) st.

(** geometry.h:326-357 LU_solve; the result is X (B is scratch) *)
(* 333-334: first row with a nonzero entry *)
Fixpoint first_nonzero (N l i n : nat) (X : list R) : option nat :=
  match n with
  | O => Some i
  | S n => do v <- rd X (i + N * l); if Req_EM_T v 0 then first_nonzero N l (S i) n X else Some i
  end.
Definition lu_forward (N M : nat) (LU X : list R) : option (list R) :=
  for_ M (fun l X =>
    do i0 <- first_nonzero N l 0 N X;
    for_range i0 (N - i0) (fun i X =>
      do v <- rd X (i + N * l);
      do v <- for_ i (fun j v => do a <- rd LU (i + j * N); do x <- rd X (j + N * l); Some (v - a * x)) v;
      wr X (i + N * l) v) X) X.
Definition lu_backward (N M : nat) (LU X : list R) : option (list R) :=
  for_ M (fun l X =>
    do _ <- guard (1 <=? N)%nat;
    do x <- rd X ((N - 1) + N * l); do d <- rd LU ((N - 1) + N * (N - 1));
    do X <- wr X ((N - 1) + N * l) (x / d);
    for_ (N - 1) (fun t X => let i := (N - 2 - t)%nat in
      do v <- rd X (i + N * l);
      do v <- for_range (S i) (N - S i) (fun j v => do a <- rd LU (i + N * j); do x <- rd X (j + N * l); Some (v - a * x)) v;
      do d <- rd LU (i + N * i);
      wr X (i + N * l) (v / d)) X) X.
Definition gather_rows (N M : nat) (p : list nat) (B X : list R) : option (list R) :=
  for_ M (fun l X => for_ N (fun i X => do s <- rd p i; do v <- rd B (s + N * l); wr X (i + N * l) v) X) X.
Definition lu_solve (N M : nat) (LU : list R) (p q : list nat) (B X : list R) : option (list R) :=
  do X <- gather_rows N M p B X;
  do X <- lu_forward N M LU X;
  do X <- lu_backward N M LU X;
  do B <- copy_n (N * M) X B;
  gather_rows N M q B X.

(** geometry.h:368-385 fullPivLU_solve; the work memory is fresh (its old content is
    overwritten before it is read: mem holds a copy of A and a copy of B) *)
Definition full_piv_lu_solve (eps : R) (N M : nat) (A B X : list R) : option (list R) :=
  do Am <- copy_n (N * N) A (repeat 0 (N * N));
  do Bm <- copy_n (N * M) B (repeat 0 (N * M));
  do st <- full_piv_lu eps N (Am, seq 0 N, seq 0 N);
  let '(LU, p, q) := st in
  lu_solve N M LU p q Bm X.
(** geometry.h:393-403 fullPivLU_inverse; [same] when Inv is the memory of A *)
Definition full_piv_lu_inverse (eps : R) (N : nat) (same : bool) (A Inv : list R) : option (list R) :=
  do Inv <- fill_identity N Inv;
  full_piv_lu_solve eps N N (if same then Inv else A) Inv Inv.
