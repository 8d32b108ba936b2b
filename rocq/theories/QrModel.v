(** Householder QR: fem/geometry.h:407-495, the branch without Eigen.  The work memory mem
    is split by the code into W (N*M), v (N) and tau (M); they are separate lists here. *)
From Verif Require Import Prelude RSum DenseModel.
Local Open Scope R_scope.

(* geometry.h:434-437 *)
Definition qr_norm (N k : nat) (W : list R) : option R :=
  do s <- for_range k (N - k) (fun i s => do w <- rd W (i + k * N); Some (s + w * w)) 0;
  Some (sqrt s).
(* geometry.h:459-465, and the same text at 484-490 for Q: column j of X is reflected *)
Definition reflect_col (N k j : nat) (t : R) (v X : list R) : option (list R) :=
  do vk <- rd v k; do x <- rd X (k + j * N);
  do dot <- for_range (S k) (N - S k) (fun i d => do a <- rd v i; do b <- rd X (i + j * N); Some (d + a * b)) (vk * x);
  let dot := dot * t in
  do x <- rd X (k + j * N);
  do X <- wr X (k + j * N) (x - dot * vk);
  for_range (S k) (N - S k) (fun i X => do x <- rd X (i + j * N); do a <- rd v i; wr X (i + j * N) (x - dot * a)) X.
Definition qr_state : Type := (list R * list R * list R)%type.
(* geometry.h:433-467: W, tau, v *)
Definition qr_step (eps : R) (N M k : nat) (st : qr_state) : option qr_state :=
  let '(W, tau, v) := st in
  do norm <- qr_norm N k W;
  if Rle_dec norm eps then
    do tau <- wr tau k 0;
    do v <- wr v k 1;
    do v <- for_range (S k) (N - S k) (fun i v => wr v i 0) v;
    Some (W, tau, v)
  else
    do alpha <- rd W (k + k * N);
    let beta := if Rle_dec 0 alpha then - norm else norm in
    let t := (beta - alpha) / beta in
    do tau <- wr tau k t;
    let inv_denom := 1 / (alpha - beta) in
    do v <- wr v k 1;
    do v <- for_range (S k) (N - S k) (fun i v => do w <- rd W (i + k * N); wr v i (w * inv_denom)) v;
    do W <- wr W (k + k * N) beta;
    do W <- for_range (S k) (N - S k) (fun i W => do x <- rd v i; wr W (i + k * N) x) W;
    do W <- for_range (S k) (M - S k) (fun j W => do t <- rd tau k; reflect_col N k j t v W) W;
    Some (W, tau, v).
(* geometry.h:469-471 *)
Definition qr_R (N M : nat) (W Rm : list R) : option (list R) :=
  for_ M (fun j Rm => for_ M (fun i Rm =>
    do x <- (if (i <=? j)%nat then rd W (i + j * N) else Some 0); wr Rm (i + j * M) x) Rm) Rm.
(* geometry.h:473-475 *)
Definition qr_I (N : nat) (Q : list R) : option (list R) :=
  for_ N (fun j Q => for_ N (fun i Q => wr Q (i + j * N) (if (i =? j)%nat then 1 else 0)) Q) Q.
(* geometry.h:477-492; k runs downwards *)
Definition qr_Q (N M : nat) (W tau v Q : list R) : option (list R) :=
  do r <- for_ M (fun s st => let '(v, Q) := st in let k := (M - 1 - s)%nat in
    do t <- rd tau k;
    if Req_EM_T t 0 then Some (v, Q) else
      do v <- wr v k 1;
      do v <- for_range (S k) (N - S k) (fun i v => do x <- rd W (i + k * N); wr v i x) v;
      do Q <- for_ N (fun j Q => do t <- rd tau k; reflect_col N k j t v Q) Q;
      Some (v, Q)) (v, Q);
  Some (snd r).
(* geometry.h:415-495 *)
Definition householder_qr (eps : R) (N M : nat) (A Q Rm W v tau : list R) : option (list R * list R) :=
  do W <- copy_n (N * M) A W;
  do st <- for_ M (qr_step eps N M) (W, tau, v);
  let '(W, tau, v) := st in
  do Rm <- qr_R N M W Rm;
  do Q <- qr_I N Q;
  do Q <- qr_Q N M W tau v Q;
  Some (Q, Rm).
