(** C47: Householder QR. *)
From Verif Require Import Prelude RSum DenseModel DenseSpec DenseProofs2 QrModel QrSpec QrProofs QrProofs2.
Local Open Scope R_scope.

(** For every N x M matrix with 0 < M <= N, every tolerance and every initial content of the
    output and work memory: no access is out of range, Q is orthogonal, R is upper
    triangular, and every column of A - Q R has length at most the tolerance. *)
Theorem C47_qr : forall eps N M a Q Rm W v tau, 0 <= eps -> (0 < M <= N)%nat ->
  length Q = (N * N)%nat -> length Rm = (M * M)%nat -> length W = (N * M)%nat -> length v = N -> length tau = M ->
  exists q r, householder_qr eps N M (store N M a) Q Rm W v tau = Some (store N N q, store M M r) /\
    orthonormal N q /\ upper_triangular M r /\ forall j, (j < M)%nat -> norm2 N (residual M a q r j) <= eps.
Proof. exact householder_qr_ok. Qed.
Print Assumptions C47_qr.
(** With exact arithmetic and no tolerance A = Q R. *)
Theorem C47_exact : forall N M a Q Rm W v tau, (0 < M <= N)%nat ->
  length Q = (N * N)%nat -> length Rm = (M * M)%nat -> length W = (N * M)%nat -> length v = N -> length tau = M ->
  exists q r, householder_qr 0 N M (store N M a) Q Rm W v tau = Some (store N N q, store M M r) /\
    orthonormal N q /\ upper_triangular M r /\ forall i j, (i < N)%nat -> (j < M)%nat -> a i j = Rsum M (fun m => q i m * r m j).
Proof.
  intros N M a Q Rm W v tau HM HQ HR HW Hv Ht. destruct (C47_qr 0 N M a Q Rm W v tau (Rle_refl 0) HM HQ HR HW Hv Ht) as (q & r & E & H1 & H2 & H3).
  exists q, r. split; [exact E|]. split; [exact H1|]. split; [exact H2|]. intros i j Hi Hj. apply Rminus_diag_uniq. fold (residual M a q r j i).
  specialize (H3 j Hj). unfold norm2 in H3. set (s := Rsum N (fun i => residual M a q r j i * residual M a q r j i)) in H3.
  assert (Hs : 0 <= s) by (apply DenseProofs.Rsum_nonneg; intros k _; apply (Rle_0_sqr (residual M a q r j k))).
  assert (E0 : s = 0) by (apply sqrt_eq_0; [exact Hs|]; pose proof (sqrt_pos s); lra).
  pose proof (DenseProofs.Rsum_nonneg_zero N _ (fun k _ => Rle_0_sqr (residual M a q r j k)) E0 i Hi) as Z. now apply Rsqr_0_uniq.
Qed.
Print Assumptions C47_exact.
(** A matrix with dependent columns, more rows than columns. *)
Example C47_ex : exists q r, householder_qr 0 3 2 (store 3 2 (fun i j => INR (i + 1))) (repeat 0 9) (repeat 0 4) (repeat 0 6) (repeat 0 3) (repeat 0 2) = Some (store 3 3 q, store 2 2 r) /\ orthonormal 3 q /\ r 1%nat 0%nat = 0.
Proof.
  destruct (C47_exact 3 2 (fun i j => INR (i + 1)) (repeat 0 9) (repeat 0 4) (repeat 0 6) (repeat 0 3) (repeat 0 2)) as (q & r & E & H1 & H2 & _); try reflexivity; [lia|].
  exists q, r. split; [exact E|]. split; [exact H1|]. apply H2; lia.
Qed.
