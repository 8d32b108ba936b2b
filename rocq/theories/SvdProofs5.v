(** Runs that end at once, runs that never end, and three decompositions computed by hand. *)
From Verif Require Import Prelude RSum DenseSpec QrSpec QrProofs SvdModel SvdSpec SvdProofs SvdProofs2 SvdProofs3 SvdProofs4.
Local Open Scope R_scope.

Lemma jac_sweep_skip : forall tol n a v, (forall p q, (p < q)%nat -> (q < n)%nat -> Rabs (a p q) <= tol) -> jac_sweep tol n (store n n a, store n n v) = Some (store n n a, store n n v).
Proof.
  intros tol n a v H. unfold jac_sweep. set (AV := (store n n a, store n n v)).
  destruct (for_inv (fun _ x => x = AV) n (fun p AV => for_range (S p) (n - S p) (fun q AV => jac_rot tol n p q AV) AV) AV) as (s & E & ->); [reflexivity| |exact E].
  intros p s Hp ->. destruct (for_range_inv (fun _ x => x = AV) (n - S p) (S p) (fun q AV => jac_rot tol n p q AV) AV) as (s & E & ->); [reflexivity| |eauto].
  intros q s Hq ->. exists AV. split; [|reflexivity]. unfold AV, jac_rot. rewrite mrd_store by lia. cbn [obind]. destruct (Rle_dec (Rabs (a p q)) tol) as [|C]; [reflexivity|]. exfalso. apply C. apply H; lia.
Qed.
Lemma jac_loop_stuck : forall tol n a v sweeps, (forall p q, (p < q)%nat -> (q < n)%nat -> Rabs (a p q) <= tol) -> tol * tol < off_diagonal n a ->
  jac_loop tol n sweeps (store n n a, store n n v) = Some (false, (store n n a, store n n v)).
Proof.
  intros tol n a v sweeps H L. induction sweeps as [|k IH]; cbn [jac_loop fst]; [reflexivity|]. rewrite jac_off_ok. cbn [obind]. destruct (Rle_dec (off_diagonal n a) (tol * tol)); [lra|]. rewrite jac_sweep_skip by assumption. cbn [obind]. exact IH.
Qed.
Lemma jac_loop_done : forall tol n a v sweeps, off_diagonal n a <= tol * tol -> jac_loop tol n (S sweeps) (store n n a, store n n v) = Some (true, (store n n a, store n n v)).
Proof. intros tol n a v sweeps H. cbn [jac_loop fst]. rewrite jac_off_ok. cbn [obind]. destruct (Rle_dec (off_diagonal n a) (tol * tol)); [reflexivity|contradiction]. Qed.
Lemma jacobi_eigen_done : forall eps sweeps n a e V, length e = n -> length V = (n * n)%nat -> off_diagonal n a <= jac_tol eps n * jac_tol eps n ->
  jacobi_eigen eps (S sweeps) n (store n n a) e V = Some (true, arr n (fun i => a i i), store n n identity).
Proof. intros eps sweeps n a e V He HV H. unfold jacobi_eigen. rewrite jac_init_ok by assumption. cbn [obind]. rewrite jac_loop_done by assumption. cbn [obind]. rewrite jac_eval_ok by assumption. reflexivity. Qed.
Lemma jac_loop_small : forall tol n a v sweeps, 0 <= tol -> (n <= 2)%nat -> symmetric n a -> exists a' v', jac_loop tol n (S (S sweeps)) (store n n a, store n n v) = Some (true, (store n n a', store n n v')).
Proof.
  intros tol n a v sweeps Ht Hn Sy. destruct (Rle_dec (off_diagonal n a) (tol * tol)) as [L|L]; [exists a, v; now apply jac_loop_done|].
  assert (n = 2)%nat. { destruct n as [|[|n]]; [| |lia]; exfalso; apply L; unfold off_diagonal; cbn; rewrite ?Rplus_0_l; apply Rmult_le_pos; lra. } subst n.
  assert (EO : forall b, off_diagonal 2 b = b 0%nat 1%nat * b 0%nat 1%nat) by (intros b; unfold off_diagonal; cbn; ring).
  cbn [jac_loop fst]. rewrite jac_off_ok. cbn [obind]. destruct (Rle_dec (off_diagonal 2 a) (tol * tol)); [contradiction|].
  destruct (jac_rot_ok tol 2 0 1 a v) as [[Q _]|(Q & c & s & P & Z & E)]; try lia; try assumption.
  { exfalso. apply L. rewrite EO. assert (X := Rsqr_le_abs_1 (a 0%nat 1%nat) tol). unfold Rsqr in X. apply X. rewrite (Rabs_pos_eq tol) by assumption. exact Q. }
  assert (ES : jac_sweep tol 2 (store 2 2 a, store 2 2 v) = Some (store 2 2 (rotm 0 1 c s a), store 2 2 (rotc 0 1 c s v))).
  { unfold jac_sweep, for_. cbn [for_range Nat.sub Nat.add]. rewrite E. reflexivity. }
  rewrite ES. cbn [obind]. exists (rotm 0 1 c s a), (rotc 0 1 c s v). apply jac_loop_done. rewrite EO, Z. rewrite Rmult_0_l. now apply Rmult_le_pos.
Qed.

(** ** three decompositions *)
Lemma sqrt_one_of : forall x, x * x = 1 -> sqrt (Rmax 0 (x * x)) = 1.
Proof. intros x ->. rewrite Rmax_right by lra. apply sqrt_1. Qed.
(* the matrix 0 of size 1 *)
Lemma svd_zero : forall eps sweeps, 0 < eps -> jacobiSVD eps (S sweeps) 1 1 [0] (Some [7]) [5] (Some [7]) [7] [7] [7] = Some (true, Some [0], [0], Some [1]).
Proof.
  intros eps sweeps He. unfold jacobiSVD. cbn [Nat.leb]. change [0] with (store 1 1 (fun _ _ : nat => 0)) at 1. rewrite gram_ata_ok by reflexivity. cbn [obind]. unfold svd_half.
  rewrite (jacobi_eigen_done eps sweeps 1 _ [7] [7]); [|reflexivity|reflexivity|].
  2:{ unfold off_diagonal. cbn. rewrite !Rplus_0_l. fold (Rsqr (jac_tol eps 1)). apply Rle_0_sqr. }
  cbn [obind negb]. replace (Rsum 1 (fun _ => 0 * 0)) with 0 by (cbn; ring). unfold sort_desc, sort_eigen, sel_best, for_. cbn.
  rewrite Rmax_right, sqrt_0 by lra. destruct (Rlt_dec eps 0); [lra|]. cbn. reflexivity.
Qed.
(* the column (1, 0) *)
Lemma svd_column : forall eps sweeps, 0 < eps < 1 -> jacobiSVD eps (S sweeps) 2 1 [1; 0] (Some [7; 7; 7; 7]) [5] (Some [7]) [7] [7] [7] = Some (true, Some [1; 0; 0; 0], [1], Some [1]).
Proof.
  intros eps sweeps He. unfold jacobiSVD. cbn [Nat.leb]. replace [1; 0] with (store 2 1 (fun i _ => if (i =? 0)%nat then 1 else 0)) by reflexivity. rewrite gram_ata_ok by reflexivity. cbn [obind]. unfold svd_half.
  rewrite (jacobi_eigen_done eps sweeps 1 _ [7] [7]); [|reflexivity|reflexivity|].
  2:{ unfold off_diagonal. cbn. rewrite !Rplus_0_l. fold (Rsqr (jac_tol eps 1)). apply Rle_0_sqr. }
  cbn [obind negb]. unfold sort_desc, sort_eigen, sel_best, for_. cbn. replace (0 + 1 * 1 + 0 * 0) with 1 by ring.
  rewrite Rmax_right, sqrt_1 by lra. destruct (Rlt_dec eps 1); [|lra]. cbn.
  unfold complete_cols, ortho_col, col_norm, for_. cbn.
  repeat match goal with |- context [sqrt ?x] => lazymatch x with 0 => fail | _ => replace x with 0 by field end end. rewrite sqrt_0.
  destruct (Rle_dec 0 eps); [|lra]. cbn.
  destruct (Rlt_dec eps 0); [lra|]. cbn. repeat f_equal; field.
Qed.
(* the matrix d d / 0 d with d^2 <= 40 eps *)
Lemma svd_tiny : forall eps sweeps d, 0 < eps < d -> d * d <= 40 * eps -> exists w,
  jacobiSVD eps (S sweeps) 2 2 [d; 0; d; d] (Some [7; 7; 7; 7]) [5; 5] (Some [7; 7; 7; 7]) [7; 7; 7; 7] [7; 7; 7; 7] [7; 7] = Some (true, Some [w; w; 1; 0], [sqrt (2 * (d * d)); d], Some [0; 1; 1; 0]) /\ 0 < w.
Proof.
  intros eps sweeps d He Hd. assert (Dp : 0 < d * d) by (apply Rmult_lt_0_compat; lra). exists (d / sqrt (2 * (d * d))). split; [|apply Rdiv_lt_0_compat; [lra|apply sqrt_lt_R0; lra]].
  unfold jacobiSVD. cbn [Nat.leb]. replace [d; 0; d; d] with (store 2 2 (fun i j => if ((i =? 1) && (j =? 0))%nat then 0 else d)) by reflexivity. rewrite gram_ata_ok by reflexivity. cbn [obind]. unfold svd_half.
  rewrite (jacobi_eigen_done eps sweeps 2 _ [7; 7] [7; 7; 7; 7]); [|reflexivity|reflexivity|].
  2:{ unfold off_diagonal, jac_tol. cbn. replace (10 * (1 + 1) * (1 + 1) * eps) with (40 * eps) by ring. set (x := d * d) in *.
      match goal with |- ?l <= _ => replace l with (x * x) by (unfold x; ring) end. apply Rmult_le_compat; lra. }
  cbn [obind negb].
  match goal with |- context [sort_desc 2 ?x] => assert (ES : sort_desc 2 x = Some ([2 * (d * d); d * d], [0; 1; 1; 0])) end.
  { unfold sort_desc, sort_eigen, sel_best, for_. cbn. replace (0 + d * d + 0 * 0) with (d * d) by ring. replace (0 + d * d + d * d) with (2 * (d * d)) by ring.
    unfold gtb. destruct (Rlt_dec (d * d) (2 * (d * d))) as [_|C]; [|lra]. unfold swap_cols, for_. cbn. reflexivity. }
  rewrite ES. cbn [obind]. unfold sing_vals, for_. cbn. rewrite !Rmax_right by lra. rewrite (sqrt_square d) by lra.
  assert (S2 : d <= sqrt (2 * (d * d))). { rewrite <- (sqrt_square d) at 1 by lra. apply sqrt_le_1_alt. lra. }
  destruct (Rlt_dec eps (sqrt (2 * (d * d)))); [|lra]. cbn. destruct (Rlt_dec eps d); [|lra]. cbn. unfold complete_cols. cbn. repeat f_equal; field; lra.
Qed.
