(** C50: values computed with automatic differentiation carry the true gradient and Hessian. *)
From Coq Require Import Reals Lra Lia.
From Verif Require Import Prelude AdModel AdSpec AdProofs AdProofs2 AdProofs3 AdProofs4 AdProofs5 AdProofs6 AdProofs7 AdProofs8.
Open Scope R_scope.

(** *** Every expression *)

(** Whatever the storage of gradients and Hessians (any pairing of the Hessian elements with
    gradient elements), whatever the directions the gradient elements of the leaves are
    derivatives along, and for every order n of derivatives wanted: an expression built of the
    overloaded operations carries the value, the derivatives and the second derivatives of the
    function it denotes, and its State flags again never hide a derivative.

    Partial: the divisor of a quotient must have NotTrivialSecondDeriv when n = 2, and hypot needs
    two elements at least, the first of which is computed to the order n ([admissible]); see the
    refutations below. *)
Theorem C50_derivatives_partial : forall st dir x n leaf u e, pairs_ok st ->
  (forall i, carries st dir x n (u i) (leaf i) /\ flags_sound st n (leaf i)) ->
  smooth u x e -> admissible st leaf n e ->
  carries st dir x n (denote u e) (run st leaf e) /\ flags_sound st n (run st leaf e).
Proof. intros st dir x n leaf u e Hp HL HS HA. exact (good_run st dir x n leaf u Hp HL e HS HA). Qed.
Print Assumptions C50_derivatives_partial.

(** *** VarPool<N>: functions of N variables *)

Theorem C50_variables_partial : forall N n m x e, (n <= m)%nat ->
  let st := arr_storage N in
  let leaf i := var st i (x i) m in
  let f := denote (fun i y => y i) e in
  smooth (fun i y => y i) x e -> admissible st leaf n e ->
  let r := run st leaf e in
  val r = f x /\
  ((1 <= n)%nat -> forall k, (k < N)%nat -> exists d, nth_error (D r) k = Some d /\ D1 f (unit_dir k) x d) /\
  ((2 <= n)%nat -> forall i j, (i < N)%nat -> (j < N)%nat ->
     exists d, nth_error (DD r) (sym_cont N i j) = Some d /\ D2 f (unit_dir i) (unit_dir j) x d).
Proof.
  intros N n m x e Hm st leaf f HS HA r.
  destruct (good_run st unit_dir x n leaf (fun i y => y i) (arr_pairs N)) with (e := e) as ((V & L1 & L2 & H1 & H2) & _); auto.
  { intros i. now apply good_var. }
  fold r f in V, L1, L2, H1, H2. split; [exact V|]. split.
  - intros Hn k Hk. exists (nth k (D r) 0). split; [apply nth_error_nth'; rewrite L1; exact Hk|]. now apply H1.
  - intros Hn i j Hi Hj. exists (nth (sym_cont N i j) (DD r) 0).
    destruct (arr_at N i j Hi Hj) as [E|E].
    + split; [|apply (H2 Hn _ _ _ E)]. apply nth_error_nth'. rewrite L2. apply nth_error_Some. unfold st. now rewrite E.
    + split; [|apply (H2 Hn _ _ _ E)]. apply nth_error_nth'. rewrite L2. apply nth_error_Some. unfold st. now rewrite E.
Qed.
Print Assumptions C50_variables_partial.

(** SymMtx<3> is written out in the library; its order of elements is that of SymMtx<N> *)
Theorem C50_symmtx3 : arr3_storage = arr_storage 3 /\ (forall i j, (i < 3)%nat -> (j < 3)%nat -> sym3_cont i j = sym_cont 3 i j).
Proof.
  split; [reflexivity|]. intros i j Hi Hj. destruct i as [|[|[|i]]], j as [|[|[|j]]]; try reflexivity; lia.
Qed.
Print Assumptions C50_symmtx3.

(** *** Functions of the N*N elements of a tensor: gradient in PhysMtx<N>, Hessian in SymTensor4Rank<N> *)
Theorem C50_tensor_variables_partial : forall N n m x e, (n <= m)%nat ->
  let st := tensor_storage N in
  let leaf i := var st i (x i) m in
  let f := denote (fun i y => y i) e in
  smooth (fun i y => y i) x e -> admissible st leaf n e ->
  let r := run st leaf e in
  val r = f x /\
  ((1 <= n)%nat -> forall i j, (i < N)%nat -> (j < N)%nat ->
     exists d, nth_error (D r) (j + N * i) = Some d /\ D1 f (unit_dir (j + N * i)) x d) /\
  ((2 <= n)%nat -> forall i j k l, (i < N)%nat -> (j < N)%nat -> (k < N)%nat -> (l < N)%nat ->
     exists d, nth_error (DD r) (t4_cont N i j k l) = Some d /\ D2 f (unit_dir (j + N * i)) (unit_dir (l + N * k)) x d).
Proof.
  intros N n m x e Hm st leaf f HS HA r.
  destruct (good_run st unit_dir x n leaf (fun i y => y i) (tensor_pairs N)) with (e := e) as ((V & L1 & L2 & H1 & H2) & _); auto.
  { intros i. now apply good_var. }
  fold r f in V, L1, L2, H1, H2. split; [exact V|]. split.
  - intros Hn i j Hi Hj. assert (Hk : (j + N * i < N * N)%nat) by nia.
    exists (nth (j + N * i) (D r) 0). split; [apply nth_error_nth'; rewrite L1; exact Hk|]. now apply H1.
  - intros Hn i j k l Hi Hj Hk Hl. exists (nth (t4_cont N i j k l) (DD r) 0).
    destruct (tensor_at N i j k l Hi Hj Hk Hl) as [E|E].
    + split; [|apply (H2 Hn _ _ _ E)]. apply nth_error_nth'. rewrite L2. apply nth_error_Some. unfold st. now rewrite E.
    + split; [|apply (H2 Hn _ _ _ E)]. apply nth_error_nth'. rewrite L2. apply nth_error_Some. unfold st. now rewrite E.
Qed.
Print Assumptions C50_tensor_variables_partial.

(** *** Functions of a symmetric 3x3 tensor given by leaves with derivatives along the directions
    (e_i e_j + e_j e_i) / 2: gradient in SymMtx<3>, Hessian in BiSymTensor4Rank<3> *)
Theorem C50_symmetric_partial : forall n x leaf u e,
  let st := sym3_storage in
  (forall i, carries st sym_dir x n (u i) (leaf i) /\ flags_sound st n (leaf i)) ->
  smooth u x e -> admissible st leaf n e ->
  let r := run st leaf e in
  val r = denote u e x /\
  ((1 <= n)%nat -> forall i j, (i < 3)%nat -> (j < 3)%nat ->
     exists d, nth_error (D r) (sym3_cont i j) = Some d /\ D1 (denote u e) (sym_dir (sym3_cont i j)) x d) /\
  ((2 <= n)%nat -> forall i j k l, (i < 3)%nat -> (j < 3)%nat -> (k < 3)%nat -> (l < 3)%nat ->
     exists d, nth_error (DD r) (bi3_cont i j k l) = Some d /\
       D2 (denote u e) (sym_dir (sym3_cont i j)) (sym_dir (sym3_cont k l)) x d).
Proof.
  intros n x leaf u e st HL HS HA r.
  destruct (good_run st sym_dir x n leaf u sym3_pairs HL e HS HA) as ((V & L1 & L2 & H1 & H2) & _).
  fold r in V, L1, L2, H1, H2. split; [exact V|]. split.
  - intros Hn i j Hi Hj.
    assert (Hk : (sym3_cont i j < 6)%nat) by (destruct i as [|[|[|i]]], j as [|[|[|j]]]; cbn; lia).
    eexists. split; [apply (nth_error_nth' _ 0); rewrite L1; exact Hk|]. now apply H1.
  - intros Hn i j k l Hi Hj Hk Hl. exists (nth (bi3_cont i j k l) (DD r) 0).
    destruct (sym3_at i j k l Hi Hj Hk Hl) as [E|E].
    + split; [|apply (H2 Hn _ _ _ E)]. apply nth_error_nth'. rewrite L2. apply nth_error_Some. unfold st. now rewrite E.
    + split; [|apply (H2 Hn _ _ _ E)]. apply nth_error_nth'. rewrite L2. apply nth_error_Some. unfold st. now rewrite E.
Qed.
Print Assumptions C50_symmetric_partial.

(** The hypotheses are met: exp(x0 * x1) / (1 + x1 * x1) + x0^x1 - log(x0), two variables *)
Definition sample : expr :=
  Sub (Add (Div (Fn Exp (Mul (Leaf 0) (Leaf 1))) (Add (Const 1) (Mul (Leaf 1) (Leaf 1)))) (Pow (Leaf 0) (Leaf 1))) (Fn Log (Leaf 0)).
Definition at_23 (i : nat) : R := match i with O => 2 | _ => 3 end.
Example C50_met : smooth (fun i y => y i) at_23 sample /\
  admissible (arr_storage 2) (fun i => var (arr_storage 2) i (at_23 i) 2) 2 sample.
Proof.
  split.
  - cbn. repeat split; lra.
  - cbn [admissible sample]. repeat split; auto.
Qed.
(** the gradient and the Hessian of x0 * x1 *)
Example C50_product : let r := run (arr_storage 2) (fun i => var (arr_storage 2) i (at_23 i) 2) (Mul (Leaf 0) (Leaf 1)) in
  val r = 6 /\ D r = [3; 2] /\ DD r = [0; 1; 0].
Proof. cbn. repeat split; try (repeat f_equal; ring); lra. Qed.

(** *** Wrong results *)

Definition one_var (x : R) (i : nat) : ad := var (arr_storage 1) i x 2.
Definition two_var (x : nat -> R) (i : nat) : ad := var (arr_storage 2) i (x i) 2.

Lemma coordinate : forall m i k l x, (m <= 2)%nat ->
  DJ m (fun y : nat -> R => y i) (unit_dir k) (unit_dir l) x (if (k =? i)%nat then 1 else 0) (if (l =? i)%nat then 1 else 0) 0.
Proof.
  intros m i k l x Hm.
  assert (L : forall k y, D1 (fun y : nat -> R => y i) (unit_dir k) y (if (k =? i)%nat then 1 else 0)).
  { intros q y. unfold D1, line, unit_dir. rewrite Nat.eqb_sym. destruct (i =? q)%nat eqn:E;
      (eapply lim_eq; [apply lim_plus; [apply lim_const|apply lim_mult; [apply lim_id|apply lim_const]]|]; cbv beta; ring). }
  split; intros H; [split; apply L|]. exists 1, (fun _ => if (k =? i)%nat then 1 else 0). split; [lra|]. split; [intros; apply L|apply lim_const].
Qed.

(** 1 / x of a variable x: the Hessian at x = 1 is 0 instead of 2 *)
Theorem C50_reciprocal_refuted : let e := Div (Const 1) (Leaf 0) in let x := fun _ => 1 in
  smooth (fun i y => y i) x e /\
  DD (run (arr_storage 1) (one_var 1) e) = [0] /\
  D2 (denote (fun i y => y i) e) (unit_dir 0) (unit_dir 0) x 2 /\
  ~ D2 (denote (fun i y => y i) e) (unit_dir 0) (unit_dir 0) x 0.
Proof.
  intros e x. split; [cbn; repeat split; unfold x; lra|]. split; [reflexivity|].
  assert (T : D2 (denote (fun i y => y i) e) (unit_dir 0) (unit_dir 0) x 2).
  { apply (DJ_same 2 (fun y => / y 0%nat) _ (unit_dir 0) (unit_dir 0) x (- (/ 1 * / 1) * 1) (- (/ 1 * / 1) * 1) 2); [|intros; cbn; unfold Rdiv; ring|lia].
    eapply DJ_eq; [apply (DJ_comp 2 (fun y => y 0%nat) (fun y => / y)); [apply coordinate; lia|apply fn2_inv; unfold x; lra]|..]; cbn; unfold x; field. }
  split; [exact T|]. intros F. pose proof (D2_unique _ _ _ _ _ _ T F). lra.
Qed.
Print Assumptions C50_reciprocal_refuted.

(** x0 / x1 of two variables: the second derivative in x1 at (1, 1) is 0 instead of 2 *)
Theorem C50_quotient_refuted : let e := Div (Leaf 0) (Leaf 1) in let x := fun _ => 1 in
  smooth (fun i y => y i) x e /\
  nth_error (DD (run (arr_storage 2) (two_var x) e)) (sym_cont 2 1 1) = Some 0 /\
  ~ D2 (denote (fun i y => y i) e) (unit_dir 1) (unit_dir 1) x 0.
Proof.
  intros e x. split; [cbn; repeat split; unfold x; lra|]. split; [cbn; f_equal; unfold x; field|].
  assert (T : D2 (denote (fun i y => y i) e) (unit_dir 1) (unit_dir 1) x 2).
  { assert (T : DJ 2 (fun y => y 0%nat * / y 1%nat) (unit_dir 1) (unit_dir 1) x (-1) (-1) 2).
    { eapply DJ_eq; [apply (DJ_mult 2 (fun y => y 0%nat) (fun y => / y 1%nat)); [apply coordinate; lia|
        apply (DJ_comp 2 (fun y => y 1%nat) (fun y => / y)); [apply coordinate; lia|apply fn2_inv; unfold x; lra]]|..]; cbn; unfold x; field. }
    apply (DJ_same _ _ (denote (fun i y => y i) e) _ _ _ _ _ _ T); [reflexivity|lia]. }
  intros F. pose proof (D2_unique _ _ _ _ _ _ T F). lra.
Qed.
Print Assumptions C50_quotient_refuted.

(** hypot of one element is the element itself, also when it is negative *)
Theorem C50_hypot_one_refuted : let e := Hypot [Leaf 0] in let x := fun _ => -1 in
  smooth (fun i y => y i) x e /\ val (run (arr_storage 1) (one_var (-1)) e) = -1 /\ denote (fun i y => y i) e x = 1.
Proof.
  intros e x. split; [cbn; repeat split; unfold x; lra|]. split; [reflexivity|].
  cbn. unfold x. replace (-1 * -1 + 0) with (1 * 1) by ring. apply sqrt_square. lra.
Qed.
Print Assumptions C50_hypot_one_refuted.

(** hypot takes the order of derivatives from its first element: with pow(x, 0), which has the order 0,
    in front the gradient at 1 of sqrt(1 + x^4) is 0 *)
Theorem C50_hypot_order_refuted : let e := Hypot [PowZ (Leaf 0) 0; PowZ (Leaf 0) 2] in let x := fun _ => 1 in
  smooth (fun i y => y i) x e /\
  (let a := run (arr_storage 1) (one_var 1) (PowZ (Leaf 0) 0) in let b := run (arr_storage 1) (one_var 1) (PowZ (Leaf 0) 2) in
   nt1 a = nt1 b /\ nt2 a = nt2 b) /\
  D (run (arr_storage 1) (one_var 1) e) = [0] /\ ~ D1 (denote (fun i y => y i) e) (unit_dir 0) x 0.
Proof.
  intros e x. assert (P1 : forall q, powerRZ 1 q = 1) by (intros [|p|p]; cbn; rewrite ?pow1; lra).
  split; [cbn [smooth e denote fold_right all]; repeat split; try lia; unfold integer_power, x; rewrite !P1; lra|].
  split; [split; reflexivity|]. split; [reflexivity|].
  assert (Q : forall q, D1 (fun y => powerRZ (y 0%nat) q) (unit_dir 0) x (IZR q)).
  { intros q. replace (IZR q) with (IZR q * powerRZ (x 0%nat) (q - 1) * 1) by (unfold x; rewrite P1; ring).
    apply (D1_comp (fun y => y 0%nat) (fun t => powerRZ t q)); [apply (proj1 (coordinate 1 0 0 0 x ltac:(lia))); lia|].
    apply powZ_lim. intros _. unfold x. lra. }
  pose proof (D1_plus _ _ _ _ _ _ (D1_mult _ _ _ _ _ _ (Q 0%Z) (Q 0%Z)) (D1_plus _ _ _ _ _ _ (D1_mult _ _ _ _ _ _ (Q 2%Z) (Q 2%Z)) (D1_const 0 _ x))) as T.
  apply (D1_comp _ sqrt _ _ _ (/ (2 * sqrt 2))) in T.
  2:{ cbv beta. unfold x. rewrite !P1. replace (1 * 1 + (1 * 1 + 0)) with 2 by ring. apply derivable_pt_lim_sqrt. lra. }
  intros F. pose proof (D1_unique _ _ _ _ _ T F) as E. unfold x in E. rewrite !P1 in E.
  assert (Hs : 0 < sqrt 2) by (apply sqrt_lt_R0; lra).
  assert (/ (2 * sqrt 2) <> 0) by (apply Rinv_neq_0_compat; lra).
  apply Rmult_integral in E as [E|E]; lra.
Qed.
Print Assumptions C50_hypot_order_refuted.

(** pow(x, 2.0) of a variable at x = 0: the Hessian of x^2 is given as 0 *)
Theorem C50_pow_zero_refuted :
  DD (run (arr_storage 1) (one_var 0) (PowR (Leaf 0) 2)) = [0] /\
  D2 (fun y => y 0%nat * y 0%nat) (unit_dir 0) (unit_dir 0) (fun _ => 0) 2.
Proof.
  split.
  - cbn [run one_var var]. unfold ad_powr. destruct (Req_EM_T 2 0) as [E|_]; [lra|]. cbn [nt1 negb dif val D Nat.leb].
    unfold opt. cbn. destruct (Req_EM_T 0 0) as [_|E]; [|lra]. apply f_equal2; [ring|reflexivity].
  - assert (T : DJ 2 (fun y : nat -> R => y 0%nat * y 0%nat) (unit_dir 0) (unit_dir 0) (fun _ => 0) 0 0 2).
    { eapply DJ_eq; [apply DJ_mult; apply coordinate; lia|..]; cbn; ring. }
    apply (proj2 T). lia.
Qed.
Print Assumptions C50_pow_zero_refuted.

(** A Var over a symmetric tensor: the variable E_01 has the derivative 1/2 along (e_0 e_1 + e_1 e_0) / 2, the
    stored element is 1.  (The other leaves, the invariants of C52, store derivatives along these directions) *)
Theorem C50_symmetric_variable_refuted : forall x,
  nth_error (D (var sym3_storage (sym3_cont 0 1) x 1)) (sym3_cont 0 1) = Some 1 /\
  forall p, D1 (fun E => E (sym3_cont 0 1)) (sym_dir (sym3_cont 0 1)) p (/ 2).
Proof.
  intros x. split; [reflexivity|]. intros p. unfold D1, line, sym_dir. cbn.
  eapply lim_eq; [apply lim_plus; [apply lim_const|apply lim_mult; [apply lim_id|apply lim_const]]|]. cbv beta. ring.
Qed.
Print Assumptions C50_symmetric_variable_refuted.

(** Symmetric tensors of the second order: BiSymTensor4Rank<2> returns the indices of another element, and the
    product of the variables E_00 and E_01 has 0 in the place of the mixed derivative *)
Theorem C50_symmetric2_refuted : let st := sym_storage 2 in let c := bi_cont 2 0 0 0 1 in
  bi_index 2 c = Some (0, 0, 0, 0)%nat /\
  nth_error (DD (run st (fun i => var st i 1 2) (Mul (Leaf (sym_cont 2 0 0)) (Leaf (sym_cont 2 0 1))))) c = Some 0 /\
  D2 (fun E : nat -> R => E (sym_cont 2 0 0) * E (sym_cont 2 0 1)) (unit_dir (sym_cont 2 0 0)) (unit_dir (sym_cont 2 0 1)) (fun _ => 1) 1.
Proof.
  split; [reflexivity|]. split; [cbn; f_equal; ring|].
  assert (T : DJ 2 (fun E : nat -> R => E (sym_cont 2 0 0) * E (sym_cont 2 0 1)) (unit_dir (sym_cont 2 0 0)) (unit_dir (sym_cont 2 0 1)) (fun _ => 1) 1 1 1).
  { eapply DJ_eq; [apply DJ_mult; apply coordinate; lia|..]; cbn; ring. }
  apply (proj2 T). lia.
Qed.
Print Assumptions C50_symmetric2_refuted.
