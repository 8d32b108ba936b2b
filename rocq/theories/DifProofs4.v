(** Solutions of the assembled systems *)
From Coq Require Import Reals Permutation Lra.
From Verif Require SparsityModel SparsitySpec.
From Verif Require Import Prelude DofModel DofSpec DofProofs RSum CoreModel CoreSpec AsmModel AsmSpec AsmProofs AsmProps UtModel DifModel DifSpec DifProofs DifProofs2 DifProofs3.
Open Scope R_scope.

Lemma sign2 : forall m i, sign m i * sign m i = 1.
Proof. intros m i. unfold sign. destruct (nth i _ _); ring. Qed.
Lemma lsum_nonneg : forall {A} (g : A -> R) l, (forall x, In x l -> 0 <= g x) -> 0 <= lsum (map g l).
Proof. intros A g l. induction l as [|x l IH]; intros H; cbn; [lra|]. unfold lsum in IH. pose proof (H x (or_introl eq_refl)). pose proof (IH (fun y Hy => H y (or_intror Hy))). lra. Qed.
Lemma Rsum_nonneg' : forall n g, (forall i, (i < n)%nat -> 0 <= g i) -> 0 <= Rsum n g.
Proof. induction n as [|n IH]; intros g H; [cbn; lra|]. rewrite Rsum_S. pose proof (IH g (fun i Hi => H i (Nat.lt_lt_succ_r _ _ Hi))). pose proof (H n (Nat.lt_succ_diag_r n)). lra. Qed.

(** *** Dirichlet rows *)
Definition used (n : nat) (mesh : list mcell) (r : nat) : R := lsum (map (fun m => Rsum n (fun i => if (number m i =? r)%nat then 1 else 0)) mesh).
Lemma used_pos : forall n mesh r, (exists m i, In m mesh /\ (i < n)%nat /\ number m i = r) -> 0 < used n mesh r.
Proof.
  intros n mesh r (m & i & Hm & Hi & E). unfold used. apply in_split in Hm. destruct Hm as (l1 & l2 & ->). rewrite map_app, lsum_app. cbn [map lsum fold_right]. fold lsum.
  assert (N : forall l, 0 <= lsum (map (fun m => Rsum n (fun i => if (number m i =? r)%nat then 1 else 0)) l)).
  { intros l. apply lsum_nonneg. intros y _. apply Rsum_nonneg'. intros k _. destruct (number y k =? r)%nat; lra. }
  pose proof (N l1). pose proof (N l2). unfold lsum in *. rewrite (Rsum_remove n i) by exact Hi. rewrite E, Nat.eqb_refl.
  assert (0 <= Rsum n (fun k => if (k =? i)%nat then 0 else if (number m k =? r)%nat then 1 else 0)).
  { apply Rsum_nonneg'. intros k _. destruct (k =? i)%nat; [lra|]. destruct (number m k =? r)%nat; lra. }
  lra.
Qed.

Section Rows.
Variables (d : dmap) (mesh : list mcell) (D : nat -> bool) (v : nat -> R) (a : mcell -> nat -> nat -> R) (f : mcell -> nat -> R).
Let n := num_dof_tet d.
Let P (m : mcell) := on_dirichlet d (g_isd (m_c m)).
Let ea (m : mcell) := eliminated (P m) (a m).
Let ef (m : mcell) := eliminated_load n (P m) (dir_value d (g_u0 (m_c m))) (a m) (f m).
Hypothesis HD : dirichlet_dofs d mesh D v.

Lemma dirichlet_row : forall x r, D r = true -> galerkin_residual n ea ef mesh x r = used n mesh r * (x r - v r).
Proof.
  intros x r Hr. unfold galerkin_residual, used. rewrite <- lsum_scal_r. apply lsum_ext. intros m Hm. rewrite <- Rsum_scal_r. apply Rsum_ext. intros i Hi.
  destruct (Nat.eqb_spec (number m i) r) as [E|]; [|ring]. destruct (HD m i Hm Hi) as [Hp Hv]. rewrite E in Hp, Hv.
  unfold ea, ef, eliminated, eliminated_load. unfold P at 1 3. rewrite Hp, Hr. cbn [orb]. rewrite (Rsum_single n i); [|exact Hi|].
  - rewrite Nat.eqb_refl, (Hv Hr). unfold local_coef. rewrite E. pose proof (sign2 m i) as S2. transitivity (sign m i * sign m i * (x r - v r)); [ring|]. rewrite S2. ring.
  - intros j _ Hne. destruct (Nat.eqb_spec i j); [congruence|ring].
Qed.
Lemma free_row : forall x r, D r = false -> galerkin_residual n ea ef mesh x r = galerkin_residual n a f mesh (fun c => if D c then v c else x c) r.
Proof.
  intros x r Hr. unfold galerkin_residual. apply lsum_ext. intros m Hm. apply Rsum_ext. intros i Hi.
  destruct (Nat.eqb_spec (number m i) r) as [E|]; [|ring]. f_equal. destruct (HD m i Hm Hi) as [Hp _]. rewrite E in Hp.
  unfold ea, ef, eliminated, eliminated_load. unfold P at 1 3. rewrite Hp, Hr. cbn [orb].
  assert (Q : Rsum n (fun j => a m i j * local_coef m (fun c => if D c then v c else x c) j)
    = Rsum n (fun j => (if P m j then if (i =? j)%nat then 1 else 0 else a m i j) * local_coef m x j) + Rsum n (fun j => if P m j then a m i j * dir_value d (g_u0 (m_c m)) j else 0)).
  { rewrite <- Rsum_plus. apply Rsum_ext. intros j Hj. destruct (HD m j Hm Hj) as [Hpj Hvj]. unfold P at 1 2. rewrite Hpj. unfold local_coef. destruct (D (number m j)) eqn:Dj.
    - rewrite Hvj by reflexivity. destruct (Nat.eqb_spec i j) as [<-|]; [rewrite E in Dj; congruence|]. ring.
    - ring. }
  rewrite Q. ring.
Qed.
End Rows.

Lemma above_eliminated : forall drop P a i j, drop < 1 -> above drop (a i j) -> above drop (eliminated P a i j).
Proof.
  intros drop P a i j Hd Ha. unfold eliminated. destruct (P i || P j); [|exact Ha]. destruct (i =? j)%nat; [right; rewrite Rabs_R1; exact Hd|now left].
Qed.

(** *** The functional a solution minimises *)
Definition energy (n : nat) (A : mcell -> nat -> nat -> R) (F : mcell -> nat -> R) (mesh : list mcell) (x : nat -> R) : R :=
  lsum (map (fun m => Rsum n (fun i => local_coef m x i * (/ 2 * Rsum n (fun j => A m i j * local_coef m x j) - F m i))) mesh).
Definition quad_form (n : nat) (A : mcell -> nat -> nat -> R) (mesh : list mcell) (x : nat -> R) : R :=
  lsum (map (fun m => Rsum n (fun i => local_coef m x i * Rsum n (fun j => A m i j * local_coef m x j))) mesh).

Lemma tested : forall n size A F mesh x z, (forall m i, In m mesh -> (i < n)%nat -> (number m i < size)%nat) ->
  Rsum size (fun r => z r * galerkin_residual n A F mesh x r) = lsum (map (fun m => Rsum n (fun i => local_coef m z i * (Rsum n (fun j => A m i j * local_coef m x j) - F m i))) mesh).
Proof.
  intros n size A F mesh x z Hs. unfold galerkin_residual.
  rewrite (Rsum_ext size _ (fun r => lsum (map (fun m => Rsum n (fun i => if (number m i =? r)%nat then sign m i * (Rsum n (fun j => A m i j * local_coef m x j) - F m i) else 0) * z r) mesh))).
  2:{ intros r _. rewrite lsum_scal_r. ring. }
  rewrite lsum_swap. apply lsum_ext. intros m Hm.
  rewrite (Rsum_ext size _ (fun r => Rsum n (fun i => (if (number m i =? r)%nat then sign m i * (Rsum n (fun j => A m i j * local_coef m x j) - F m i) else 0) * z r))) by (intros r _; now rewrite Rsum_scal_r).
  rewrite Rsum_swap. apply Rsum_ext. intros i Hi. rewrite (Rsum_single size (number m i)).
  - rewrite Nat.eqb_refl. unfold local_coef. ring.
  - now apply Hs.
  - intros r _ Hne. destruct (Nat.eqb_spec (number m i) r); [congruence|ring].
Qed.
Lemma Rsum_sym : forall n (A : nat -> nat -> R) (y z : nat -> R), (forall i j, (i < n)%nat -> (j < n)%nat -> A i j = A j i) ->
  Rsum n (fun i => y i * Rsum n (fun j => A i j * z j)) = Rsum n (fun i => z i * Rsum n (fun j => A i j * y j)).
Proof.
  intros n A y z H. rewrite (Rsum_ext n _ (fun i => Rsum n (fun j => y i * (A i j * z j)))) by (intros; now rewrite Rsum_scal).
  rewrite Rsum_swap. apply Rsum_ext. intros j Hj. rewrite <- Rsum_scal. apply Rsum_ext. intros i Hi. rewrite (H i j) by assumption. ring.
Qed.
Lemma energy_step : forall n size A F mesh x z, (forall m i, In m mesh -> (i < n)%nat -> (number m i < size)%nat) ->
  (forall m i j, In m mesh -> (i < n)%nat -> (j < n)%nat -> A m i j = A m j i) ->
  energy n A F mesh (fun c => x c + z c) = energy n A F mesh x + Rsum size (fun r => z r * galerkin_residual n A F mesh x r) + / 2 * quad_form n A mesh z.
Proof.
  intros n size A F mesh x z Hs HA. rewrite tested by exact Hs. unfold energy, quad_form. rewrite (Rmult_comm (/ 2)), <- lsum_scal_r, <- !lsum_plus. apply lsum_ext. intros m Hm.
  pose proof (Rsum_sym n (A m) (local_coef m x) (local_coef m z) (fun i j => HA m i j Hm)) as S.
  assert (L : forall i, local_coef m (fun c => x c + z c) i = local_coef m x i + local_coef m z i) by (intros; unfold local_coef; ring).
  set (X := local_coef m x) in *. set (Z := local_coef m z) in *.
  assert (L2 : forall i, Rsum n (fun j => A m i j * local_coef m (fun c => x c + z c) j) = Rsum n (fun j => A m i j * X j) + Rsum n (fun j => A m i j * Z j)).
  { intros i. rewrite <- Rsum_plus. apply Rsum_ext. intros j _. rewrite L. ring. }
  rewrite (Rsum_ext n _ (fun i => X i * (/ 2 * Rsum n (fun j => A m i j * X j) - F m i) + Z i * (Rsum n (fun j => A m i j * X j) - F m i)
     + Z i * Rsum n (fun j => A m i j * Z j) * / 2 + / 2 * (X i * Rsum n (fun j => A m i j * Z j) - Z i * Rsum n (fun j => A m i j * X j)))).
  - rewrite !Rsum_plus, Rsum_scal, Rsum_minus, S, Rsum_scal_r. ring.
  - intros i _. rewrite L, L2. field.
Qed.
(** Orthogonality of the residual to the admissible directions and a nonnegative form give a minimum, and conversely *)
Lemma energy_min : forall n size A F mesh x (D : nat -> bool), (forall m i, In m mesh -> (i < n)%nat -> (number m i < size)%nat) ->
  (forall m i j, In m mesh -> (i < n)%nat -> (j < n)%nat -> A m i j = A m j i) -> (forall z, 0 <= quad_form n A mesh z) ->
  ((forall r, (r < size)%nat -> D r = false -> galerkin_residual n A F mesh x r = 0) <->
   (forall y, (forall r, (r < size)%nat -> D r = true -> y r = x r) -> energy n A F mesh x <= energy n A F mesh y)).
Proof.
  intros n size A F mesh x D Hs HA HQ. split.
  - intros H y Hy. pose proof (energy_step n size A F mesh x (fun c => y c - x c) Hs HA) as E.
    assert (En : energy n A F mesh (fun c => x c + (y c - x c)) = energy n A F mesh y).
    { unfold energy. apply lsum_ext. intros m _. assert (L : forall i, local_coef m (fun c => x c + (y c - x c)) i = local_coef m y i) by (intros; unfold local_coef; ring).
      apply Rsum_ext. intros i _. rewrite L. do 3 f_equal. apply Rsum_ext. intros j _. now rewrite L. }
    cbn beta in E. rewrite En in E. rewrite E. rewrite Rsum_zero; [pose proof (HQ (fun c => y c - x c)); lra|].
    intros r Hr. destruct (D r) eqn:Dr; [rewrite Hy by assumption; ring|]. rewrite H by assumption. ring.
  - intros H r Hr Dr. set (g := galerkin_residual n A F mesh x r). set (e := fun c : nat => if (c =? r)%nat then 1 else 0). set (q := quad_form n A mesh e).
    assert (Hq : 0 <= q) by apply HQ. set (t := - g / (q + 1)).
    specialize (H (fun c => x c + t * e c)). rewrite (energy_step n size A F mesh x (fun c => t * e c) Hs HA) in H.
    assert (E1 : Rsum size (fun k => t * e k * galerkin_residual n A F mesh x k) = t * g).
    { rewrite (Rsum_single size r); [unfold e; rewrite Nat.eqb_refl; fold g; ring|exact Hr|]. intros k _ Hne. unfold e. destruct (Nat.eqb_spec k r); [congruence|ring]. }
    assert (E2 : quad_form n A mesh (fun c => t * e c) = t * t * q).
    { unfold q, quad_form. rewrite Rmult_comm, <- lsum_scal_r. apply lsum_ext. intros m _. rewrite <- Rsum_scal_r. apply Rsum_ext. intros i _.
      replace (Rsum n (fun j => A m i j * local_coef m (fun c => t * e c) j)) with (t * Rsum n (fun j => A m i j * local_coef m e j)) by (rewrite <- Rsum_scal; apply Rsum_ext; intros; unfold local_coef; ring).
      unfold local_coef. ring. }
    rewrite E1, E2 in H. assert (H' : 0 <= t * g + / 2 * (t * t * q)).
    { assert (Hy : forall k, (k < size)%nat -> D k = true -> x k + t * e k = x k) by (intros k _ Dk; unfold e; destruct (Nat.eqb_spec k r) as [-> |]; [congruence|ring]). specialize (H Hy). lra. }
    assert (T : t * (q + 1) = - g) by (unfold t; field; lra).
    assert (G : g = - (t * (q + 1))) by lra. rewrite G in H'. assert (0 <= - (t * t) * (1 + q / 2)) by (replace (- (t * t) * (1 + q / 2)) with (t * - (t * (q + 1)) + / 2 * (t * t * q)) by field; exact H').
    assert (t * t <= 0) by nra. assert (t = 0) by nra. rewrite G. subst t. nra.
Qed.

(** *** The forms of the diffusion and mass matrices *)
Lemma gradient_form : forall n gd m x p, 
  Rsum n (fun i => local_coef m x i * Rsum n (fun j => Rsum gd (fun k => Rsum gd (fun l => tmat (g_K (m_c m) (quad_point (g_T (m_c m)) p) 0%nat) gd gd k l * m_grad m p l j) * m_grad m p k i) * local_coef m x j))
  = Rsum gd (fun k => Rsum gd (fun l => tmat (g_K (m_c m) (quad_point (g_T (m_c m)) p) 0%nat) gd gd k l * fe_gradient n m x p l) * fe_gradient n m x p k).
Proof.
  intros n gd m x p. set (K := tmat (g_K (m_c m) (quad_point (g_T (m_c m)) p) 0%nat) gd gd). set (X := local_coef m x).
  transitivity (Rsum n (fun i => X i * Rsum gd (fun k => m_grad m p k i * Rsum gd (fun l => K k l * fe_gradient n m x p l)))).
  - apply Rsum_ext. intros i _. f_equal.
    rewrite (Rsum_ext n _ (fun j => Rsum gd (fun k => m_grad m p k i * (Rsum gd (fun l => K k l * m_grad m p l j) * X j)))).
    2:{ intros j _. rewrite <- Rsum_scal_r. apply Rsum_ext. intros k _. ring. }
    rewrite Rsum_swap. apply Rsum_ext. intros k _. rewrite Rsum_scal. f_equal.
    rewrite (Rsum_ext n _ (fun j => Rsum gd (fun l => K k l * (X j * m_grad m p l j)))).
    2:{ intros j _. rewrite <- Rsum_scal_r. apply Rsum_ext. intros l _. ring. }
    rewrite Rsum_swap. apply Rsum_ext. intros l _. rewrite Rsum_scal. reflexivity.
  - rewrite (Rsum_ext n _ (fun i => Rsum gd (fun k => Rsum gd (fun l => K k l * fe_gradient n m x p l) * (X i * m_grad m p k i)))).
    2:{ intros i _. rewrite <- Rsum_scal. apply Rsum_ext. intros k _. ring. }
    rewrite Rsum_swap. apply Rsum_ext. intros k _. rewrite Rsum_scal. reflexivity.
Qed.
(** quadrature sums pass through the sums over basis functions *)
Lemma quad_out : forall n q (w : nat -> R) (B : nat -> nat -> nat -> R) (y z : nat -> R),
  Rsum n (fun i => y i * Rsum n (fun j => Rsum q (fun p => w p * B p i j) * z j)) = Rsum q (fun p => w p * Rsum n (fun i => y i * Rsum n (fun j => B p i j * z j))).
Proof.
  intros n q w B y z.
  rewrite (Rsum_ext n _ (fun i => Rsum q (fun p => w p * (y i * Rsum n (fun j => B p i j * z j))))).
  - rewrite Rsum_swap. apply Rsum_ext. intros p _. now rewrite Rsum_scal.
  - intros i _. rewrite (Rsum_ext n _ (fun j => Rsum q (fun p => w p * (B p i j * z j)))) by (intros j _; rewrite <- Rsum_scal_r; apply Rsum_ext; intros; ring).
    rewrite Rsum_swap, <- Rsum_scal. apply Rsum_ext. intros p _. rewrite Rsum_scal. ring.
Qed.
Lemma stiffness_form : forall n gd m x,
  Rsum n (fun i => local_coef m x i * Rsum n (fun j => cell_matrix gd m i j * local_coef m x j))
  = Rsum (t_q (g_T (m_c m))) (fun p => quad_weight (g_T (m_c m)) p *
      Rsum gd (fun k => Rsum gd (fun l => tmat (g_K (m_c m) (quad_point (g_T (m_c m)) p) 0%nat) gd gd k l * fe_gradient n m x p l) * fe_gradient n m x p k)).
Proof.
  intros n gd m x. unfold cell_matrix, stiffness. rewrite quad_out. apply Rsum_ext. intros p _. f_equal. apply gradient_form.
Qed.
Lemma energy_diffusion : forall n gd id mesh x, energy n (cell_matrix gd) (cell_load id) mesh x = diffusion_energy gd id n mesh x.
Proof.
  intros n gd id mesh x. unfold energy, diffusion_energy. apply lsum_ext. intros m _. rewrite <- stiffness_form, <- Rsum_scal, <- Rsum_minus. apply Rsum_ext. intros i _. ring.
Qed.
Lemma stiffness_sym : forall gd m, tensor_spd gd m -> forall i j, cell_matrix gd m i j = cell_matrix gd m j i.
Proof.
  intros gd m H i j. unfold cell_matrix, stiffness. apply Rsum_ext. intros p Hp. f_equal. destruct (H p Hp) as [HK _]. cbn zeta in HK.
  set (K := tmat (g_K (m_c m) (quad_point (g_T (m_c m)) p) 0%nat) gd gd) in *.
  rewrite (Rsum_ext gd _ (fun k => m_grad m p k i * Rsum gd (fun l => K k l * m_grad m p l j))) by (intros; ring).
  rewrite (Rsum_sym gd K (fun k => m_grad m p k i) (fun k => m_grad m p k j)) by (intros; now apply HK). apply Rsum_ext. intros; ring.
Qed.
Lemma stiffness_nonneg : forall n gd mesh, (forall m, In m mesh -> weights_ok m /\ tensor_spd gd m) -> forall z, 0 <= quad_form n (cell_matrix gd) mesh z.
Proof.
  intros n gd mesh H z. apply lsum_nonneg. intros m Hm. destruct (H m Hm) as [Hw HK]. rewrite stiffness_form. apply Rsum_nonneg'. intros p Hp. apply Rmult_le_pos; [now apply Hw|]. apply (proj2 (HK p Hp)).
Qed.

Lemma mass_form : forall n id m x,
  Rsum n (fun i => local_coef m x i * Rsum n (fun j => mass id (g_T (m_c m)) (m_val m) i j * local_coef m x j))
  = Rsum (t_q (g_T (m_c m))) (fun p => quad_weight (g_T (m_c m)) p * Rsum id (fun k => Rsqr (fe_value n m x p k))).
Proof.
  intros n id m x. unfold mass. rewrite quad_out. apply Rsum_ext. intros p _. f_equal. set (X := local_coef m x).
  rewrite (Rsum_ext n _ (fun i => Rsum id (fun k => (X i * m_val m p k i) * fe_value n m x p k))).
  - rewrite Rsum_swap. apply Rsum_ext. intros k _. rewrite Rsum_scal_r. reflexivity.
  - intros i _. rewrite (Rsum_ext n _ (fun j => Rsum id (fun k => m_val m p k i * (X j * m_val m p k j)))) by (intros j _; rewrite <- Rsum_scal_r; apply Rsum_ext; intros; ring).
    rewrite Rsum_swap, <- Rsum_scal. apply Rsum_ext. intros k _. rewrite Rsum_scal. unfold fe_value. fold X. ring.
Qed.
Lemma source_form : forall n id m x,
  Rsum n (fun i => local_coef m x i * source id (g_f (m_c m)) (g_T (m_c m)) (m_val m) i)
  = Rsum (t_q (g_T (m_c m))) (fun p => quad_weight (g_T (m_c m)) p * Rsum id (fun k => nth k (g_f (m_c m) (quad_point (g_T (m_c m)) p)) 0 * fe_value n m x p k)).
Proof.
  intros n id m x. unfold source.
  rewrite (Rsum_ext n _ (fun i => Rsum (t_q (g_T (m_c m))) (fun p => quad_weight (g_T (m_c m)) p * (local_coef m x i * Rsum id (fun k => nth k (g_f (m_c m) (quad_point (g_T (m_c m)) p)) 0 * m_val m p k i))))).
  2:{ intros i _. rewrite <- Rsum_scal. apply Rsum_ext. intros; ring. }
  rewrite Rsum_swap. apply Rsum_ext. intros p _. rewrite Rsum_scal. f_equal.
  rewrite (Rsum_ext n _ (fun i => Rsum id (fun k => nth k (g_f (m_c m) (quad_point (g_T (m_c m)) p)) 0 * (local_coef m x i * m_val m p k i)))).
  2:{ intros i _. rewrite <- Rsum_scal. apply Rsum_ext. intros; ring. }
  rewrite Rsum_swap. apply Rsum_ext. intros k _. rewrite Rsum_scal. reflexivity.
Qed.
Lemma energy_distance : forall n id mesh x, distance2 n id mesh x = 2 * energy n (cell_mass id) (cell_source id) mesh x
  + lsum (map (fun m => Rsum (t_q (g_T (m_c m))) (fun p => quad_weight (g_T (m_c m)) p * Rsum id (fun k => Rsqr (nth k (g_f (m_c m) (quad_point (g_T (m_c m)) p)) 0)))) mesh).
Proof.
  intros n id mesh x. unfold distance2, energy. rewrite (Rmult_comm 2), <- lsum_scal_r, <- lsum_plus. apply lsum_ext. intros m _.
  rewrite (Rsum_ext n _ (fun i => / 2 * (local_coef m x i * Rsum n (fun j => cell_mass id m i j * local_coef m x j)) - local_coef m x i * cell_source id m i)) by (intros; ring).
  rewrite Rsum_minus, Rsum_scal. unfold cell_mass, cell_source. rewrite mass_form, source_form.
  set (f := fun p k => nth k (g_f (m_c m) (quad_point (g_T (m_c m)) p)) 0). set (u := fe_value n m x). set (w := quad_weight (g_T (m_c m))). set (q := t_q (g_T (m_c m))).
  change (Rsum q (fun p => w p * Rsum id (fun k => Rsqr (u p k - f p k))) = (/ 2 * Rsum q (fun p => w p * Rsum id (fun k => Rsqr (u p k))) - Rsum q (fun p => w p * Rsum id (fun k => f p k * u p k))) * 2
    + Rsum q (fun p => w p * Rsum id (fun k => Rsqr (f p k)))).
  rewrite (Rsum_ext q (fun p => w p * Rsum id (fun k => Rsqr (u p k - f p k))) (fun p => w p * Rsum id (fun k => Rsqr (u p k)) - 2 * (w p * Rsum id (fun k => f p k * u p k)) + w p * Rsum id (fun k => Rsqr (f p k)))).
  - rewrite Rsum_plus, Rsum_minus, Rsum_scal. lra.
  - intros p _. rewrite (Rsum_ext id (fun k => Rsqr (u p k - f p k)) (fun k => Rsqr (u p k) - 2 * (f p k * u p k) + Rsqr (f p k))) by (intros; unfold Rsqr; ring).
    rewrite Rsum_plus, Rsum_minus, Rsum_scal. ring.
Qed.
Lemma mass_sym : forall id m i j, cell_mass id m i j = cell_mass id m j i.
Proof. intros. unfold cell_mass, mass. apply Rsum_ext. intros p _. f_equal. apply Rsum_ext. intros; ring. Qed.
Lemma mass_nonneg : forall n id mesh, (forall m, In m mesh -> weights_ok m) -> forall z, 0 <= quad_form n (cell_mass id) mesh z.
Proof.
  intros n id mesh H z. apply lsum_nonneg. intros m Hm. unfold cell_mass. rewrite mass_form. apply Rsum_nonneg'. intros p Hp. apply Rmult_le_pos; [now apply (H m Hm)|]. apply Rsum_nonneg'. intros. apply Rle_0_sqr.
Qed.

(** *** Runs of several processes *)
Lemma local_coef_ext : forall n size m x y i, (forall j, (j < n)%nat -> (number m j < size)%nat) -> (forall r, (r < size)%nat -> x r = y r) -> (i < n)%nat -> local_coef m x i = local_coef m y i.
Proof. intros n size m x y i Hs H Hi. unfold local_coef. now rewrite H by now apply Hs. Qed.
Lemma residual_ext : forall n size A F mesh x y r, (forall m i, In m mesh -> (i < n)%nat -> (number m i < size)%nat) -> (forall r, (r < size)%nat -> x r = y r) ->
  galerkin_residual n A F mesh x r = galerkin_residual n A F mesh y r.
Proof.
  intros n size A F mesh x y r Hs H. unfold galerkin_residual. apply lsum_ext. intros m Hm. apply Rsum_ext. intros i Hi. destruct (number m i =? r)%nat; [|reflexivity]. do 2 f_equal.
  apply Rsum_ext. intros j Hj. f_equal. now apply (local_coef_ext n size m x y j (fun k => Hs m k Hm)).
Qed.
Lemma residual_change : forall n A B F G mesh x r, (forall m i j, In m mesh -> (i < n)%nat -> (j < n)%nat -> A m i j = B m i j) -> (forall m i, In m mesh -> (i < n)%nat -> F m i = G m i) ->
  galerkin_residual n A F mesh x r = galerkin_residual n B G mesh x r.
Proof.
  intros n A B F G mesh x r HA HF. unfold galerkin_residual. apply lsum_ext. intros m Hm. apply Rsum_ext. intros i Hi. destruct (number m i =? r)%nat; [|reflexivity].
  rewrite HF by assumption. do 2 f_equal. apply Rsum_ext. intros j Hj. now rewrite HA.
Qed.
Lemma numbers_lt : forall n size mesh, (forall m, In m mesh -> numbering_ok n size (m_c m)) -> forall m i, In m mesh -> (i < n)%nat -> (number m i < size)%nat.
Proof. intros n size mesh H m i Hm Hi. destruct (H m Hm) as (L & _ & _ & B & _). apply B. apply nth_In. lia. Qed.
Lemma solves_iff : forall n size A A' F mesh procs (assm : pcell -> option cell) x, run_ok n size A mesh procs -> (forall m, In m mesh -> numbering_ok n size (m_c m)) ->
  (forall m, In m mesh -> assm (m_c m) = Some (elem_cell n (m_c m) (store n n (A' m), arr n (F m)))) ->
  (forall drop m i j, drop < 1 -> above drop (A m i j) -> above drop (A' m i j)) ->
  let sys q := system (r_p q) (r_o q) (r_rows q) (all_cells assm (map m_c (r_here q))) in
  assembles procs sys /\ (solves_system size procs sys x <-> forall r, (r < size)%nat -> galerkin_residual n A' F mesh x r = 0).
Proof.
  intros n size A A' F mesh procs assm x [Hp Hc] Hnum Has Hab sys.
  assert (Q : forall q, In q procs -> exists M b, sys q = Ok (M, b) /\ forall r, owns q r -> (equation size (p_beg (r_p q)) M b x r <-> galerkin_residual n A' F mesh x r = 0)).
  { intros q Hq. destruct (Hp q Hq) as (E1 & E2 & E3 & E4 & E5 & E6 & E7 & E8).
    destruct (system_ok assm n (r_p q) (r_o q) (r_rows q) mesh (r_here q) A' F E1 E3 E4 E7) as (M & b & E & H).
    - intros m Hm. rewrite E2. now apply Hnum.
    - exact Has.
    - intros m i j Hm Hi Hj. apply Hab; [exact E5|now apply E8].
    - exists M, b. split; [exact E|]. intros r Hr. rewrite <- E2. now apply H. }
  split; [|split].
  - intros q Hq. destruct (Q q Hq) as (M & b & E & _). now exists M, b.
  - intros H r Hr. destruct (Hc r Hr) as (q & Hq & Ho). destruct (Q q Hq) as (M & b & E & HE). apply (HE r Ho). exact (H q M b r Hq E Ho).
  - intros H q M b r Hq E Ho. destruct (Q q Hq) as (M' & b' & E' & HE). rewrite E' in E. injection E as <- <-. apply HE; [exact Ho|]. apply H. destruct (Hp q Hq) as (_ & _ & _ & _ & _ & E6 & _). unfold owns in Ho. lia.
Qed.

Lemma diffusion_solves : forall d gd id size mesh D v procs x, let n := num_dof_tet d in
  wf d -> (0 < gd)%nat -> (0 < id)%nat -> (0 < n)%nat ->
  (forall m, In m mesh -> numbering_ok n size (m_c m) /\ diffusion_ok d gd id m /\ iteration_ok d (m_c m)) ->
  dirichlet_dofs d mesh D v -> no_idle_dof n size mesh -> run_ok n size (cell_matrix gd) mesh procs ->
  assembles procs (run_diffusion d gd id) /\
  (solves_system size procs (run_diffusion d gd id) x <->
    (forall r, (r < size)%nat -> D r = true -> x r = v r) /\ (forall r, (r < size)%nat -> D r = false -> galerkin_residual n (cell_matrix gd) (code_load d id) mesh x r = 0)).
Proof.
  intros d gd id size mesh D v procs x n Hw Hgd Hid Hn Hm HD Hi Hr.
  assert (Hnum : forall m, In m mesh -> numbering_ok n size (m_c m)) by (intros; now apply Hm).
  destruct (solves_iff n size (cell_matrix gd) (fun m => eliminated (on_dirichlet d (g_isd (m_c m))) (cell_matrix gd m))
    (fun m => eliminated_load n (on_dirichlet d (g_isd (m_c m))) (dir_value d (g_u0 (m_c m))) (cell_matrix gd m) (code_load d id m)) mesh procs (diffusion_cell d gd id) x Hr Hnum) as [Ha Hs].
  - intros m Im. destruct (Hm m Im) as (N1 & N2 & N3). unfold diffusion_cell. rewrite diffusion_local_ok by (trivial; apply N1). reflexivity.
  - intros drop m i j Hd Hab. now apply above_eliminated.
  - split; [exact Ha|]. rewrite Hs. clear Hs Ha. split.
    + intros H. assert (X : forall r, (r < size)%nat -> D r = true -> x r = v r).
      { intros r Hr' Dr. specialize (H r Hr'). pose proof (dirichlet_row d mesh D v (cell_matrix gd) (code_load d id) HD x r Dr) as Q. fold n in Q. rewrite Q in H.
        pose proof (used_pos n mesh r (Hi r Hr')) as U. apply Rmult_integral in H. destruct H; lra. }
      split; [exact X|]. intros r Hr' Dr. specialize (H r Hr'). pose proof (free_row d mesh D v (cell_matrix gd) (code_load d id) HD x r Dr) as Q. fold n in Q. rewrite Q in H.
      rewrite <- H. apply (residual_ext n size); [now apply numbers_lt|]. intros k Hk. destruct (D k) eqn:Dk; [now apply X|reflexivity].
    + intros [X H] r Hr'. destruct (D r) eqn:Dr.
      * pose proof (dirichlet_row d mesh D v (cell_matrix gd) (code_load d id) HD x r Dr) as Q. fold n in Q. rewrite Q, X by assumption. ring.
      * pose proof (free_row d mesh D v (cell_matrix gd) (code_load d id) HD x r Dr) as Q. fold n in Q. rewrite Q. rewrite <- (H r Hr' Dr). apply (residual_ext n size); [now apply numbers_lt|]. intros k Hk. destruct (D k) eqn:Dk; [symmetry; now apply X|reflexivity].
Qed.
Lemma code_load_full : forall d id mesh m i, (elem_mask d 2 = true \/ forall m k, In m mesh -> (k < 4)%nat -> neumann (m_c m) k = false) -> In m mesh -> code_load d id m i = cell_load id m i.
Proof.
  intros d id mesh m i H Hm. unfold code_load, cell_load. f_equal. apply Rsum_ext. intros k Hk. destruct H as [-> |H]; [reflexivity|]. rewrite (H m k Hm Hk), andb_false_r. reflexivity.
Qed.
Lemma code_load_zero : forall d id m i, (forall p k, nth k (g_f (m_c m) p) 0 = 0) -> (forall q p k, nth k (g_g (m_c m) q p) 0 = 0) -> code_load d id m i = 0.
Proof.
  intros d id m i H1 H2. unfold code_load, source. rewrite Rsum_zero; [rewrite Rsum_zero; [ring|]|].
  - intros k _. destruct (_ && _); [|reflexivity]. apply Rsum_zero. intros p _. rewrite Rsum_zero; [ring|]. intros l _. rewrite H2. ring.
  - intros p _. rewrite Rsum_zero; [ring|]. intros l _. rewrite H1. ring.
Qed.

(** *** Laplace *)
Definition lap (id : nat) (m : mcell) : mcell := mkM (laplace_cell id (m_c m)) (m_grad m) (m_val m) (m_face m).
Lemma lap_matrix : forall gd id m i j, cell_matrix gd (lap id m) i j = laplace_matrix gd m i j.
Proof.
  intros gd id m i j. unfold cell_matrix, laplace_matrix, stiffness. cbn [lap m_c laplace_cell g_K g_T m_grad]. apply Rsum_ext. intros p _. f_equal. apply Rsum_ext. intros k Hk. f_equal.
  cbn [tmat]. unfold unit_entry. rewrite Nat.eqb_refl. rewrite (Rsum_single gd k); [rewrite Nat.eqb_refl; ring|exact Hk|]. intros l _ Hne. destruct (Nat.eqb_spec k l); [congruence|ring].
Qed.
Lemma lap_ok : forall d gd id m, laplace_ok d gd id m -> diffusion_ok d gd id (lap id m).
Proof.
  intros d gd id m ((P1 & P2 & P3) & P4 & P5 & P6 & P7). unfold diffusion_ok. cbn [lap m_c laplace_cell g_T g_K g_f g_g g_Tf g_ws g_buf m_val m_grad m_face].
  split; [split; [exact P1|split; [exact P2|split; [exact P3|]]]|].
  - intros p _. apply repeat_length.
  - split; [intros p _; now left|]. split; [|auto]. intros k Hk Hneu. destruct (P4 k Hk Hneu) as (Q1 & Q2 & Q3). split; [exact Q1|]. split; [exact Q2|]. split; [|exact Q3]. intros p _. apply repeat_length.
Qed.
Lemma nth_zeros : forall k n, nth k (repeat 0 n) 0 = 0.
Proof. intros. apply nth_repeat. Qed.
Definition lap_process (id : nat) (q : process) : process := mkPr (r_p q) (r_o q) (r_rows q) (map (lap id) (r_here q)).
Lemma lap_run : forall n size gd id mesh procs, run_ok n size (laplace_matrix gd) mesh procs -> run_ok n size (cell_matrix gd) (map (lap id) mesh) (map (lap_process id) procs).
Proof.
  intros n size gd id mesh procs [H1 H2]. split.
  - intros q Hq. apply in_map_iff in Hq. destruct Hq as (q0 & <- & Hq). destruct (H1 q0 Hq) as (E1 & E2 & E3 & E4 & E5 & E6 & (ot & Pm & Ho) & E8). do 6 (split; [assumption|]). split.
    + exists (map (lap id) ot). cbn [lap_process r_here]. split; [rewrite <- map_app; now apply Permutation_map|].
      intros m i Hm Hi. apply in_map_iff in Hm. destruct Hm as (m0 & <- & Hm). exact (Ho m0 i Hm Hi).
    + intros m i j Hm Hi Hj. apply in_map_iff in Hm. destruct Hm as (m0 & <- & Hm). rewrite lap_matrix. now apply E8.
  - intros r Hr. destruct (H2 r Hr) as (q & Hq & Ho). exists (lap_process id q). split; [now apply in_map|exact Ho].
Qed.
Lemma lap_sys : forall d gd id q, run_diffusion d gd id (lap_process id q) = run_laplace d gd id q.
Proof. intros. unfold run_diffusion, run_laplace, laplace_system. cbn [lap_process r_p r_o r_rows r_here]. rewrite !map_map. reflexivity. Qed.
Lemma lap_residual : forall n gd F mesh id x r, (forall m i, F (lap id m) i = 0) ->
  galerkin_residual n (cell_matrix gd) F (map (lap id) mesh) x r = galerkin_residual n (laplace_matrix gd) (fun _ _ => 0) mesh x r.
Proof.
  intros n gd F mesh id x r HF. unfold galerkin_residual. rewrite map_map. apply lsum_ext. intros m _. apply Rsum_ext. intros i _. change (number (lap id m) i) with (number m i). change (sign (lap id m) i) with (sign m i).
  destruct (number m i =? r)%nat; [|reflexivity]. rewrite HF. do 2 f_equal. apply Rsum_ext. intros j _. now rewrite lap_matrix.
Qed.
Lemma laplace_solves : forall d gd id size mesh D v procs x, let n := num_dof_tet d in
  wf d -> (0 < gd)%nat -> (0 < id)%nat -> (0 < n)%nat ->
  (forall m, In m mesh -> numbering_ok n size (m_c m) /\ laplace_ok d gd id m /\ iteration_ok d (m_c m)) ->
  dirichlet_dofs d mesh D v -> no_idle_dof n size mesh -> run_ok n size (laplace_matrix gd) mesh procs ->
  assembles procs (run_laplace d gd id) /\
  (solves_system size procs (run_laplace d gd id) x <->
    (forall r, (r < size)%nat -> D r = true -> x r = v r) /\ (forall r, (r < size)%nat -> D r = false -> galerkin_residual n (laplace_matrix gd) (fun _ _ => 0) mesh x r = 0)).
Proof.
  intros d gd id size mesh D v procs x n Hw Hgd Hid Hn Hm HD Hi Hr.
  destruct (diffusion_solves d gd id size (map (lap id) mesh) D v (map (lap_process id) procs) x Hw Hgd Hid Hn) as [Ha Hs].
  - intros m I. apply in_map_iff in I. destruct I as (m0 & <- & I). destruct (Hm m0 I) as (A1 & A2 & A3). split; [exact A1|]. split; [now apply lap_ok|exact A3].
  - intros m i I Hi'. apply in_map_iff in I. destruct I as (m0 & <- & I). exact (HD m0 i I Hi').
  - intros r Hr'. destruct (Hi r Hr') as (m & i & I & Hi' & E). exists (lap id m), i. split; [now apply in_map|]. split; assumption.
  - now apply lap_run.
  - split.
    + intros q Hq. destruct (Ha (lap_process id q) (in_map _ _ _ Hq)) as (M & b & E). rewrite lap_sys in E. now exists M, b.
    + transitivity (solves_system size (map (lap_process id) procs) (run_diffusion d gd id) x).
      * split.
        -- intros H q M b r Hq E Ho. apply in_map_iff in Hq. destruct Hq as (q0 & <- & Hq). rewrite lap_sys in E. exact (H q0 M b r Hq E Ho).
        -- intros H q M b r Hq E Ho. rewrite <- lap_sys in E. exact (H (lap_process id q) M b r (in_map _ _ _ Hq) E Ho).
      * rewrite Hs. split; intros [X H]; (split; [exact X|]); intros r Hr' Dr; specialize (H r Hr' Dr).
        -- rewrite lap_residual in H; [exact H|]. intros m i. apply code_load_zero; intros; apply nth_zeros.
        -- rewrite lap_residual; [exact H|]. intros m i. apply code_load_zero; intros; apply nth_zeros.
Qed.
Lemma laplace_form : forall n gd m x,
  Rsum n (fun i => local_coef m x i * Rsum n (fun j => laplace_matrix gd m i j * local_coef m x j))
  = Rsum (t_q (g_T (m_c m))) (fun p => quad_weight (g_T (m_c m)) p * Rsum gd (fun k => Rsqr (fe_gradient n m x p k))).
Proof.
  intros n gd m x. unfold laplace_matrix. rewrite quad_out. apply Rsum_ext. intros p _. f_equal. set (X := local_coef m x).
  rewrite (Rsum_ext n _ (fun i => Rsum gd (fun k => (X i * m_grad m p k i) * fe_gradient n m x p k))).
  - rewrite Rsum_swap. apply Rsum_ext. intros k _. rewrite Rsum_scal_r. reflexivity.
  - intros i _. rewrite (Rsum_ext n _ (fun j => Rsum gd (fun k => m_grad m p k i * (X j * m_grad m p k j)))) by (intros j _; rewrite <- Rsum_scal_r; apply Rsum_ext; intros; ring).
    rewrite Rsum_swap, <- Rsum_scal. apply Rsum_ext. intros k _. rewrite Rsum_scal. unfold fe_gradient. fold X. ring.
Qed.
Lemma energy_laplace : forall n gd mesh x, energy n (laplace_matrix gd) (fun _ _ => 0) mesh x = dirichlet_energy gd n mesh x.
Proof.
  intros n gd mesh x. unfold energy, dirichlet_energy. apply lsum_ext. intros m _. rewrite <- laplace_form, <- Rsum_scal. apply Rsum_ext. intros i _. ring.
Qed.
Lemma laplace_sym : forall gd m i j, laplace_matrix gd m i j = laplace_matrix gd m j i.
Proof. intros. unfold laplace_matrix. apply Rsum_ext. intros p _. f_equal. apply Rsum_ext. intros; ring. Qed.
Lemma laplace_nonneg : forall n gd mesh, (forall m, In m mesh -> weights_ok m) -> forall z, 0 <= quad_form n (laplace_matrix gd) mesh z.
Proof.
  intros n gd mesh H z. apply lsum_nonneg. intros m Hm. rewrite laplace_form. apply Rsum_nonneg'. intros p Hp. apply Rmult_le_pos; [now apply (H m Hm)|]. apply Rsum_nonneg'. intros. apply Rle_0_sqr.
Qed.
(** the equations in terms of the gradient of the function *)
Lemma laplace_apply : forall n gd m x i, Rsum n (fun j => laplace_matrix gd m i j * local_coef m x j)
  = Rsum (t_q (g_T (m_c m))) (fun p => quad_weight (g_T (m_c m)) p * Rsum gd (fun k => fe_gradient n m x p k * m_grad m p k i)).
Proof.
  intros n gd m x i. unfold laplace_matrix.
  rewrite (Rsum_ext n _ (fun j => Rsum (t_q (g_T (m_c m))) (fun p => quad_weight (g_T (m_c m)) p * Rsum gd (fun k => (local_coef m x j * m_grad m p k j) * m_grad m p k i)))).
  - rewrite Rsum_swap. apply Rsum_ext. intros p _. rewrite Rsum_scal. f_equal. rewrite Rsum_swap. apply Rsum_ext. intros k _. now rewrite Rsum_scal_r.
  - intros j _. rewrite <- Rsum_scal_r. apply Rsum_ext. intros p _. rewrite Rmult_assoc. f_equal. rewrite <- Rsum_scal_r. apply Rsum_ext. intros; ring.
Qed.
Lemma mass_apply : forall n id m x i, Rsum n (fun j => cell_mass id m i j * local_coef m x j)
  = Rsum (t_q (g_T (m_c m))) (fun p => quad_weight (g_T (m_c m)) p * Rsum id (fun k => fe_value n m x p k * m_val m p k i)).
Proof.
  intros n id m x i. unfold cell_mass, mass.
  rewrite (Rsum_ext n _ (fun j => Rsum (t_q (g_T (m_c m))) (fun p => quad_weight (g_T (m_c m)) p * Rsum id (fun k => (local_coef m x j * m_val m p k j) * m_val m p k i)))).
  - rewrite Rsum_swap. apply Rsum_ext. intros p _. rewrite Rsum_scal. f_equal. rewrite Rsum_swap. apply Rsum_ext. intros k _. now rewrite Rsum_scal_r.
  - intros j _. rewrite <- Rsum_scal_r. apply Rsum_ext. intros p _. rewrite Rmult_assoc. f_equal. rewrite <- Rsum_scal_r. apply Rsum_ext. intros; ring.
Qed.
Lemma project_solves : forall d id size mesh procs x, let n := num_dof_tet d in (0 < id)%nat -> (0 < n)%nat ->
  (forall m, In m mesh -> numbering_ok n size (m_c m) /\ project_ok d id m) -> run_ok n size (cell_mass id) mesh procs ->
  assembles procs (run_project d id) /\
  (solves_system size procs (run_project d id) x <-> forall r, (r < size)%nat -> galerkin_residual n (cell_mass id) (cell_source id) mesh x r = 0).
Proof.
  intros d id size mesh procs x n Hid Hn Hm Hr. apply (solves_iff n size (cell_mass id) (cell_mass id) (cell_source id) mesh procs (project_cell d id) x Hr).
  - intros; now apply Hm.
  - intros m Im. destruct (Hm m Im) as (N1 & N2). unfold project_cell. rewrite (project_local_ok d 1 id m) by (trivial; try lia; apply N1). reflexivity.
  - trivial.
Qed.
