(** Property C58: the ready-made problems *)
From Coq Require Import Reals Permutation Lra.
From Verif Require SparsityModel SparsitySpec SparsityProofs IterProofs2.
From Verif Require Import Prelude DofModel DofSpec DofProofs DofProps RSum CoreModel CoreSpec DirModel DirSpec DirProofs AsmModel AsmSpec AsmProofs UtModel UtProofs DifModel DifSpec DifProofs DifProofs2 DifProofs3 DifProofs4.
Open Scope R_scope.

(** The local matrix and right-hand side of the diffusion problem: stiffness, source and Neumann terms with the Dirichlet
    dofs eliminated; stale numbers in the arrays and in the work memory do not matter.  Missing: Neumann faces for spaces
    without dofs on faces (refuted below), compositions whose iteration over dofs is not exact (refuted below). *)
Theorem C58_cell_partial : forall d gd id m, let n := num_dof_tet d in let c := m_c m in
  wf d -> (0 < gd)%nat -> (0 < id)%nat -> (0 < n)%nat -> length (g_A c) = (n * n)%nat -> length (g_F c) = n ->
  diffusion_ok d gd id m -> iteration_ok d c -> (elem_mask d 2 = true \/ forall k, (k < 4)%nat -> neumann c k = false) ->
  diffusion_local d gd id (g_K c) (g_f c) (g_g c) (g_u0 c) (g_T c) (g_Tf c) (g_ws c) (g_buf c) (gather d (g_isd c) (g_bnd c)) (g_A c) (g_F c)
  = Some (store n n (eliminated (on_dirichlet d (g_isd c)) (cell_matrix gd m)),
          arr n (eliminated_load n (on_dirichlet d (g_isd c)) (dir_value d (g_u0 c)) (cell_matrix gd m) (cell_load id m))).
Proof.
  intros d gd id m n c Hw Hgd Hid Hn LA LF Hok Hit HN. unfold c. rewrite diffusion_local_ok by auto. do 2 f_equal. apply arr_ext. intros i Hi. unfold eliminated_load.
  assert (HN' : elem_mask d 2 = true \/ forall m0 k, In m0 [m] -> (k < 4)%nat -> neumann (m_c m0) k = false) by (destruct HN as [HN|HN]; [now left|right; intros m0 k [<-|[]]; apply HN]).
  rewrite (code_load_full d id [m] m i HN') by now left. reflexivity.
Qed.
Print Assumptions C58_cell_partial.

(** The assembled system, on any number of processes: its solutions are the vectors with the prescribed values at the
    Dirichlet dofs that satisfy the Galerkin equations at the others.  Missing: as above. *)
Theorem C58_diffusion_partial : forall d gd id size mesh D v procs, let n := num_dof_tet d in
  wf d -> (0 < gd)%nat -> (0 < id)%nat -> (0 < n)%nat ->
  (forall m, In m mesh -> numbering_ok n size (m_c m) /\ diffusion_ok d gd id m /\ iteration_ok d (m_c m)) ->
  (elem_mask d 2 = true \/ forall m k, In m mesh -> (k < 4)%nat -> neumann (m_c m) k = false) ->
  dirichlet_dofs d mesh D v -> no_idle_dof n size mesh -> run_ok n size (cell_matrix gd) mesh procs ->
  assembles procs (run_diffusion d gd id) /\
  forall x, solves_system size procs (run_diffusion d gd id) x <->
    (forall r, (r < size)%nat -> D r = true -> x r = v r) /\
    (forall r, (r < size)%nat -> D r = false -> galerkin_residual n (cell_matrix gd) (cell_load id) mesh x r = 0).
Proof.
  intros d gd id size mesh D v procs n Hw Hgd Hid Hn Hm HN HD Hi Hr.
  assert (E : forall x r, galerkin_residual n (cell_matrix gd) (code_load d id) mesh x r = galerkin_residual n (cell_matrix gd) (cell_load id) mesh x r).
  { intros x r. apply residual_change; [reflexivity|]. intros m i I _. now apply (code_load_full d id mesh). }
  split; [exact (proj1 (diffusion_solves d gd id size mesh D v procs (fun _ => 0) Hw Hgd Hid Hn Hm HD Hi Hr))|].
  intros x. destruct (diffusion_solves d gd id size mesh D v procs x Hw Hgd Hid Hn Hm HD Hi Hr) as [_ H]. fold n in H. rewrite H.
  split; intros [X G]; (split; [exact X|]); intros r Hr' Dr; [rewrite <- E|rewrite E]; now apply G.
Qed.
Print Assumptions C58_diffusion_partial.

(** With a symmetric nonnegative tensor and nonnegative weights the solutions are the minimisers of the energy among the
    functions with the prescribed values. *)
Theorem C58_minimum_partial : forall d gd id size mesh D v procs, let n := num_dof_tet d in
  wf d -> (0 < gd)%nat -> (0 < id)%nat -> (0 < n)%nat ->
  (forall m, In m mesh -> numbering_ok n size (m_c m) /\ diffusion_ok d gd id m /\ iteration_ok d (m_c m)) ->
  (elem_mask d 2 = true \/ forall m k, In m mesh -> (k < 4)%nat -> neumann (m_c m) k = false) ->
  dirichlet_dofs d mesh D v -> no_idle_dof n size mesh -> run_ok n size (cell_matrix gd) mesh procs ->
  (forall m, In m mesh -> weights_ok m /\ tensor_spd gd m) ->
  forall x, solves_system size procs (run_diffusion d gd id) x <->
    (forall r, (r < size)%nat -> D r = true -> x r = v r) /\
    (forall y, (forall r, (r < size)%nat -> D r = true -> y r = v r) -> diffusion_energy gd id n mesh x <= diffusion_energy gd id n mesh y).
Proof.
  intros d gd id size mesh D v procs n Hw Hgd Hid Hn Hm HN HD Hi Hr HK x.
  rewrite (proj2 (C58_diffusion_partial d gd id size mesh D v procs Hw Hgd Hid Hn Hm HN HD Hi Hr) x). fold n.
  assert (Q := energy_min n size (cell_matrix gd) (cell_load id) mesh x D (numbers_lt n size mesh (fun m I => proj1 (Hm m I)))
    (fun m i j I _ _ => stiffness_sym gd m (proj2 (HK m I)) i j) (stiffness_nonneg n gd mesh HK)).
  split; intros [X G]; (split; [exact X|]).
  - intros y Hy. rewrite <- !energy_diffusion. apply Q; [exact G|]. intros r Hr' Dr. rewrite X, Hy by assumption. reflexivity.
  - apply Q. intros y Hy. rewrite !energy_diffusion. apply G. intros r Hr' Dr. rewrite <- X by assumption. now apply Hy.
Qed.
Print Assumptions C58_minimum_partial.

(** Laplace: boundary faces without a Dirichlet condition need no term, so the space may have no face dofs.
    Missing: compositions whose iteration over dofs is not exact. *)
Theorem C58_laplace_partial : forall d gd id size mesh D v procs, let n := num_dof_tet d in
  wf d -> (0 < gd)%nat -> (0 < id)%nat -> (0 < n)%nat ->
  (forall m, In m mesh -> numbering_ok n size (m_c m) /\ laplace_ok d gd id m /\ iteration_ok d (m_c m)) ->
  dirichlet_dofs d mesh D v -> no_idle_dof n size mesh -> run_ok n size (laplace_matrix gd) mesh procs -> (forall m, In m mesh -> weights_ok m) ->
  assembles procs (run_laplace d gd id) /\
  forall x, solves_system size procs (run_laplace d gd id) x <->
    (forall r, (r < size)%nat -> D r = true -> x r = v r) /\
    (forall y, (forall r, (r < size)%nat -> D r = true -> y r = v r) -> dirichlet_energy gd n mesh x <= dirichlet_energy gd n mesh y).
Proof.
  intros d gd id size mesh D v procs n Hw Hgd Hid Hn Hm HD Hi Hr HK.
  split; [exact (proj1 (laplace_solves d gd id size mesh D v procs (fun _ => 0) Hw Hgd Hid Hn Hm HD Hi Hr))|]. intros x.
  rewrite (proj2 (laplace_solves d gd id size mesh D v procs x Hw Hgd Hid Hn Hm HD Hi Hr)). fold n.
  assert (Q := energy_min n size (laplace_matrix gd) (fun _ _ => 0) mesh x D (numbers_lt n size mesh (fun m I => proj1 (Hm m I)))
    (fun m i j _ _ _ => laplace_sym gd m i j) (laplace_nonneg n gd mesh HK)).
  split; intros [X G]; (split; [exact X|]).
  - intros y Hy. rewrite <- !energy_laplace. apply Q; [exact G|]. intros r Hr' Dr. rewrite X, Hy by assumption. reflexivity.
  - apply Q. intros y Hy. rewrite !energy_laplace. apply G. intros r Hr' Dr. rewrite <- X by assumption. now apply Hy.
Qed.
Print Assumptions C58_laplace_partial.
(** A function without gradient is a solution when it has the prescribed values. *)
Theorem C58_laplace_constant_partial : forall d gd id size mesh D v procs x, let n := num_dof_tet d in
  wf d -> (0 < gd)%nat -> (0 < id)%nat -> (0 < n)%nat ->
  (forall m, In m mesh -> numbering_ok n size (m_c m) /\ laplace_ok d gd id m /\ iteration_ok d (m_c m)) ->
  dirichlet_dofs d mesh D v -> no_idle_dof n size mesh -> run_ok n size (laplace_matrix gd) mesh procs ->
  (forall r, (r < size)%nat -> D r = true -> x r = v r) ->
  (forall m p k, In m mesh -> (p < t_q (g_T (m_c m)))%nat -> (k < gd)%nat -> fe_gradient n m x p k = 0) ->
  solves_system size procs (run_laplace d gd id) x.
Proof.
  intros d gd id size mesh D v procs x n Hw Hgd Hid Hn Hm HD Hi Hr X G.
  apply (proj2 (laplace_solves d gd id size mesh D v procs x Hw Hgd Hid Hn Hm HD Hi Hr)). split; [exact X|]. intros r _ _. apply lsum_zero. intros m I. apply Rsum_zero. intros i _.
  destruct (number m i =? r)%nat; [|reflexivity]. rewrite laplace_apply, Rsum_zero; [ring|]. intros p Hp. rewrite Rsum_zero; [ring|]. intros k Hk. fold n. rewrite G by assumption. ring.
Qed.
Print Assumptions C58_laplace_constant_partial.

(** The projection: the solutions satisfy the Galerkin equations of the mass matrix; with nonnegative weights they are
    the best approximations of the user's function; a function of the space is reproduced. *)
Theorem C58_projection : forall d id size mesh procs, let n := num_dof_tet d in (0 < id)%nat -> (0 < n)%nat ->
  (forall m, In m mesh -> numbering_ok n size (m_c m) /\ project_ok d id m) -> run_ok n size (cell_mass id) mesh procs ->
  assembles procs (run_project d id) /\
  forall x, solves_system size procs (run_project d id) x <-> forall r, (r < size)%nat -> galerkin_residual n (cell_mass id) (cell_source id) mesh x r = 0.
Proof.
  intros d id size mesh procs n Hid Hn Hm Hr. split; [exact (proj1 (project_solves d id size mesh procs (fun _ => 0) Hid Hn Hm Hr))|]. intros x.
  exact (proj2 (project_solves d id size mesh procs x Hid Hn Hm Hr)).
Qed.
Print Assumptions C58_projection.
Theorem C58_best_approximation : forall d id size mesh procs, let n := num_dof_tet d in (0 < id)%nat -> (0 < n)%nat ->
  (forall m, In m mesh -> numbering_ok n size (m_c m) /\ project_ok d id m) -> run_ok n size (cell_mass id) mesh procs -> (forall m, In m mesh -> weights_ok m) ->
  forall x, solves_system size procs (run_project d id) x <-> forall y, distance2 n id mesh x <= distance2 n id mesh y.
Proof.
  intros d id size mesh procs n Hid Hn Hm Hr HK x. rewrite (proj2 (project_solves d id size mesh procs x Hid Hn Hm Hr)). fold n.
  assert (Q := energy_min n size (cell_mass id) (cell_source id) mesh x (fun _ => false) (numbers_lt n size mesh (fun m I => proj1 (Hm m I)))
    (fun m i j _ _ _ => mass_sym id m i j) (mass_nonneg n id mesh HK)).
  split.
  - intros H y. rewrite !energy_distance. assert (energy n (cell_mass id) (cell_source id) mesh x <= energy n (cell_mass id) (cell_source id) mesh y); [|lra].
    apply Q; [intros; now apply H|discriminate].
  - intros H r Hr'. refine (proj2 Q _ r Hr' eq_refl). intros y _. specialize (H y). rewrite !energy_distance in H. lra.
Qed.
Print Assumptions C58_best_approximation.
Theorem C58_reproduction : forall d id size mesh procs x, let n := num_dof_tet d in (0 < id)%nat -> (0 < n)%nat ->
  (forall m, In m mesh -> numbering_ok n size (m_c m) /\ project_ok d id m) -> run_ok n size (cell_mass id) mesh procs ->
  (forall m p k, In m mesh -> (p < t_q (g_T (m_c m)))%nat -> (k < id)%nat -> nth k (g_f (m_c m) (quad_point (g_T (m_c m)) p)) 0 = fe_value n m x p k) ->
  solves_system size procs (run_project d id) x.
Proof.
  intros d id size mesh procs x n Hid Hn Hm Hr Hf. apply (proj2 (project_solves d id size mesh procs x Hid Hn Hm Hr)). intros r _. apply lsum_zero. intros m I. apply Rsum_zero. intros i _.
  destruct (number m i =? r)%nat; [|reflexivity]. rewrite mass_apply. unfold cell_source, source. fold n. rewrite <- Rsum_minus, Rsum_zero; [ring|]. intros p Hp.
  rewrite <- Rmult_minus_distr_l, <- Rsum_minus, Rsum_zero; [ring|]. intros k Hk. rewrite Hf by assumption. ring.
Qed.
Print Assumptions C58_reproduction.

(** *** Concrete cases *)
(** a stored matrix with one block *)
Definition block (dim nf q : nat) (u : nat -> nat -> nat -> R) : band :=
  {| parts := [(arr (q * dim * nf) (fun c => u (c mod (q * dim) / dim)%nat (c mod (q * dim) mod dim)%nat (c / (q * dim))%nat), (q * dim)%nat)]; st_row := [0; dim]%nat; st_col := [0; nf]%nat |}.
Lemma block_ok : forall dim nf q u, (0 < dim)%nat -> band_of (block dim nf q u) dim nf q 1 (fun _ => u).
Proof.
  intros dim nf q u Hd. unfold band_of, block, nparts. cbn [parts st_row st_col length nth]. split; [lia|]. do 6 (split; [reflexivity|]). split; [intros d H; assert (d = 0)%nat by (cbn in H; lia); subst d; cbn; lia|]. split.
  - intros d H. assert (d = 0)%nat by (cbn in H; lia). subst d. cbn [nth nth_error]. rewrite !Nat.sub_0_r. eexists. split; [reflexivity|]. intros r n k i Hr Hn Hk Hi. assert (r = 0)%nat by lia. subst r.
    rewrite !Nat.sub_0_r, Nat.mul_0_r, Nat.add_0_r. assert (B : (k + n * dim < q * dim)%nat) by nia.
    change (nth_error ?l ?j) with (rd l j). rewrite rd_arr by nia. f_equal.
    assert (E1 : ((k + n * dim + q * dim * i) mod (q * dim) = k + n * dim)%nat) by (rewrite (Nat.mul_comm (q * dim) i), Nat.mod_add by lia; now apply Nat.mod_small).
    assert (E2 : ((k + n * dim + q * dim * i) / (q * dim) = i)%nat) by (rewrite (Nat.mul_comm (q * dim) i), Nat.div_add by lia; rewrite Nat.div_small by exact B; lia).
    rewrite E1, E2, Nat.mod_add, Nat.div_add, Nat.mod_small, Nat.div_small by lia. reflexivity.
  - intros d d' r n k i H H' Hne. cbn in H, H'. lia.
Qed.

(** Two reference tetrahedra with a common face and one dof per face: faces 1-3 of the first are Neumann ones, those of
    the second Dirichlet ones; one quadrature point *)
Definition crmap := unite_of_sym [0;0;0;0;0;1;0;0;0;0;0;0;0;0;0;0]%nat.
Definition cr_grad (p k i : nat) : R := if (i =? 0)%nat then 3 else if (i =? S k)%nat then -3 else 0.
Definition cr_T (mes : R) (val : nat -> nat -> nat -> R) : tables := mkT 1 [1] mes [1/4; 1/4; 1/4] (block 3 4 1 cr_grad) (block 1 4 1 val) (block 1 1 1 (fun _ _ _ => 1)).
Definition cr_val (p k i : nat) : R := 1/4.
Definition cr_face (f p k i : nat) : R := if (i =? f)%nat then 1 else 0.
Definition cr_ws (_ : nat) : work := mkW (repeat 7 16) (repeat 7 16) (repeat 7 16) (repeat 7 16).
Definition cr_cell (dofs : list nat) (dir : bool) : mcell :=
  mkM (mkP dofs [false; false; false; false] (fun dim k => (dim =? 2)%nat && (0 <? k)%nat && dir) (fun k => (0 <? k)%nat) (fun _ _ => TScalar 2) (fun _ => [2]) (fun _ _ => [5]) (fun _ => 1)
    (cr_T (1/6) cr_val) (fun k => cr_T (1/2) (cr_face k)) cr_ws (repeat 7 4) (repeat 7 16) (repeat 7 4)) cr_grad cr_val cr_face.
Definition cr_mesh : list mcell := [cr_cell [0; 1; 2; 3]%nat false; cr_cell [0; 4; 5; 6]%nat true].
Definition cr_D (r : nat) : bool := (4 <=? r)%nat.
Definition cr_procs : list process :=
  [mkPr (mkProb 4 0 7 true) (default_opts (1/10)) 3 cr_mesh; mkPr (mkProb 4 3 7 true) (default_opts (1/10)) 4 cr_mesh].

Lemma cr_points : forall mes val, points_ok (cr_T mes val).
Proof. intros. unfold points_ok. cbn [cr_T t_q t_w t_X t_one length]. split; [lia|]. split; [lia|]. split; [lia|]. apply block_ok. lia. Qed.
Lemma cr_ok : forall dofs dir, diffusion_ok crmap 3 1 (cr_cell dofs dir) /\ laplace_ok crmap 3 1 (cr_cell dofs dir) /\ project_ok crmap 1 (cr_cell dofs dir).
Proof.
  intros dofs dir. assert (V : forall mes val, values_ok 1 4 (cr_T mes val) val) by (intros; apply block_ok; lia). assert (G : gradients_ok 3 4 (cr_T (1/6) cr_val) cr_grad) by (apply block_ok; lia).
  assert (P := cr_points). change (num_dof_tet crmap) with 4%nat. unfold diffusion_ok, laplace_ok, project_ok. change (num_dof_tet crmap) with 4%nat. cbn [cr_cell m_c m_val m_grad m_face g_T g_Tf g_K g_f g_g g_ws g_buf].
  assert (W : forall c, work_ok 3 3 4 4 1 (cr_ws c) /\ work_ok 1 1 1 4 1 (cr_ws c) /\ work_ok 1 1 4 4 1 (cr_ws c)) by (intros; unfold work_ok; cbn; lia).
  split; [|split].
  - split; [split; [apply P|split; [apply V|split; [exact G|intros p _; reflexivity]]]|]. split; [intros p _; now left|]. split; [|split; [apply (W 0%nat)|split; [apply (W 1%nat)|reflexivity]]].
    intros k _ _. split; [apply P|]. split; [apply V|]. split; [intros p _; reflexivity|]. apply (W (2 + k)%nat).
  - split; [split; [apply P|split; [apply V|exact G]]|]. split; [|split; [apply (W 0%nat)|split; [apply (W 1%nat)|reflexivity]]].
    intros k _ _. split; [apply P|]. split; [apply V|]. apply (W (2 + k)%nat).
  - split; [apply P|]. split; [apply V|]. split; [intros p _; reflexivity|]. split; [apply (W 0%nat)|]. split; [apply (W 1%nat)|cbn; lia].
Qed.
Lemma cr_numbering : forall m, In m cr_mesh -> numbering_ok 4 7 (m_c m).
Proof.
  intros m [<-|[<-|[]]]; unfold numbering_ok; cbn [cr_cell m_c g_dof g_flip g_A g_F]; (split; [reflexivity|]); (split; [reflexivity|]);
    (split; [repeat constructor; cbn; intuition lia|]); (split; [cbn; intros; lia|]); split; reflexivity.
Qed.
Lemma cr_iteration : forall m, iteration_ok crmap m.
Proof. intros. exact I. Qed.
Lemma cr_dirichlet : dirichlet_dofs crmap cr_mesh cr_D (fun _ => 1).
Proof.
  intros m i [<-|[<-|[]]] Hi; change (num_dof_tet crmap) with 4%nat in Hi; destruct i as [|[|[|[|i]]]]; try lia; (split; [reflexivity|]); intros H; try discriminate H;
    unfold sign; cbn; ring.
Qed.
Lemma cr_no_idle : no_idle_dof 4 7 cr_mesh.
Proof.
  intros r Hr. destruct (Nat.lt_ge_cases r 4) as [H|H].
  - exists (cr_cell [0; 1; 2; 3]%nat false), r. split; [now left|]. split; [exact H|]. destruct r as [|[|[|[|r]]]]; try lia; reflexivity.
  - exists (cr_cell [0; 4; 5; 6]%nat true), (r - 3)%nat. split; [right; now left|]. split; [lia|]. destruct r as [|[|[|[|[|[|[|r]]]]]]]; try lia; reflexivity.
Qed.
Lemma cr_run : forall A, (forall m i j, In m cr_mesh -> (i < 4)%nat -> (j < 4)%nat -> above (1/10) (A m i j)) -> run_ok 4 7 A cr_mesh cr_procs.
Proof.
  intros A HA. split.
  - intros q [<-|[<-|[]]]; (do 4 (split; [reflexivity|])); (split; [cbn; lra|]); (split; [cbn; lia|]); (split; [exists []; split; [rewrite app_nil_r; apply Permutation_refl|intros m i []]|exact HA]).
  - intros r Hr. destruct (Nat.lt_ge_cases r 3) as [H|H]; [exists (mkPr (mkProb 4 0 7 true) (default_opts (1/10)) 3 cr_mesh)|exists (mkPr (mkProb 4 3 7 true) (default_opts (1/10)) 4 cr_mesh)]; unfold owns; cbn; split; (tauto || lia).
Qed.
Ltac above_case := first [left; lra | right; rewrite Rabs_right by lra; lra | right; rewrite Rabs_left by lra; lra].
Lemma cr_above : forall m i j, In m cr_mesh -> (i < 4)%nat -> (j < 4)%nat -> above (1/10) (laplace_matrix 3 m i j) /\ above (1/10) (cell_matrix 3 m i j).
Proof.
  intros m i j Hm Hi Hj.
  assert (E : laplace_matrix 3 m i j = 1/6 * (cr_grad 0 0 j * cr_grad 0 0 i + cr_grad 0 1 j * cr_grad 0 1 i + cr_grad 0 2 j * cr_grad 0 2 i)).
  { destruct Hm as [<-|[<-|[]]]; unfold laplace_matrix, quad_weight; cbn [cr_cell m_c m_grad g_T cr_T t_q t_w t_mes]; rewrite !Rsum_S; cbn [Rsum nth]; lra. }
  assert (E2 : cell_matrix 3 m i j = 2 * laplace_matrix 3 m i j).
  { rewrite E. destruct Hm as [<-|[<-|[]]]; unfold cell_matrix, stiffness, quad_weight; cbn [cr_cell m_c m_grad g_K g_T cr_T t_q t_w t_mes]; rewrite !Rsum_S; cbn [Rsum nth tmat]; unfold unit_entry; cbn [Nat.eqb]; rewrite ?Rsum_S; cbn [Rsum Nat.eqb]; lra. }
  rewrite E2, E. clear E E2. unfold above. destruct i as [|[|[|[|i]]]]; try lia; destruct j as [|[|[|[|j]]]]; try lia; unfold cr_grad; cbn [Nat.eqb]; split; above_case.
Qed.
Lemma cr_mass_above : forall m i j, In m cr_mesh -> (i < 4)%nat -> (j < 4)%nat -> above (1/200) (cell_mass 1 m i j).
Proof.
  intros m i j Hm _ _. destruct Hm as [<-|[<-|[]]]; unfold cell_mass, mass, quad_weight; cbn [cr_cell m_c m_val g_T cr_T t_q t_w t_mes]; rewrite !Rsum_S; cbn [Rsum nth]; unfold cr_val; right; rewrite Rabs_right; lra.
Qed.
Lemma cr_weights : forall m, In m cr_mesh -> weights_ok m.
Proof. intros m [<-|[<-|[]]] p Hp; cbn in Hp; assert (p = 0)%nat by lia; subst p; unfold quad_weight; cbn; lra. Qed.
(** the hypotheses of the theorems about diffusion and Laplace hold *)
Example C58_met : assembles cr_procs (run_diffusion crmap 3 1) /\ assembles cr_procs (run_laplace crmap 3 1) /\
  (forall x, solves_system 7 cr_procs (run_diffusion crmap 3 1) x -> x 4%nat = 1 /\ galerkin_residual 4 (cell_matrix 3) (cell_load 1) cr_mesh x 0 = 0) /\
  solves_system 7 cr_procs (run_laplace crmap 3 1) (fun _ => 1).
Proof.
  assert (HM : forall m, In m cr_mesh -> numbering_ok 4 7 (m_c m) /\ diffusion_ok crmap 3 1 m /\ iteration_ok crmap (m_c m)).
  { intros m Hm. split; [now apply cr_numbering|]. split; [|apply cr_iteration]. destruct Hm as [<-|[<-|[]]]; apply cr_ok. }
  assert (HL : forall m, In m cr_mesh -> numbering_ok 4 7 (m_c m) /\ laplace_ok crmap 3 1 m /\ iteration_ok crmap (m_c m)).
  { intros m Hm. split; [now apply cr_numbering|]. split; [|apply cr_iteration]. destruct Hm as [<-|[<-|[]]]; apply cr_ok. }
  assert (W : wf crmap) by (repeat split).
  assert (R1 : run_ok 4 7 (cell_matrix 3) cr_mesh cr_procs) by (apply cr_run; intros; now apply cr_above).
  assert (R2 : run_ok 4 7 (laplace_matrix 3) cr_mesh cr_procs) by (apply cr_run; intros; now apply cr_above).
  assert (T : forall k, (0 < S k)%nat) by (intros; lia).
  destruct (C58_diffusion_partial crmap 3 1 7 cr_mesh cr_D (fun _ => 1) cr_procs W (T _) (T _) (T _) HM (or_introl eq_refl) cr_dirichlet cr_no_idle R1) as [A1 S1].
  destruct (C58_laplace_partial crmap 3 1 7 cr_mesh cr_D (fun _ => 1) cr_procs W (T _) (T _) (T _) HL cr_dirichlet cr_no_idle R2 cr_weights) as [A2 _].
  split; [exact A1|]. split; [exact A2|]. split.
  - intros x Hx. apply S1 in Hx. destruct Hx as [X G]. split; [apply X; [lia|reflexivity]|]. apply G; [lia|reflexivity].
  - apply (C58_laplace_constant_partial crmap 3 1 7 cr_mesh cr_D (fun _ => 1) cr_procs _ W (T _) (T _) (T _) HL cr_dirichlet cr_no_idle R2); [reflexivity|].
    intros m p k Hm Hp Hk. change (num_dof_tet crmap) with 4%nat. destruct Hm as [<-|[<-|[]]]; unfold fe_gradient, local_coef, sign; rewrite !Rsum_S; cbn [Rsum cr_cell m_c m_grad g_flip nth]; unfold cr_grad; destruct k as [|[|[|k]]]; try lia; cbn [Nat.eqb]; ring.
Qed.
(** ... and those of the projection, for the function 2 *)
Definition cr_procs' : list process := map (fun q => mkPr (r_p q) (default_opts (1/200)) (r_rows q) (r_here q)) cr_procs.
Example C58_projection_met : assembles cr_procs' (run_project crmap 1) /\ solves_system 7 cr_procs' (run_project crmap 1) (fun _ => 2) /\ forall y, distance2 4 1 cr_mesh (fun _ => 2) <= distance2 4 1 cr_mesh y.
Proof.
  assert (HM : forall m, In m cr_mesh -> numbering_ok 4 7 (m_c m) /\ project_ok crmap 1 m).
  { intros m Hm. split; [now apply cr_numbering|]. destruct Hm as [<-|[<-|[]]]; apply cr_ok. }
  assert (R1 : run_ok 4 7 (cell_mass 1) cr_mesh cr_procs').
  { split.
    - intros q Hq. apply in_map_iff in Hq. destruct Hq as (q0 & <- & Hq). destruct Hq as [<-|[<-|[]]]; (do 4 (split; [reflexivity|])); (split; [cbn; lra|]); (split; [cbn; lia|]); (split; [exists []; split; [rewrite app_nil_r; apply Permutation_refl|intros m i []]|exact cr_mass_above]).
    - intros r Hr. destruct (proj2 (cr_run (fun _ _ _ => 0) (fun _ _ _ _ _ _ => or_introl eq_refl)) r Hr) as (q & Hq & Ho). eexists. split; [apply in_map; exact Hq|exact Ho]. }
  assert (T : forall k, (0 < S k)%nat) by (intros; lia).
  assert (Sx : solves_system 7 cr_procs' (run_project crmap 1) (fun _ => 2)).
  { apply (C58_reproduction crmap 1 7 cr_mesh cr_procs' _ (T _) (T _) HM R1). intros m p k Hm Hp Hk. assert (k = 0)%nat by lia. subst k. change (num_dof_tet crmap) with 4%nat.
    destruct Hm as [<-|[<-|[]]]; unfold fe_value, local_coef, sign; rewrite !Rsum_S; cbn [Rsum cr_cell m_c m_val g_f g_flip nth]; unfold cr_val; lra. }
  split; [exact (proj1 (C58_projection crmap 1 7 cr_mesh cr_procs' (T _) (T _) HM R1))|]. split; [exact Sx|].
  exact (proj1 (C58_best_approximation crmap 1 7 cr_mesh cr_procs' (T _) (T _) HM R1 cr_weights _) Sx).
Qed.

(** Refuted: for a space without dofs on faces (P1) the Neumann data are ignored: the load of a cell all faces of which
    are Neumann ones is zero although the quadrature sums of the flux are not. *)
Theorem C58_neumann_refuted : exists d gd id m A F, let c := m_c m in
  wf d /\ diffusion_ok d gd id m /\ iteration_ok d c /\ length (g_A c) = (num_dof_tet d * num_dof_tet d)%nat /\ length (g_F c) = num_dof_tet d /\
  (forall k, (k < 4)%nat -> neumann c k = true) /\
  diffusion_local d gd id (g_K c) (g_f c) (g_g c) (g_u0 c) (g_T c) (g_Tf c) (g_ws c) (g_buf c) (gather d (g_isd c) (g_bnd c)) (g_A c) (g_F c) = Some (A, F) /\
  nth 0 F 0 = 0 /\ on_dirichlet d (g_isd c) 0 = false /\ 0 < cell_load id m 0.
Proof.
  set (m := mkM (mkP [0; 1; 2; 3]%nat [false; false; false; false] (fun _ _ => false) (fun _ => true) (fun _ _ => TNull) (fun _ => [0]) (fun _ _ => [5]) (fun _ => 1)
    (cr_T (1/6) cr_val) (fun k => cr_T (1/2) cr_val) cr_ws (repeat 7 4) (repeat 7 16) (repeat 7 4)) cr_grad cr_val (fun _ => cr_val)).
  assert (V : forall mes, values_ok 1 4 (cr_T mes cr_val) cr_val) by (intros; apply block_ok; lia).
  assert (W : wf P1map) by (repeat split).
  assert (O : diffusion_ok P1map 3 1 m).
  { unfold diffusion_ok. change (num_dof_tet P1map) with 4%nat. cbn [m m_c m_val m_grad m_face g_T g_Tf g_K g_f g_g g_ws g_buf]. split; [split; [apply cr_points|split; [apply V|split; [apply block_ok; lia|intros p _; reflexivity]]]|].
    split; [intros p _; now left|]. split; [|unfold work_ok; cbn; repeat split; lia]. intros k _ _. split; [apply cr_points|]. split; [apply V|]. split; [intros p _; reflexivity|]. unfold work_ok. cbn. lia. }
  exists P1map, 3%nat, 1%nat, m. do 2 eexists. split; [exact W|]. split; [exact O|]. split; [exact I|]. split; [reflexivity|]. split; [reflexivity|]. split; [reflexivity|].
  split; [apply diffusion_local_ok; trivial; try (cbn; lia); try exact I; split; reflexivity|]. split; [|split; [reflexivity|]].
  - change (num_dof_tet P1map) with 4%nat. rewrite (nth_arr 4) by lia. unfold eliminated_load. replace (on_dirichlet P1map (g_isd (m_c m)) 0) with false by reflexivity.
    rewrite Rsum_zero by (intros j _; unfold on_dirichlet; now destruct (local_order P1map j)). rewrite Rminus_0_r. unfold code_load.
    rewrite Rsum_zero by reflexivity. unfold source. cbn [m m_c g_f g_T cr_T t_q]. rewrite !Rsum_S. cbn [Rsum nth]. ring.
  - unfold cell_load, source, neumann, quad_weight. cbn [m m_c g_f g_g g_T g_Tf g_bnd g_isd m_val m_face cr_T t_q t_w t_mes]. rewrite !Rsum_S. cbn [Rsum nth andb negb]. rewrite ?Rsum_S. cbn [Rsum nth]. unfold cr_val. lra.
Qed.
Print Assumptions C58_neumann_refuted.

(** Refuted: in the composition P1 x P0 x P1 with Dirichlet nodes 0 and 2 the dofs of the third component on these nodes
    keep their equations, here a zero row. *)
Theorem C58_composition_refuted : exists d gd id m A F i, let c := m_c m in
  wf d /\ diffusion_ok d gd id m /\ length (g_A c) = (num_dof_tet d * num_dof_tet d)%nat /\ length (g_F c) = num_dof_tet d /\ (forall k, neumann c k = false) /\
  diffusion_local d gd id (g_K c) (g_f c) (g_g c) (g_u0 c) (g_T c) (g_Tf c) (g_ws c) (g_buf c) (gather d (g_isd c) (g_bnd c)) (g_A c) (g_F c) = Some (A, F) /\
  (i < num_dof_tet d)%nat /\ on_dirichlet d (g_isd c) i = true /\ (forall j, (j < num_dof_tet d)%nat -> nth (i + num_dof_tet d * j) A 0 = 0).
Proof.
  set (d := Complex [P1map; P0map; P1map]).
  set (T := mkT 1 [1] 1 [1/4; 1/4; 1/4] (block 9 9 1 (fun _ _ _ => 0)) (block 3 9 1 (fun _ _ _ => 1/4)) (block 1 1 1 (fun _ _ _ => 1))).
  set (ws := fun _ : nat => mkW (repeat 7 81) (repeat 7 81) (repeat 7 81) (repeat 7 81)).
  set (m := mkM (mkP (seq 0 9) (repeat false 9) (fun dim k => (dim =? 0)%nat && ((k =? 0) || (k =? 2))%nat) (fun _ => false) (fun _ _ => TNull) (fun _ => [0; 0; 0]) (fun _ _ => [0; 0; 0]) (fun _ => 1)
    T (fun _ => T) ws (repeat 7 9) (repeat 7 81) (repeat 7 9)) (fun _ _ _ => 0) (fun _ _ _ => 1/4) (fun _ _ _ _ => 1/4)).
  assert (N : num_dof_tet d = 9%nat) by reflexivity.
  assert (P : points_ok T). { unfold points_ok. cbn [T t_q t_w t_X t_one length]. split; [lia|]. split; [lia|]. split; [lia|]. apply block_ok. lia. }
  assert (V : values_ok 3 9 T (fun _ _ _ => 1/4)) by (apply block_ok; lia). assert (G : gradients_ok 9 9 T (fun _ _ _ => 0)) by (apply block_ok; lia).
  assert (W : work_ok 9 9 9 9 1 (ws 0%nat) /\ work_ok 1 3 1 9 1 (ws 1%nat)) by (unfold work_ok; cbn; lia).
  assert (E : diffusion_local d 9 3 (g_K (m_c m)) (g_f (m_c m)) (g_g (m_c m)) (g_u0 (m_c m)) (g_T (m_c m)) (g_Tf (m_c m)) (g_ws (m_c m)) (g_buf (m_c m)) (gather d (g_isd (m_c m)) (g_bnd (m_c m))) (g_A (m_c m)) (g_F (m_c m))
    = Some (store 9 9 (all_a (cell_matrix 9 m) [(0%nat, 1); (2%nat, 1)]), arr 9 (all_f (cell_matrix 9 m) (source 3 (fun _ => [0; 0; 0]) T (fun _ _ _ => 1/4)) [(0%nat, 1); (2%nat, 1)]))).
  { replace (gather d (g_isd (m_c m)) (g_bnd (m_c m))) with (SparsityModel.Sp 5 0 0 0, 0%N) by reflexivity. unfold diffusion_local. rewrite N. cbn [m m_c g_A g_F g_K g_f g_g g_T g_Tf g_ws g_buf g_u0].
    destruct (set_zero_ok (9 * 9) (repeat 7 81) (repeat_length _ _)) as (A0 & -> & LA0). destruct (set_zero_ok 9 (repeat 7 9) (repeat_length _ _)) as (F0 & -> & LF0). cbn [obind].
    rewrite (integrate_ok _ 9 9 9 9 _ _ (fun _ _ _ _ => 0) (fun _ _ _ _ => 0) T) by (trivial; try (cbn; lia); try apply G; try apply W; intros; now left). cbn [obind].
    rewrite (integrate_vec 3 9 _ T (fun _ _ _ => 1/4)) by (trivial; try lia; try apply W; intros p _; reflexivity). cbn [obind fst snd].
    match goal with |- context [for_ 4 ?b ?s] => replace (for_ 4 b s) with (Some s) by reflexivity end. cbn [obind fst snd]. replace (SparsityModel.is_empty (SparsityModel.Sp 5 0 0 0)) with false by reflexivity.
    replace (SparsityModel.sp_iterate false d (SparsityModel.Sp 5 0 0 0)) with (Some [LO 0 0 0 0 (Some (0, 0)%nat); LO 2 0 2 0 (Some (0, 0)%nat)]) by (vm_compute; reflexivity). cbn [obind].
    set (L := [LO 0 0 0 0 (Some (0, 0)%nat); LO 2 0 2 0 (Some (0, 0)%nat)]).
    assert (NL : NoDup (map lo_gid L)) by (repeat constructor; cbn; intuition lia). assert (KL : forall lo, In lo L -> (lo_gid lo < 9)%nat) by (intros lo [<-|[<-|[]]]; cbn; lia).
    change (repeat 7 9) with (arr 9 (fun _ : nat => 7)). destruct (dir_values_ok 9 (fun _ => 1) L (fun _ => 7) NL KL) as (v & -> & Hv & _). cbn [obind].
    rewrite (dir_by_dofs_all 9 L v (fun _ => 1)) by assumption. apply dir_all_ok; [exact NL|]. intros k [<-|[<-|[]]]; cbn; lia. }
  exists d, 9%nat, 3%nat, m. do 2 eexists. exists 5%nat. cbn zeta. rewrite N. split; [repeat split|]. split; [|split; [reflexivity|split; [reflexivity|split; [reflexivity|split; [exact E|]]]]].
  - unfold diffusion_ok. rewrite N. cbn [m m_c m_val m_grad g_T g_K g_f g_ws g_buf]. split; [split; [exact P|split; [exact V|split; [exact G|intros p _; reflexivity]]]|]. split; [intros p _; now left|].
    split; [intros k _ H; discriminate H|]. split; [apply W|]. split; [apply W|reflexivity].
  - split; [lia|]. split; [reflexivity|]. intros j Hj. rewrite (nth_error_nth _ _ _ (mrd_store 9 9 _ 5 j ltac:(lia) Hj)). unfold all_a. replace (memb 5 [(0%nat, 1); (2%nat, 1)]) with false by reflexivity. cbn [orb].
    destruct (memb j _) eqn:M.
    + unfold eye. destruct (Nat.eqb_spec 5 j) as [<-|]; [discriminate M|reflexivity].
    + unfold cell_matrix, stiffness. apply Rsum_zero. intros p _. rewrite Rsum_zero; [ring|]. intros k _. cbn [m m_grad]. ring.
Qed.
Print Assumptions C58_composition_refuted.
