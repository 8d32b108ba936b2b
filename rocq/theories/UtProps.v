(** C57 storage tags, integrals over the mesh, points of evaluation, printed status *)
From Coq Require Import ZArith Reals List Bool Lia Lra Permutation String.
From Coquelicot Require Import Coquelicot.
From Verif Require Import Prelude DofModel DofSpec DofProofs SymModel OrdModel EnumModel EnumSpec EnumProofs EnumProofs2 EnumProps RSum BasModel BasSpec QuadModel QuadTables QuadRules QuadSpec QuadProofs3 QuadProofs4 QuadProps KinModel KinSpec KinProofs UtModel UtSpec UtProofs UtProofs2.
Import ListNotations.
Open Scope nat_scope.

(** ** Tags.  Every dof of the variables l has its place in the tag of its element, fixed size or not *)
Theorem C57_tag_room : forall fixed l x, wf (Complex l) -> valid_desc l x ->
  exists e s, full_desc l x = Some e /\ create_tag fixed (Complex l) (geom_dim (x_type x)) = Some s /\ elem_dof_id e < s.
Proof.
  intros fixed l x Hw Hx. destruct (C20_position l x Hw Hx) as (e & E & _ & P & _). exists e. set (k := geom_dim (x_type x)) in *.
  assert (Hk : k < 4) by (destruct Hx as [Ht _]; unfold k; destruct (x_type x) as [|[|[|[|[|[|t]]]]]]; cbn; lia).
  assert (Hp : elem_dof_id e < i_nd l k) by (rewrite <- (C20_count l k Hw); apply nth_error_Some; congruence).
  destruct (tag_room fixed (Complex l) k Hw Hk) as (s & Es & Hs); [rewrite ndofs_nd; lia|]. rewrite ndofs_nd in Hs. exists s. repeat split; trivial. lia.
Qed.
Print Assumptions C57_tag_room.
(** With a variable size an element stores as many numbers as there are dofs on it, and no tag if there are none *)
Theorem C57_tag_exact : forall l k, wf (Complex l) -> k < 4 ->
  create_tag false (Complex l) k = if length (descs l k) =? 0 then None else Some (length (descs l k)).
Proof. intros l k Hw Hk. rewrite tag_false, ndofs_nd, C20_count by assumption. reflexivity. Qed.
Print Assumptions C57_tag_exact.
(** With a fixed size it stores as many as the element with most dofs *)
Theorem C57_tag_fixed : forall l k s, wf (Complex l) -> k < 4 -> create_tag true (Complex l) k = Some s ->
  0 < length (descs l k) /\ (forall j, j < 4 -> length (descs l j) <= s) /\ exists j, j < 4 /\ length (descs l j) = s.
Proof.
  intros l k s Hw Hk H. rewrite tag_true in H by assumption. rewrite ndofs_nd in H. rewrite C20_count by assumption. destruct (Nat.eqb_spec (i_nd l k) 0); [discriminate|].
  apply Some_inj' in H. destruct (max_list (elem_ndofs (Complex l)) 0) as [[_ B] C]. rewrite H in B, C. split; [lia|]. split.
  - intros j Hj. rewrite C20_count, <- ndofs_nd by assumption. apply B. now apply nth_In.
  - destruct C as [C|C].
    + exfalso. assert (i_nd l k <= 0); [|lia]. rewrite <- C, <- ndofs_nd. apply B. now apply nth_In.
    + apply In_nth with (d := 0) in C. destruct C as (j & Hj & Ej). exists j. split; [exact Hj|]. rewrite C20_count, <- ndofs_nd by assumption. exact Ej.
Qed.
Print Assumptions C57_tag_fixed.
Example C57_tag_example : let l := [Unite [1; 0; 0; 0; 0; 0] None; Unite [1; 1; 0; 0; 0; 3] None] in
  wf (Complex l) /\ valid_desc l (Desc 1 1 0 0) /\ map (create_tag false (Complex l)) (seq 0 4) = [Some 2; Some 1; None; Some 3] /\ map (create_tag true (Complex l)) (seq 0 4) = [Some 3; Some 3; None; Some 3].
Proof.
  split; [cbn; tauto|]. split; [|split; reflexivity]. split; [cbn; lia|]. exists (Unite [1; 1; 0; 0; 0; 3] None). split; [reflexivity|]. cbn. lia.
Qed.

(** A missing tag is created with room for the variable, other tags stay, and a later load finds it *)
Theorem C57_tag_create : forall m l name load, wf (Complex l) -> find_tag name m = None -> exists m' t, create_or_load m (Complex l) name load = Some (m', t, false) /\
  (forall x, valid_desc l x -> exists e s, full_desc l x = Some e /\ t (geom_dim (x_type x)) = Some s /\ elem_dof_id e < s) /\
  (forall other, other <> name -> find_tag other m' = find_tag other m) /\ (forall d, create_or_load m' d name true = Some (m', t, true)) /\ (forall d, create_or_load m' d name false = None).
Proof.
  intros m l name load Hw H. exists ((name, create_tag true (Complex l)) :: m), (create_tag true (Complex l)). unfold create_or_load at 1. rewrite H. split; [reflexivity|].
  split; [intros x Hx; now apply C57_tag_room|]. split; [|split; intros d; unfold create_or_load; cbn [find_tag]; rewrite String.eqb_refl; reflexivity].
  intros other Ho. cbn [find_tag]. destruct (String.eqb_spec other name); [contradiction|reflexivity].
Qed.
Print Assumptions C57_tag_create.
(** An existing tag is returned as it is.  Missing: that it has room for the variable (refuted below) *)
Theorem C57_tag_load_partial : forall m l l' name t load, wf (Complex l) -> wf (Complex l') -> find_tag name m = Some t -> t = create_tag true (Complex l') ->
  (forall k, k < 4 -> length (descs l k) <= length (descs l' k)) ->
  create_or_load m (Complex l) name load = (if load then Some (m, t, true) else None) /\
  (forall x, valid_desc l x -> exists e s, full_desc l x = Some e /\ t (geom_dim (x_type x)) = Some s /\ elem_dof_id e < s).
Proof.
  intros m l l' name t load Hw Hw' H Ht Hc. split; [unfold create_or_load; now rewrite H|]. intros x Hx. subst t.
  destruct (C20_position l x Hw Hx) as (e & E & _ & P & _). exists e. set (k := geom_dim (x_type x)) in *.
  assert (Hk : k < 4) by (destruct Hx as [Hy _]; unfold k; destruct (x_type x) as [|[|[|[|[|[|y]]]]]]; cbn; lia).
  assert (Hp : elem_dof_id e < i_nd l' k) by (rewrite <- (C20_count l' k Hw'); eapply Nat.lt_le_trans; [apply nth_error_Some; rewrite P; discriminate|now apply Hc]).
  destruct (tag_room true (Complex l') k Hw' Hk) as (s & Es & Hs); [rewrite ndofs_nd; lia|]. rewrite ndofs_nd in Hs. exists s. repeat split; trivial. lia.
Qed.
Print Assumptions C57_tag_load_partial.
(** Loading a tag created for piecewise constants as the tag of a piecewise linear variable succeeds, although there
    is no place for any of its dofs *)
Theorem C57_tag_load_refuted : exists m l name t, wf (Complex l) /\ (exists x, valid_desc l x) /\ create_or_load m (Complex l) name true = Some (m, t, true) /\
  forall x, valid_desc l x -> t (geom_dim (x_type x)) = None.
Proof.
  exists [("u"%string, create_tag true (Complex [Unite [0; 0; 0; 0; 0; 1] None]))], [Unite [1; 0; 0; 0; 0; 0] None], "u"%string, (create_tag true (Complex [Unite [0; 0; 0; 0; 0; 1] None])).
  split; [cbn; tauto|]. split; [exists (Desc 0 0 0 0); split; [cbn; lia|]; exists (Unite [1; 0; 0; 0; 0; 0] None); split; [reflexivity|]; cbn; lia|]. split; [reflexivity|].
  intros [t v c p] (Ht & b & Eb & Hc & Hp). cbn [x_type x_var x_dim x_pos] in *. destruct v as [|[|v]]; cbn in Eb; try discriminate. inversion Eb. subst b.
  destruct t as [|[|[|[|[|[|t]]]]]]; cbn in Hp |- *; try lia. reflexivity.
Qed.
Print Assumptions C57_tag_load_refuted.

(** ** Integrals *)
Open Scope R_scope.
(** One process: for every order of the cells and every number and choice of threads, every contents of the work
    memory, the result is the quadrature sum over the owned cells *)
Theorem C57_integral_local : forall order, (0 <= order <= 20)%Z -> exists f F, quadrature Tetrahedron order = Some f /\ all_points 3 f = Some F /\
  forall dim nthreads func val slots work sched, evaluates dim (q_num f) (q_p f) func val ->
    (forall i, (i < length slots)%nat -> length (work i) = (3 * q_num f + dim * q_num f)%nat) -> valid_sched (length slots) nthreads sched ->
    exists out, integrate_local order dim nthreads func slots work sched = Some out /\ length out = dim /\
      forall d, (d < dim)%nat -> nth d out 0 = quad_sum F val d (owned_cells slots).
Proof.
  intros order H. destruct (table_points order H) as (f & F & Ef & EF & L & T). exists f, F. split; [exact Ef|]. split; [exact EF|].
  intros dim nt func val slots work sched Hf Hw Hs. eexists. split; [exact (local_ok f F L T dim func val Hf slots work Hw order nt sched Ef Hs)|].
  split; [apply arr_length|]. intros d Hd. now apply nth_arr.
Qed.
Print Assumptions C57_integral_local.

(** All processes: the cells of the mesh are distributed, every one owned by one process (and possibly a ghost on
    others); every process gets the quadrature sum over the whole mesh *)
Record proc := Proc { pr_slots : list (option icell); pr_work : nat -> list R; pr_threads : nat; pr_sched : list (nat * nat) }.
Lemma quad_sum_app : forall F val d a b, quad_sum F val d (a ++ b) = quad_sum F val d a + quad_sum F val d b.
Proof. intros F val d a b. unfold quad_sum. rewrite map_app. generalize (map (fun c => ic_vol c * qsum F (fun p => val c p (phys c p) d)) b). induction (map _ a) as [|x l IH]; intros r; cbn [app fold_right]; [ring|]. rewrite IH. ring. Qed.
Lemma quad_sum_perm : forall F val d a b, Permutation a b -> quad_sum F val d a = quad_sum F val d b.
Proof. intros. unfold quad_sum. apply fold_perm. now apply Permutation_map. Qed.
Theorem C57_integral : forall order, (0 <= order <= 20)%Z -> exists f F, quadrature Tetrahedron order = Some f /\ all_points 3 f = Some F /\
  forall dim func val procs mesh, evaluates dim (q_num f) (q_p f) func val ->
    (forall p, In p procs -> valid_sched (length (pr_slots p)) (pr_threads p) (pr_sched p) /\
       forall i, (i < length (pr_slots p))%nat -> length (pr_work p i) = (3 * q_num f + dim * q_num f)%nat) ->
    Permutation (flat_map (fun p => owned_cells (pr_slots p)) procs) mesh ->
    exists outs, Forall2 (fun p o => integrate_local order dim (pr_threads p) func (pr_slots p) (pr_work p) (pr_sched p) = Some o) procs outs /\
      forall res, integrate_all dim outs res -> forall d, (d < dim)%nat -> nth d res 0 = quad_sum F val d mesh.
Proof.
  intros order H. destruct (C57_integral_local order H) as (f & F & Ef & EF & T). exists f, F. split; [exact Ef|]. split; [exact EF|].
  intros dim func val procs mesh Hf Hp Hm.
  assert (G : exists outs, Forall2 (fun p o => integrate_local order dim (pr_threads p) func (pr_slots p) (pr_work p) (pr_sched p) = Some o) procs outs /\
    forall d, (d < dim)%nat -> total (map (fun o => nth d o 0) outs) = quad_sum F val d (flat_map (fun p => owned_cells (pr_slots p)) procs)).
  { clear Hm. induction procs as [|p procs IH]; [exists []; split; [constructor|reflexivity]|].
    destruct (IH (fun q Hq => Hp q (or_intror Hq))) as (outs & A & B). destruct (Hp p (or_introl eq_refl)) as [S W].
    destruct (T dim (pr_threads p) func val (pr_slots p) (pr_work p) (pr_sched p) Hf W S) as (o & Eo & _ & Vo).
    exists (o :: outs). split; [now constructor|]. intros d Hd. cbn [flat_map]. rewrite quad_sum_app, <- Vo by assumption.
    change (nth d o 0 + total (map (fun o => nth d o 0) outs) = nth d o 0 + quad_sum F val d (flat_map (fun p => owned_cells (pr_slots p)) procs)). now rewrite B. }
  destruct G as (outs & A & B). exists outs. split; [exact A|]. intros res [_ R] d Hd. rewrite (red_sum _ _ (R d Hd)). etransitivity; [exact (B d Hd)|]. now apply quad_sum_perm.
Qed.
Print Assumptions C57_integral.

(** A polynomial on every cell is integrated up to the precision of the table: the exact value is the sum over the
    mesh of the volume times the mean value over the cell *)
Theorem C57_polynomial : forall order, (0 <= order <= 20)%Z -> exists f F, quadrature Tetrahedron order = Some f /\ all_points 3 f = Some F /\
  forall (co : icell -> nat -> nat -> nat -> nat -> R) (val : integrand) d mesh,
    (forall c p x, val c p x d = cartesian (Z.to_nat order) (co c d) (fun k => nth k x 0)) ->
    near (/ 10 ^ 18 * fold_right Rplus 0 (map (fun c => Rabs (ic_vol c) * cartesian_size 4 (Z.to_nat order) (co c d) (ic_node c)) mesh))
      (quad_sum F val d mesh) (fold_right Rplus 0 (map (fun c => ic_vol c * mean Tetrahedron (fun l => cartesian (Z.to_nat order) (co c d) (at_bary (ic_node c) l))) mesh)).
Proof.
  intros order H. destruct (C43_cartesian Tetrahedron order) as (f & F & Ef & EF & T); [cbn; lia|]. exists f, F. split; [exact Ef|]. split; [exact EF|].
  intros co val d mesh Hv. unfold quad_sum, near.
  induction mesh as [|c mesh IH]; [cbn; rewrite Rminus_0_r, Rmult_0_r, Rabs_R0; lra|]. cbn [map fold_right]. specialize (T (ic_node c) (co c d)). cbv zeta in T. unfold near in T. cbn [dim] in T.
  assert (E : qsum F (fun p => val c p (phys c p) d) = qsum F (fun l => cartesian (Z.to_nat order) (co c d) (at_bary (ic_node c) l))).
  { clear -Hv. unfold qsum. induction F as [|[p w] F IH]; [reflexivity|]. cbn [fold_right fst snd]. rewrite IH. f_equal. f_equal. rewrite Hv. reflexivity. }
  rewrite E. set (q := qsum F _) in *. set (m := mean _ _) in *.
  match goal with |- Rabs (ic_vol c * q + ?a - (ic_vol c * m + ?b)) <= _ => replace (ic_vol c * q + a - (ic_vol c * m + b)) with (ic_vol c * (q - m) + (a - b)) by ring end.
  eapply Rle_trans; [apply Rabs_triang|]. rewrite Rabs_mult. rewrite Rmult_plus_distr_l. apply Rplus_le_compat; [|exact IH].
  rewrite (Rmult_comm (/ 10 ^ 18)), Rmult_assoc, (Rmult_comm _ (/ 10 ^ 18)). apply Rmult_le_compat_l; [apply Rabs_pos|exact T].
Qed.
Print Assumptions C57_polynomial.

(** The versions with a function of the point: components of the result on one process *)
Theorem C57_template : forall order, (0 <= order <= 20)%Z -> exists f F, quadrature Tetrahedron order = Some f /\ all_points 3 f = Some F /\
  (forall dim (g : point_func) cells, (forall c x, length (g c x) = dim) -> exists out, integrate_template order dim g cells = Some out /\ length out = dim /\
     forall d, (d < dim)%nat -> nth d out 0 = quad_sum F (fun c _ x d => nth d (g c x) 0) d (filter (fun c => negb (ic_ghost c)) cells)) /\
  (forall g cells, integrate_scalar order g cells = Some (quad_sum F (fun c _ x _ => g c x) 0 (filter (fun c => negb (ic_ghost c)) cells))).
Proof.
  intros order H. destruct (table_points order H) as (f & F & Ef & EF & L & T). exists f, F. split; [exact Ef|]. split; [exact EF|]. split.
  - intros dim g cells Hg. eexists. split; [exact (template_ok f F L T dim g Hg order cells Ef)|]. split; [apply arr_length|]. intros d Hd. now apply nth_arr.
  - intros g cells. unfold integrate_scalar. rewrite (template_ok f F L T 1 (fun c x => [g c x]) (fun _ _ => eq_refl) order cells Ef). reflexivity.
Qed.
Print Assumptions C57_template.

(** A mesh of three cells on two processes, two threads on the first: the integrand is the first coordinate *)
Definition ex_func : user_func := fun _ _ X F0 => Some (arr (length F0) (fun n => nth (3 * n) X 0)).
Definition ex_cell (g : bool) (s : R) : icell := ICell g (fun i k => if (i =? S k)%nat then s else 0) (s * s * s / 6).
Example C57_integral_example : forall q P,
  evaluates 1 q P ex_func (fun _ _ x _ => nth 0 x 0) /\
  valid_sched 4 2 [(2, 0); (0, 1); (3, 0); (1, 1)]%nat /\
  Permutation (flat_map owned_cells [[Some (ex_cell false 1); None; Some (ex_cell true 3); Some (ex_cell false 2)]; [Some (ex_cell true 1); Some (ex_cell false 3)]])
    [ex_cell false 3; ex_cell false 1; ex_cell false 2].
Proof.
  intros q P. split; [|split].
  - intros c X F0 HX HF. exists (arr q (fun n => nth (3 * n) X 0)). unfold ex_func. rewrite HF, Nat.mul_1_l. split; [reflexivity|]. split; [apply arr_length|].
    intros n d Hn Hd. assert (d = 0)%nat as -> by lia. rewrite !Nat.mul_1_l. cbn [Nat.add]. rewrite nth_arr by assumption. cbn [map nth]. f_equal. lia.
  - split; [|intros i t [E|[E|[E|[E|[]]]]]; inversion E; lia]. cbn. apply NoDup_Permutation; [repeat constructor; cbn; lia|repeat constructor; cbn; lia|]. intros x. cbn. lia.
  - cbn. apply perm_trans with [ex_cell false 1; ex_cell false 3; ex_cell false 2]; [apply perm_skip; apply perm_swap|apply perm_swap].
Qed.

(** ** Points at which a stored variable is evaluated.  Full statement: for every cell, inside of an integrand the
    variable is evaluated at the same point that is passed as X.  Missing: cells whose nodes are stored in
    the negative order *)
Theorem C57_evaluation_partial : forall c p k, length p = 4%nat -> (k < 3)%nat -> 0 <= tet_det (ic_node c 0%nat) (ic_node c 1%nat) (ic_node c 2%nat) (ic_node c 3%nat) ->
  eval_point c p k = nth k (phys c p) 0.
Proof.
  intros c p k L Hk H. unfold eval_point, eval_nodes, reorder_nodes. destruct (Rlt_dec _ 0) as [N|_]; [lra|]. unfold phys.
  destruct k as [|[|[|k]]]; try lia; cbn [map nth]; rewrite at_bary4 by assumption; ring.
Qed.
Print Assumptions C57_evaluation_partial.
Theorem C57_evaluation_refuted : forall c p, length p = 4%nat -> tet_det (ic_node c 0%nat) (ic_node c 1%nat) (ic_node c 2%nat) (ic_node c 3%nat) < 0 ->
  nth 2 p 0 <> nth 3 p 0 -> exists k, (k < 3)%nat /\ eval_point c p k <> nth k (phys c p) 0.
Proof.
  intros c p L H Hp.
  assert (D : forall k, (k < 3)%nat -> eval_point c p k - nth k (phys c p) 0 = (nth 2 p 0 - nth 3 p 0) * (ic_node c 3%nat k - ic_node c 2%nat k)).
  { intros k Hk. unfold eval_point, eval_nodes, reorder_nodes. destruct (Rlt_dec _ 0) as [_|N]; [|lra]. unfold phys.
    destruct k as [|[|[|k]]]; try lia; cbn [map nth]; rewrite at_bary4 by assumption; ring. }
  assert (E : ic_node c 2%nat 0%nat <> ic_node c 3%nat 0%nat \/ ic_node c 2%nat 1%nat <> ic_node c 3%nat 1%nat \/ ic_node c 2%nat 2%nat <> ic_node c 3%nat 2%nat).
  { destruct (Req_dec (ic_node c 2%nat 0%nat) (ic_node c 3%nat 0%nat)) as [A|A]; [|auto]. destruct (Req_dec (ic_node c 2%nat 1%nat) (ic_node c 3%nat 1%nat)) as [B|B]; [|auto].
    destruct (Req_dec (ic_node c 2%nat 2%nat) (ic_node c 3%nat 2%nat)) as [C|C]; [|auto]. exfalso. rewrite det_equal in H; [lra|]. intros [|[|[|j]]] Hj; trivial. lia. }
  assert (G : forall k, (k < 3)%nat -> ic_node c 2%nat k <> ic_node c 3%nat k -> eval_point c p k <> nth k (phys c p) 0).
  { intros k Hk N Q. specialize (D k Hk). rewrite Q in D. apply N. assert (Z : (nth 2 p 0 - nth 3 p 0) * (ic_node c 3%nat k - ic_node c 2%nat k) = 0) by lra.
    apply Rmult_integral in Z. lra. }
  destruct E as [E|[E|E]]; [exists 0%nat|exists 1%nat|exists 2%nat]; (split; [lia|]); apply G; trivial; lia.
Qed.
Print Assumptions C57_evaluation_refuted.
(** The two orientations of the reference tetrahedron *)
Example C57_evaluation_example :
  0 < tet_det (fun k => if (k =? 0)%nat then 1 else 0) (fun k => if (k =? 1)%nat then 1 else 0) (fun k => if (k =? 2)%nat then 1 else 0) (fun _ => 0) /\
  tet_det (fun k => if (k =? 1)%nat then 1 else 0) (fun k => if (k =? 0)%nat then 1 else 0) (fun k => if (k =? 2)%nat then 1 else 0) (fun _ => 0) < 0.
Proof. unfold tet_det. cbn. lra. Qed.

(** ** The printed number of iterations *)
Open Scope nat_scope.
(** Below one thousand: three columns, right aligned, decimal.  Missing: other numbers *)
Theorem C57_status_partial : forall its, its < 1000 -> exists ds, status_its its = Some (repeat Blank (3 - length ds) ++ map Digit ds ++ [Blank]) /\
  value ds = its /\ 1 <= length ds <= 3 /\ forall d, In d ds -> d < 10.
Proof.
  intros its H. exists (digits its). destruct (digits_value its its (le_n _)) as [V B].
  assert (L : length (digits its) <= 3) by (apply (digits_length 2 its its (le_n _)); cbn; lia).
  assert (L1 : 1 <= length (digits its)) by (unfold digits; rewrite digits_step by lia; destruct (its <? 10); [cbn; lia|rewrite app_length; cbn; lia]).
  split; [unfold status_its; now apply status_short|]. split; [exact V|]. split; [lia|exact B].
Qed.
Print Assumptions C57_status_partial.
(** From one thousand on the digits are written before the beginning of the string *)
Theorem C57_status_refuted : forall its, 1000 <= its -> status_its its = None.
Proof.
  intros its H. unfold status_its. apply status_long. destruct (Nat.le_gt_cases 4 (length (digits its))); [assumption|]. exfalso.
  assert (L : length (digits its) <= 3) by lia. apply (digits_length 2 its its (le_n _)) in L. cbn in L. lia.
Qed.
Print Assumptions C57_status_refuted.
Example C57_status_example : status_its 42 = Some [Blank; Digit 4; Digit 2; Blank].
Proof. reflexivity. Qed.
