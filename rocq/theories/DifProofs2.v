(** The local matrices and right-hand sides *)
From Coq Require Import Reals Permutation Lra.
From Verif Require SparsityModel SparsitySpec SparsityProofs IterProofs2.
From Verif Require Import Prelude DofModel DofSpec DofProofs RSum CoreModel CoreSpec CoreProps DirModel DirSpec DirProofs AsmModel AsmSpec UtModel UtProofs UtProofs2 DifModel DifSpec DifProofs.
Open Scope R_scope.

Lemma store_by_rd : forall n c (g : nat -> nat -> R) A, (0 < n)%nat -> length A = (n * c)%nat ->
  (forall i j, (i < n)%nat -> (j < c)%nat -> rd A (i + n * j) = Some (g i j)) -> A = store n c g.
Proof.
  intros n c g A Hn HL H. rewrite (list_store 0 n c A Hn HL). apply store_ext. intros i j Hi Hj. apply nth_error_nth. exact (H i j Hi Hj).
Qed.
Lemma store_col : forall n (g : nat -> nat -> R), store n 1 g = arr n (fun i => g i 0%nat).
Proof.
  intros n g. unfold store. rewrite Nat.mul_1_r. apply arr_ext. intros i Hi. now rewrite Nat.mod_small, Nat.div_small by assumption.
Qed.

Lemma integrate_ok : forall F dimA dimB nfA nfB U V u v T k A, (0 < dimA)%nat -> (0 < dimB)%nat -> (0 < nfB)%nat ->
  (0 < t_q T)%nat -> (t_q T <= length (t_w T))%nat -> (3 * t_q T <= length (t_X T))%nat ->
  band_of U dimA nfA (t_q T) 1 u -> band_of V dimB nfB (t_q T) 1 v ->
  (forall p, (p < t_q T)%nat -> tensor_ok dimB dimA nfA (F (quad_point T p) 0%nat)) ->
  work_ok dimA dimB nfA nfB (t_q T) k -> length A = (nfB * nfA)%nat ->
  integrate F dimA dimB nfA nfB U V T k A = Some (store nfB nfA (fun ib ia => Rsum (t_q T) (fun p => quad_weight T p *
    Rsum dimB (fun c => Rsum dimA (fun j => tmat (F (quad_point T p) 0%nat) dimB dimA c j * u 0%nat p j ia) * v 0%nat p c ib)))).
Proof.
  intros F dimA dimB nfA nfB U V u v T k A HA HB Hn Hq Lw LX HU HV HT (W1 & W2 & W3) LA. unfold integrate.
  destruct (C32_form_partial F false PerPoint false (t_q T) 1 dimA dimB nfA nfB U V u v (t_w T) [t_mes T] (t_X T) (repeat 0 3) (w_diff k) (w_ex k) (w_du k) A) as (A' & E & L & H & _);
    rewrite ?Nat.mul_1_r; trivial; try (cbn; lia).
  - split; [discriminate|exact I].
  - discriminate.
  - intros r n Hr Hp. assert (r = 0)%nat by lia. subst r. rewrite ?Nat.mul_1_r. exact (HT n Hp).
  - rewrite E. f_equal. apply store_by_rd; [exact Hn|lia|]. intros i j Hi Hj.
    replace (i + nfB * j)%nat with (i + nfB * (j + nfA * 0))%nat by (rewrite Nat.mul_0_r; lia).
    rewrite (H 0%nat j i) by (assumption || lia). f_equal. unfold form. apply Rsum_ext. intros p Hp. rewrite Nat.mul_1_r. reflexivity.
Qed.
Lemma vec_tensor_ok : forall id f T p, (0 < id)%nat -> (length (f (quad_point T p)) = id)%nat -> tensor_ok id 1 1 (vec_tensor id f (quad_point T p) 0%nat).
Proof.
  intros id f T p Hi HL. unfold vec_tensor. destruct (Nat.eqb_spec id 1) as [-> |]; cbn [tensor_ok]; [now left|]. rewrite HL. lia.
Qed.
Lemma vec_tensor_val : forall id f X c, (c < id)%nat -> tmat (vec_tensor id f X 0%nat) id 1 c 0 = nth c (f X) 0.
Proof.
  intros id f X c Hc. unfold vec_tensor. destruct (Nat.eqb_spec id 1) as [-> |]; cbn [tmat].
  - assert (c = 0)%nat by lia. subst c. unfold unit_entry. cbn. ring.
  - f_equal. lia.
Qed.
Lemma integrate_vec : forall id n f T val k A, (0 < id)%nat -> (0 < n)%nat -> points_ok T -> values_ok id n T val -> field_ok id f T -> work_ok 1 id 1 n (t_q T) k -> length A = n ->
  integrate (vec_tensor id f) 1 id 1 n (t_one T) (t_iden T) T k A = Some (arr n (source id f T val)).
Proof.
  intros id n f T val k A Hi Hn (Hq & Lw & LX & HO) HV Hf W LA.
  rewrite (integrate_ok _ 1 id 1 n _ _ (fun _ _ _ _ => 1) (fun _ => val)); trivial; try lia.
  - rewrite store_col. f_equal. apply arr_ext. intros i Hin. unfold source. apply Rsum_ext. intros p Hp. f_equal. apply Rsum_ext. intros c Hc.
    rewrite Rsum_S. cbn [Rsum]. rewrite vec_tensor_val by exact Hc. ring.
  - intros p Hp. apply vec_tensor_ok; [exact Hi|exact (Hf p Hp)].
Qed.
Lemma set_zero_ok : forall n A, length A = n -> exists A', set_zero n A = Some A' /\ length A' = n.
Proof.
  intros n A HL. unfold set_zero. destruct (for_inv (fun _ (s : list R) => length s = n) n (fun i A => wr A i 0) A) as (s & E & H); trivial; [|eauto].
  intros i s Hi Hs. destruct (wr_some s i 0) as (s' & E & L & _); [lia|]. exists s'. split; [exact E|]. congruence.
Qed.
Lemma add_to_ok : forall n F G, add_to n (arr n F) (arr n G) = Some (arr n (fun i => F i + G i)).
Proof.
  intros n F G. unfold add_to. apply add_loop. intros d g' Hd. rewrite !rd_arr by exact Hd. reflexivity.
Qed.

(** *** Several Dirichlet values *)
Lemma lsum_Rsum_keys : forall n (l : list (nat * R)) (g : nat -> R), NoDup (map fst l) -> (forall k, In k (map fst l) -> (k < n)%nat) ->
  DirProofs.lsum l g = Rsum n (fun j => if memb j l then g j * valueof j l else 0).
Proof.
  intros n l g. induction l as [|[k b] l IH]; intros Hn Hk; cbn [map fst] in *.
  - symmetry. apply Rsum_zero. reflexivity.
  - apply NoDup_cons_iff in Hn. destruct Hn as [Ha Hn]. cbn [DirProofs.lsum fold_right fst snd]. fold (DirProofs.lsum l g). rewrite IH by (trivial; intros; apply Hk; now right).
    rewrite (Rsum_remove n k (fun j => if memb j ((k, b) :: l) then _ else _)) by (apply Hk; now left). f_equal.
    + cbn [memb existsb fst valueof fold_right snd]. rewrite Nat.eqb_refl. reflexivity.
    + apply Rsum_ext. intros j Hj. destruct (Nat.eqb_spec j k) as [-> |Hne].
      * rewrite (proj2 (memb_false k l) Ha). reflexivity.
      * cbn [memb existsb fst valueof fold_right snd]. destruct (Nat.eqb_spec k j); [congruence|]. reflexivity.
Qed.
Definition keyed (u0 : LocalOrder -> R) (L : list LocalOrder) : list (nat * R) := map (fun lo => (lo_gid lo, u0 lo)) L.
Lemma keyed_fst : forall u0 L, map fst (keyed u0 L) = map lo_gid L.
Proof. intros. unfold keyed. rewrite map_map. reflexivity. Qed.
Lemma dir_values_ok : forall n u0 L b, NoDup (map lo_gid L) -> (forall lo, In lo L -> (lo_gid lo < n)%nat) ->
  exists v, dir_values u0 L (arr n b) = Some (arr n v) /\ (forall lo, In lo L -> v (lo_gid lo) = u0 lo) /\ (forall i, ~ In i (map lo_gid L) -> v i = b i).
Proof.
  intros n u0 L. induction L as [|lo L IH]; intros b Hn Hk; cbn [dir_values map] in *.
  - exists b. split; [reflexivity|]. split; [intros lo []|reflexivity].
  - apply NoDup_cons_iff in Hn. destruct Hn as [Ha Hn]. rewrite wr_arr by (apply Hk; now left). cbn [obind].
    destruct (IH (RSum.upd b (lo_gid lo) (u0 lo)) Hn (fun x Hx => Hk x (or_intror Hx))) as (v & E & H1 & H2). exists v. split; [exact E|]. split.
    + intros x [<-|Hx]; [|now apply H1]. rewrite H2 by exact Ha. unfold RSum.upd. now rewrite Nat.eqb_refl.
    + intros i Hi. rewrite H2 by (intros C; apply Hi; now right). unfold RSum.upd. destruct (Nat.eqb_spec i (lo_gid lo)) as [-> |]; [|reflexivity]. exfalso. apply Hi. now left.
Qed.
Lemma dir_by_dofs_all : forall n L v u0 s, (forall lo, In lo L -> (lo_gid lo < n)%nat) -> (forall lo, In lo L -> v (lo_gid lo) = u0 lo) ->
  dir_by_dofs n L (arr n v) s = dir_all n n (keyed u0 L) s.
Proof.
  intros n L v u0. induction L as [|lo L IH]; intros s Hk Hv; cbn [dir_by_dofs keyed map dir_all]; [reflexivity|].
  rewrite rd_arr by (apply Hk; now left). cbn [obind]. rewrite (Hv lo) by now left. destruct (apply_dir n n (fst s) (snd s) (lo_gid lo) (u0 lo)); [|reflexivity]. cbn [obind].
  apply IH; intros x Hx; [apply Hk|apply Hv]; now right.
Qed.

Section Local.
Variables (d : dmap) (gd id : nat) (m : mcell).
Let n := num_dof_tet d.
Let c := m_c m.
Hypothesis (Hw : wf d) (Hgd : (0 < gd)%nat) (Hid : (0 < id)%nat) (Hn : (0 < n)%nat).
Hypothesis Hsz : length (g_A c) = (n * n)%nat /\ length (g_F c) = n.

(** the load the code computes: the Neumann faces count only if the space has dofs on faces *)
Definition code_load (i : nat) : R :=
  source id (g_f c) (g_T c) (m_val m) i + Rsum 4 (fun k => if elem_mask d 2 && neumann c k then source id (g_g c k) (g_Tf c k) (m_face m k) i else 0).

Lemma neumann_loop : forall (b : nat -> bool) F0 G0,
  (forall k, (k < 4)%nat -> b k = true -> points_ok (g_Tf c k) /\ values_ok id n (g_Tf c k) (m_face m k) /\ field_ok id (g_g c k) (g_Tf c k) /\ work_ok 1 id 1 n (t_q (g_Tf c k)) (g_ws c (2 + k)%nat)) ->
  exists G, for_ 4 (fun k FG => if b k
      then do G <- integrate (vec_tensor id (g_g c k)) 1 id 1 n (t_one (g_Tf c k)) (t_iden (g_Tf c k)) (g_Tf c k) (g_ws c (2 + k)) (snd FG);
           do F <- add_to n (fst FG) G; Some (F, G)
      else Some FG) (arr n F0, arr n G0)
    = Some (arr n (fun i => F0 i + Rsum 4 (fun k => if b k then source id (g_g c k) (g_Tf c k) (m_face m k) i else 0)), arr n G).
Proof.
  intros b F0 G0 H.
  destruct (for_inv (fun j s => exists G, s = (arr n (fun i => F0 i + Rsum j (fun k => if b k then source id (g_g c k) (g_Tf c k) (m_face m k) i else 0)), arr n G)) 4
    (fun k FG => if b k
      then do G <- integrate (vec_tensor id (g_g c k)) 1 id 1 n (t_one (g_Tf c k)) (t_iden (g_Tf c k)) (g_Tf c k) (g_ws c (2 + k)) (snd FG);
           do F <- add_to n (fst FG) G; Some (F, G)
      else Some FG) (arr n F0, arr n G0)) as (s & E & G & ->).
  - exists G0. f_equal. apply arr_ext. intros. cbn. ring.
  - intros k s Hk (G & ->). cbn [fst snd]. destruct (b k) eqn:Eb.
    + destruct (H k Hk Eb) as (P1 & P2 & P3 & P4). rewrite (integrate_vec id n _ _ (m_face m k)) by (trivial; apply arr_length). cbn [obind]. rewrite add_to_ok. cbn [obind].
      eexists. split; [reflexivity|]. eexists. f_equal. apply arr_ext. intros i Hi. rewrite Rsum_S, Eb. ring.
    + eexists. split; [reflexivity|]. exists G. f_equal. apply arr_ext. intros i Hi. rewrite Rsum_S, Eb. ring.
  - exists G. exact E.
Qed.

Lemma sel_dirichlet : forall lo, local_order d (lo_gid lo) = Some lo ->
  (SparsitySpec.sel (fst (gather d (g_isd c) (g_bnd c))) (geom_dim (lo_type lo)) (lo_elem lo) <-> on_dirichlet d (g_isd c) (lo_gid lo) = true).
Proof.
  intros lo H. destruct (local_mask d _ lo Hw H) as (M & E & _). rewrite SparsityProofs.sel_tst by exact E.
  destruct (gather_ok d (g_isd c) (g_bnd c)) as (_ & G & _). rewrite G, M by exact E. unfold on_dirichlet. rewrite H. reflexivity.
Qed.

Lemma eliminate_ok : forall a f G, iteration_ok d c -> 
  (if SparsityModel.is_empty (fst (gather d (g_isd c) (g_bnd c))) then Some (store n n a, arr n f)
   else do L <- SparsityModel.sp_iterate false d (fst (gather d (g_isd c) (g_bnd c)));
        do V <- dir_values (g_u0 c) L (arr n G); dir_by_dofs n L V (store n n a, arr n f))
  = Some (store n n (eliminated (on_dirichlet d (g_isd c)) a), arr n (eliminated_load n (on_dirichlet d (g_isd c)) (dir_value d (g_u0 c)) a f)).
Proof.
  intros a f G Hit. set (P := on_dirichlet d (g_isd c)). destruct (gather_ok d (g_isd c) (g_bnd c)) as (Rg & Tg & _). set (s := fst (gather d (g_isd c) (g_bnd c))) in *.
  destruct (SparsityModel.is_empty s) eqn:Es.
  - assert (N : forall i, P i = false).
    { intros i. destruct (P i) eqn:Ep; [|reflexivity]. exfalso. unfold P, on_dirichlet in Ep. destruct (local_order d i) as [lo|] eqn:El; [|discriminate].
      destruct (local_mask d _ lo Hw El) as (M & E & Eg & _). rewrite SparsityProofs.is_empty_iff in Es by exact Rg. apply (Es _ _ E). rewrite SparsityProofs.sel_tst by exact E. rewrite Tg, M by exact E. exact Ep. }
    do 2 f_equal; [apply store_ext; intros i j _ _; unfold eliminated; now rewrite !N|]. apply arr_ext. intros i _. unfold eliminated_load. rewrite N. rewrite Rsum_zero; [ring|]. intros j _. now rewrite N.
  - destruct (IterProofs2.iterate_exact d s Hw Rg Hit) as (L & -> & NL & HL). cbn [obind].
    assert (Hin : forall lo, In lo L <-> local_order d (lo_gid lo) = Some lo /\ P (lo_gid lo) = true).
    { intros lo. rewrite HL. unfold SparsitySpec.sel_dof, SparsitySpec.on_sel. split; intros [A B]; (split; [exact A|]); apply (sel_dirichlet lo A); exact B. }
    assert (Hlt : forall lo, In lo L -> (lo_gid lo < n)%nat) by (intros lo Hlo; apply Hin in Hlo; destruct (local_mask d _ lo Hw (proj1 Hlo)) as (_ & _ & _ & Q); exact Q).
    assert (Nk : NoDup (map lo_gid L)).
    { clear -NL Hin. assert (Q : forall x y, In x L -> In y L -> lo_gid x = lo_gid y -> x = y). { intros x y Hx Hy E. apply Hin in Hx, Hy. destruct Hx as [Hx _], Hy as [Hy _]. rewrite E in Hx. congruence. }
      clear Hin. induction L as [|x L IH]; cbn; constructor.
      - apply NoDup_cons_iff in NL. intros C. apply in_map_iff in C. destruct C as (y & E & Hy). apply (proj1 NL). rewrite (Q x y); [exact Hy|now left|now right|congruence].
      - apply NoDup_cons_iff in NL. apply IH; [apply NL|]. intros; apply Q; trivial; now right. }
    destruct (dir_values_ok n (g_u0 c) L G Nk Hlt) as (v & -> & Hv & _). cbn [obind]. rewrite (dir_by_dofs_all n L v (g_u0 c)) by assumption.
    set (l := keyed (g_u0 c) L). assert (Nl : NoDup (map fst l)) by (unfold l; now rewrite keyed_fst).
    assert (Kl : forall k, In k (map fst l) -> (k < n)%nat). { intros k Hk. unfold l in Hk. rewrite keyed_fst in Hk. apply in_map_iff in Hk. destruct Hk as (lo & <- & Hlo). now apply Hlt. }
    assert (Mb : forall i, (i < n)%nat -> memb i l = P i).
    { intros i Hi. destruct (P i) eqn:Ep.
      - apply memb_In. unfold l. rewrite keyed_fst. apply in_map_iff. pose proof Ep as Ep'. unfold P, on_dirichlet in Ep. destruct (local_order d i) as [lo|] eqn:El; [|discriminate].
        destruct (local_mask d _ lo Hw El) as (_ & _ & Eg & _). exists lo. split; [exact Eg|]. apply Hin. rewrite Eg. auto.
      - apply memb_false. intros C. unfold l in C. rewrite keyed_fst in C. apply in_map_iff in C. destruct C as (lo & E & Hlo). apply Hin in Hlo. rewrite E in Hlo. destruct Hlo. congruence. }
    assert (Vl : forall i, (i < n)%nat -> P i = true -> valueof i l = dir_value d (g_u0 c) i).
    { intros i Hi Ep. rewrite <- Mb in Ep by exact Hi. apply memb_In in Ep. unfold l in Ep. rewrite keyed_fst in Ep. apply in_map_iff in Ep. destruct Ep as (lo & E & Hlo).
      assert (In (i, g_u0 c lo) l) by (unfold l, keyed; apply in_map_iff; exists lo; now rewrite E).
      rewrite (valueof_In l i (g_u0 c lo)) by assumption. apply Hin in Hlo. unfold dir_value. rewrite <- E, (proj1 Hlo). reflexivity. }
    rewrite dir_all_ok by (trivial; intros; split; now apply Kl). do 2 f_equal.
    + apply store_ext. intros i j Hi Hj. unfold all_a, eliminated. rewrite !Mb by assumption. reflexivity.
    + apply arr_ext. intros i Hi. unfold all_f, eliminated_load. rewrite Mb by assumption. destruct (P i) eqn:Ep; [now apply Vl|]. f_equal.
      rewrite (lsum_Rsum_keys n) by assumption. apply Rsum_ext. intros j Hj. rewrite Mb by exact Hj. destruct (P j) eqn:Ej; [|reflexivity]. now rewrite Vl.
Qed.

Lemma diffusion_local_ok : diffusion_ok d gd id m -> iteration_ok d c ->
  diffusion_local d gd id (g_K c) (g_f c) (g_g c) (g_u0 c) (g_T c) (g_Tf c) (g_ws c) (g_buf c) (gather d (g_isd c) (g_bnd c)) (g_A c) (g_F c)
  = Some (store n n (eliminated (on_dirichlet d (g_isd c)) (cell_matrix gd m)),
          arr n (eliminated_load n (on_dirichlet d (g_isd c)) (dir_value d (g_u0 c)) (cell_matrix gd m) code_load)).
Proof.
  intros ((HP & HV & HG & Hf) & HK & HN & W0 & W1 & HB) Hit. fold c n in HP, HV, HG, Hf, HK, HN, W0, W1, HB. destruct Hsz as [LA LF]. unfold diffusion_local. fold n.
  destruct (set_zero_ok (n * n) (g_A c) LA) as (A0 & -> & LA0). destruct (set_zero_ok n (g_F c) LF) as (F0 & -> & LF0). cbn [obind].
  pose proof HP as (Hq & Lw & LX & HO).
  rewrite (integrate_ok _ gd gd n n _ _ (fun _ => m_grad m) (fun _ => m_grad m)) by (trivial; lia). cbn [obind].
  rewrite (integrate_vec id n _ _ (m_val m)) by assumption. cbn [obind].
  rewrite (list_arr 0 (g_buf c)). rewrite HB.
  destruct (neumann_loop (fun k => N.testbit (snd (gather d (g_isd c) (g_bnd c))) (N.of_nat k)) (source id (g_f c) (g_T c) (m_val m)) (fun i => nth i (g_buf c) 0)) as (G & EG).
  { intros k Hk Hb. destruct (gather_ok d (g_isd c) (g_bnd c)) as (_ & _ & Ng). rewrite Ng in Hb by exact Hk. apply andb_prop in Hb. apply HN; [exact Hk|exact (proj2 Hb)]. }
  cbn [plus] in EG |- *. rewrite EG. cbn [obind fst snd]. fold (cell_matrix gd m).
  rewrite (arr_ext n (fun i => source id (g_f c) (g_T c) (m_val m) i + _) code_load).
  - exact (eliminate_ok (cell_matrix gd m) code_load G Hit).
  - intros i Hi. unfold code_load. f_equal. apply Rsum_ext. intros k Hk. destruct (gather_ok d (g_isd c) (g_bnd c)) as (_ & _ & Ng). rewrite Ng by exact Hk. reflexivity.
Qed.

Lemma project_local_ok : project_ok d id m ->
  project_local d id (g_f c) (g_T c) (g_ws c) (g_A c) (g_F c) = Some (store n n (mass id (g_T c) (m_val m)), arr n (source id (g_f c) (g_T c) (m_val m))).
Proof.
  intros ((Hq & Lw & LX & HO) & HV & Hf & (W1 & W2 & W3) & (V1 & V2 & V3) & V4). fold c n in Hq, Lw, LX, HO, HV, Hf, W1, W2, W3, V1, V2, V3, V4. destruct Hsz as [LA LF]. unfold project_local. fold n.
  destruct (set_zero_ok (n * n) (g_A c) LA) as (A0 & -> & LA0). destruct (set_zero_ok n (g_F c) LF) as (F0 & -> & LF0). cbn [obind].
  set (T := g_T c) in *.
  destruct (C32_form_partial (fun _ _ => TNull) true (Fixed KNull) false (t_q T) 1 id id n n (t_iden T) (t_iden T) (fun _ => m_val m) (fun _ => m_val m) (t_w T) [t_mes T] (t_X T) (repeat 0 3)
      (w_diff (g_ws c 0%nat)) (w_ex (g_ws c 0%nat)) (w_du (g_ws c 0%nat)) A0) as (A' & -> & LA' & HA & _); rewrite ?Nat.mul_1_r; trivial; try (cbn; lia).
  { split; [reflexivity|]. reflexivity. }
  cbn [obind].
  destruct (C32_form_fusive KFull false (fun r i => g_f c (nth (3 * (i + r * t_q T)) (t_X T) 0, nth (3 * (i + r * t_q T) + 1) (t_X T) 0, nth (3 * (i + r * t_q T) + 2) (t_X T) 0))
      false false (t_q T) 1 1 id 1 n (t_one T) (t_iden T) (fun _ _ _ _ => 1) (fun _ => m_val m) (t_w T) [t_mes T] (repeat 0 3) (w_diff (g_ws c 1%nat)) (w_loc (g_ws c 1%nat)) (w_ex (g_ws c 1%nat)) (w_du (g_ws c 1%nat)) F0
      (fun r i => TGen (g_f c (xyz (t_q T) (t_X T) r i)))) as (F' & -> & LF' & HF & _); rewrite ?Nat.mul_1_r; trivial; try (cbn; lia).
  { intros r p Hr Hp. assert (r = 0)%nat by lia. subst r. split; [pose proof (Hf p Hp) as HL; unfold quad_point in HL; cbn [tensor_ok]; rewrite HL; lia|]. split; [reflexivity|]. split; reflexivity. }
  cbn [obind]. do 2 f_equal.
  - apply store_by_rd; [exact Hn|lia|]. intros i j Hi Hj. specialize (HA 0%nat j i ltac:(lia) Hj Hi). rewrite Nat.mul_0_r, Nat.add_0_r in HA. rewrite HA. f_equal.
    unfold form, mass. apply Rsum_ext. intros p Hp. f_equal. apply Rsum_ext. intros k Hk. f_equal. unfold flux. cbn [tmat]. rewrite Nat.mul_1_r. unfold unit_entry. rewrite Nat.eqb_refl.
    rewrite (Rsum_single id k); [rewrite Nat.eqb_refl; ring|exact Hk|]. intros l Hl Hne. destruct (Nat.eqb_spec k l); [congruence|ring].
  - rewrite <- store_col with (g := fun i _ => source id (g_f c) T (m_val m) i). apply store_by_rd; [exact Hn|lia|]. intros i j Hi Hj. specialize (HF 0%nat 0%nat i ltac:(lia) ltac:(lia) Hi).
    replace (i + n * j)%nat with (i + n * (0 + 1 * 0))%nat by lia. rewrite HF. f_equal. unfold form, source. apply Rsum_ext. intros p Hp. f_equal. apply Rsum_ext. intros k Hk. f_equal.
    unfold flux. rewrite Rsum_S. cbn [Rsum tmat]. rewrite Nat.mul_0_r, Nat.add_0_r. unfold quad_point. ring.
Qed.
End Local.
