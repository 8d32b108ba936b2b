From Coq Require Import NArith FinFun.
From Verif Require Import Prelude DofModel DofSpec DofProofs DofProofs2 SparsityModel SparsitySpec SparsityProofs IterProofs.

Lemma local_order_valid : forall d g lo, wf d -> local_order d g = Some lo ->
  lo_gid lo = g /\ g < num_dof_tet d /\ lo_type lo < 6 /\ lo_elem lo < tet_elems (lo_type lo) /\ lo_leid lo < num_dof d (lo_type lo).
Proof.
  intros d g lo Hwf E. rewrite local_order_layout in E by assumption.
  destruct (nth_error (layout d) g) as [x|] eqn:Ex; [|discriminate]. apply some_inj in E. subst lo.
  assert (g < length (layout d)) by (apply nth_error_Some; congruence).
  rewrite length_layout_num by assumption. apply nth_error_In, (in_map locus), in_loci in Ex. destruct Ex as (H1 & H2 & H3).
  cbn [lo_of lo_gid lo_type lo_elem lo_leid]. rewrite num_dof_cnt by assumption. auto.
Qed.
Lemma local_order_valid_lo : forall d lo, wf d -> local_order d (lo_gid lo) = Some lo -> valid_lo d lo = true.
Proof.
  intros d lo Hwf E. destruct (local_order_valid d _ lo Hwf E) as (_ & H1 & H2 & H3 & H4).
  unfold valid_lo, valid_locus, ngeom. rewrite !andb_true_iff, !Nat.ltb_lt. auto.
Qed.
Lemma local_order_inj_loc : forall d a b, wf d -> local_order d (lo_gid a) = Some a -> local_order d (lo_gid b) = Some b ->
  lo_gid a = lo_gid b -> a = b.
Proof. intros d a b _ E1 E2 E. rewrite E in E1. congruence. Qed.
Lemma visit_length : forall d s L, wf d -> exact_visit d s L -> length L <= num_dof_tet d.
Proof.
  intros d s L Hwf [Hnd Hin].
  assert (G : NoDup (map lo_gid L)).
  { clear -Hnd Hin Hwf. assert (H : forall lo, In lo L -> local_order d (lo_gid lo) = Some lo) by (intros lo Hl; apply Hin in Hl; apply Hl).
    clear Hin. induction Hnd as [|x L Hx Hnd IH]; cbn; [constructor|]. constructor.
    - intros Hc. apply in_map_iff in Hc. destruct Hc as (y & E & Hy). apply Hx.
      replace x with y; [assumption|]. apply (local_order_inj_loc d); auto; apply H; [now right|now left].
    - apply IH. intros lo Hl. apply H. now right. }
  rewrite <- (map_length lo_gid). rewrite <- (seq_length (num_dof_tet d) 0) at 1.
  rewrite seq_length. rewrite <- (seq_length (num_dof_tet d) 0). apply NoDup_incl_length; [assumption|].
  intros g Hg. apply in_map_iff in Hg. destruct Hg as (lo & <- & Hl). apply Hin in Hl. destruct Hl as [E _].
  apply local_order_valid in E; [|assumption]. apply in_seq. lia.
Qed.

(** *** Repetition *)
Section vector.
Context (k : nat) (b : dmap) (s : sparsity) (Hwf : wf b).
Let nOdf := num_dof_tet b.
Definition vshift (c : nat) := shift_lo (c * num_dof_tet b) (fun t => c * num_dof b t).
Definition vec_list (L : list LocalOrder) : list LocalOrder := concat (map (fun c => map (vshift c) L) (seq 0 k)).
Lemma wfV : wf (Vector k b).
Proof. exact Hwf. Qed.
Lemma div_add : forall a c n, a < n -> (a + c * n) / n = c /\ (a + c * n) mod n = a.
Proof.
  intros a c n H. split.
  - symmetry. apply (Nat.div_unique _ n c a); lia.
  - symmetry. apply (Nat.mod_unique _ n c a); lia.
Qed.
Lemma local_vshift : forall c lo, c < k -> local_order b (lo_gid lo) = Some lo ->
  local_order (Vector k b) (lo_gid (vshift c lo)) = Some (vshift c lo).
Proof.
  intros c lo Hc E. pose proof (local_order_valid b _ lo Hwf E) as (_ & H1 & _).
  assert (G : lo_gid lo + c * num_dof_tet b < k * num_dof_tet b) by nia.
  unfold vshift, shift_lo. cbn [lo_gid local_order num_dof_tet].
  rewrite guard_true by (apply Nat.ltb_lt; exact G). rewrite guard_true by (apply Nat.ltb_lt; lia).
  destruct (div_add (lo_gid lo) c (num_dof_tet b) H1) as [-> ->]. rewrite E. reflexivity.
Qed.
Lemma vshift_back : forall c lo, local_order (Vector k b) (lo_gid lo) = Some lo -> c = lo_gid lo / num_dof_tet b ->
  exists y, c < k /\ local_order b (lo_gid y) = Some y /\ lo = vshift c y.
Proof.
  intros c lo E Ec. pose proof (local_order_valid (Vector k b) _ lo Hwf E) as (_ & H1 & _). cbn [num_dof_tet] in H1.
  cbn [local_order] in E. cbn [num_dof_tet] in E. rewrite guard_true in E by (now apply Nat.ltb_lt).
  destruct (Nat.eq_dec (num_dof_tet b) 0) as [E0|E0]; [rewrite E0 in H1; lia|].
  rewrite guard_true in E by (apply Nat.ltb_lt; lia).
  destruct (local_order b (lo_gid lo mod num_dof_tet b)) as [y|] eqn:Ey; [|discriminate]. cbn [obind] in E.
  pose proof (local_order_valid b _ y Hwf Ey) as (Hg & _). exists y. split; [|split].
  - subst c. apply Nat.div_lt_upper_bound; lia.
  - now rewrite Hg.
  - apply some_inj in E. rewrite <- E at 1. unfold vshift, shift_lo. rewrite Hg. subst c.
    pose proof (Nat.div_mod (lo_gid lo) (num_dof_tet b) E0). f_equal. lia.
Qed.
Lemma vec_exact : forall L, exact_visit b s L -> exact_visit (Vector k b) s (vec_list L).
Proof.
  intros L [Hnd Hin]. assert (HL : forall lo, In lo L -> local_order b (lo_gid lo) = Some lo) by (intros lo Hl; apply Hin in Hl; apply Hl).
  split.
  - unfold vec_list. rewrite <- flat_map_concat_map. apply NoDup_flat_map; [apply seq_NoDup|..].
    + intros c _. apply FinFun.Injective_map_NoDup; [|assumption]. intros [g1 t1 e1 p1 s1] [g2 t2 e2 p2 s2] E.
      unfold vshift, shift_lo in E. cbn [lo_gid lo_type lo_elem lo_leid lo_sym] in E. injection E as A1 A2 A3 A4 A5. subst. f_equal; lia.
    + intros c c' lo _ _ H1 H2. apply in_map_iff in H1, H2. destruct H1 as (x & <- & Hx), H2 as (y & E & Hy).
      apply HL in Hx, Hy. apply local_order_valid in Hx, Hy; try assumption.
      apply (f_equal lo_gid) in E. unfold vshift, shift_lo in E. cbn [lo_gid] in E.
      destruct (div_add (lo_gid x) c (num_dof_tet b)) as [<- _]; [apply Hx|].
      destruct (div_add (lo_gid y) c' (num_dof_tet b)) as [<- _]; [apply Hy|]. now rewrite E.
  - intros lo. unfold vec_list. rewrite in_concat. split.
    + intros (B & HB & Hl). apply in_map_iff in HB. destruct HB as (c & <- & Hc). apply in_seq in Hc.
      apply in_map_iff in Hl. destruct Hl as (x & <- & Hx). apply Hin in Hx. destruct Hx as [Hx Hs]. split.
      * apply local_vshift; [lia|assumption].
      * exact Hs.
    + intros [E Hs]. destruct (vshift_back _ lo E eq_refl) as (y & Hc & Ey & El).
      eexists. split; [apply in_map, in_seq; split; [apply Nat.le_0_l|exact Hc]|].
      rewrite El at 1. apply in_map. apply Hin. split; [assumption|]. unfold on_sel in *. rewrite El in Hs. exact Hs.
Qed.
Lemma hd_map : forall {A B} (f : A -> B) l, hd_error (map f l) = option_map f (hd_error l).
Proof. intros A B f [|x l]; reflexivity. Qed.
Lemma vec_inc : forall L, exact_visit b s L -> follows (sp_begin false b s) (sp_incr false b s) L ->
  forall l1 x l2, vec_list L = l1 ++ x :: l2 -> sp_incr false (Vector k b) s x = Some (hd_error l2).
Proof.
  intros L [_ Hin] [Hb Hi].
  assert (HL : forall lo, In lo L -> local_order b (lo_gid lo) = Some lo) by (intros lo Hl; apply Hin in Hl; apply Hl).
  assert (STEP : forall c m1 y m2, c < k -> L = m1 ++ y :: m2 ->
     sp_incr false (Vector k b) s (vshift c y) =
     match m2 with z :: _ => Some (Some (vshift c z)) | [] => if S c =? k then Some None else Some (option_map (vshift (S c)) (hd_error L)) end).
  { intros c m1 y m2 Hc E. assert (Hy : local_order b (lo_gid y) = Some y) by (apply HL; rewrite E, in_app_iff; cbn; auto).
    pose proof (local_order_valid b _ y Hwf Hy) as (_ & G1 & G2 & G3 & G4).
    cbn [sp_incr]. unfold incr_vector.
    rewrite guard_true by (apply local_order_valid_lo; [exact Hwf|now apply local_vshift]). cbn [negb].
    change (lo_type (vshift c y)) with (lo_type y). change (lo_elem (vshift c y)) with (lo_elem y). change (lo_sym (vshift c y)) with (lo_sym y).
    change (lo_gid (vshift c y)) with (lo_gid y + c * num_dof_tet b).
    change (lo_leid (vshift c y)) with (lo_leid y + c * num_dof b (lo_type y)).
    destruct (div_add _ c _ G1) as [-> ->]. destruct (div_add _ c _ G4) as [_ ->].
    replace (LO (lo_gid y) (lo_type y) (lo_elem y) (lo_leid y) (lo_sym y)) with y by (now destruct y).
    rewrite (Hi m1 y m2 E). destruct m2 as [|z m2]; cbn [obind hd_error]; [|reflexivity].
    destruct (S c =? k) eqn:Ek; cbn [negb]; [reflexivity|]. rewrite Hb. cbn [obind].
    destruct L as [|w L]; [now destruct m1|]. reflexivity. }
  unfold vec_list. apply follow_concat.
  - intros B l1 x y l2 HB EB. apply in_map_iff in HB. destruct HB as (c & <- & Hc). apply in_seq in Hc.
    apply map_eq_app in EB. destruct EB as (m1 & m2 & E & _ & E2).
    destruct m2 as [|x' [|y' m2]]; try discriminate. cbn [map] in E2. injection E2 as <- <- _.
    rewrite (STEP c m1 x' (y' :: m2)) by (lia || assumption). reflexivity.
  - intros A' B C l1 x EL EB.
    apply map_seq_split in EL. destruct EL as (c & Hc & -> & ->).
    apply map_eq_app in EB. destruct EB as (m1 & m2 & E & _ & E2).
    destruct m2 as [|x' m2]; [discriminate|]. destruct m2; [|discriminate]. cbn [map] in E2. injection E2 as <-.
    rewrite (STEP c m1 x' []) by (lia || assumption). cbn [Nat.add].
    destruct (S c =? k) eqn:Ek.
    + apply Nat.eqb_eq in Ek. replace (k - S c) with 0 by lia. reflexivity.
    + apply Nat.eqb_neq in Ek. destruct (k - S c) eqn:En; [lia|]. cbn [seq map concat].
      destruct L as [|w L]; [now destruct m1|]. reflexivity.
Qed.
Lemma base_begin_vector : 0 < k -> base_begin (Vector k b) s = base_begin b s.
Proof.
  intros Hk. unfold base_begin.
  assert (P : forall t, (0 <? num_dof (Vector k b) t) = (0 <? num_dof b t)).
  { intros t. cbn [num_dof]. destruct (num_dof b t); [now rewrite Nat.mul_0_r|]. apply eq_trans with true; [|reflexivity]. apply Nat.ltb_lt. nia. }
  assert (Z : forall i, (ndofs_compact (Vector k b) i =? 0) = (ndofs_compact b i =? 0)).
  { intros i. assert (E : ndofs_compact (Vector k b) i = k * ndofs_compact b i) by (destruct i as [|[|[|i]]]; cbn [ndofs_compact num_dof]; lia).
    rewrite E. destruct (ndofs_compact b i); [now rewrite Nat.mul_0_r|]. apply eq_trans with false; [|reflexivity]. apply Nat.eqb_neq. nia. }
  assert (T : forall i, begin_type (Vector k b) i = begin_type b i) by (intros i; unfold begin_type; now rewrite !P).
  assert (A : forall t e, at_locus (Vector k b) t e 0 = at_locus b t e 0).
  { intros t e. unfold at_locus. f_equal. destruct (valid_locus b t e 0) eqn:V.
    - pose proof (proj1 (valid_locus_iff b t e 0 Hwf) V) as (V1 & V2 & V3).
      cbn [tet_dof_id]. unfold chk_locus at 1. cbn [negb orb].
      assert (V' : valid_locus (Vector k b) t e 0 = true) by (apply valid_locus_iff; [exact Hwf|cbn [cnt]; repeat split; auto; nia]).
      rewrite V'. cbn [guard obind]. rewrite num_dof_tet_t_cnt by assumption.
      rewrite guard_true by (apply Nat.ltb_lt; nia). rewrite Nat.mod_0_l, Nat.div_0_l by nia.
      destruct (tet_dof_id true b t e 0) as [[i y]|]; reflexivity.
    - assert (N : ~ (t < 6 /\ e < tet_elems t /\ 0 < cnt b t)) by (rewrite <- (valid_locus_iff b t e 0 Hwf); congruence).
      rewrite (tet_dof_id_invalid b), (tet_dof_id_invalid (Vector k b)); auto. cbn [cnt]. intros (N1 & N2 & N3). apply N. repeat split; auto. nia. }
  assert (G : forall n i, base_begin_from (Vector k b) s i n = base_begin_from b s i n).
  { induction n as [|n IH]; intros i; cbn [base_begin_from]; [reflexivity|]. rewrite Z, T, A, IH. reflexivity. }
  apply G.
Qed.
End vector.
Lemma base_begin_vector0 : forall b s, base_begin (Vector 0 b) s = Some None.
Proof. intros b s. reflexivity. Qed.
Lemma vec_follows : forall k b s L, wf b -> complex_free b -> exact_visit b s L ->
  follows (sp_begin false b s) (sp_incr false b s) L ->
  follows (sp_begin false (Vector k b) s) (sp_incr false (Vector k b) s) (vec_list k b L).
Proof.
  intros k b s L Hwf Hc He Hf. split; [|now apply vec_inc].
  assert (E : sp_begin false b s = base_begin b s) by (destruct b; [reflexivity|reflexivity|destruct Hc]).
  change (sp_begin false (Vector k b) s) with (base_begin (Vector k b) s).
  destruct k as [|k]; [reflexivity|]. rewrite base_begin_vector, <- E by (assumption || lia).
  destruct Hf as [-> _]. unfold vec_list. cbn [seq map concat]. destruct L as [|x L].
  - cbn. induction (seq 1 k) as [|y l IH]; [reflexivity|]. exact IH.
  - cbn. f_equal. f_equal. unfold vshift, shift_lo. cbn. rewrite !Nat.add_0_r. now destruct x.
Qed.

(** *** Composition *)
Section complex.
Context (l : list dmap) (s : sparsity) (Hwf : wf (Complex l)).
Context (Ls : nat -> list LocalOrder).
Let n := length l.
Definition cshift (v : nat) := shift_lo (comp_tet l v) (comp_elem l v).
Definition cplx_from (v m : nat) : list LocalOrder := concat (map (fun v => map (cshift v) (Ls v)) (seq v m)).
Context (HF : forall v b, nth_error l v = Some b -> follows (sp_begin false b s) (sp_incr false b s) (Ls v)).
Context (HE : forall v b, nth_error l v = Some b -> exact_visit b s (Ls v)).
Context (HC : consecutive (fun v => exists b lo, nth_error l v = Some b /\ sel_dof b s lo) n).

Lemma wf_at : forall v b, nth_error l v = Some b -> wf b.
Proof. intros v b E. apply wf_complex in Hwf. rewrite Forall_forall in Hwf. apply Hwf. now apply nth_error_In in E. Qed.
Lemma comp_tet_eq : forall v, v <= n -> comp_tet l v = list_sum (firstn v (map num_dof_tet l)).
Proof. intros v H. unfold comp_tet. apply nth_prefix. rewrite map_length. exact H. Qed.
Lemma comp_elem_eq : forall v t, v <= n -> comp_elem l v t = list_sum (firstn v (map (fun b => num_dof b t) l)).
Proof. intros v t H. unfold comp_elem. apply nth_prefix. rewrite map_length. exact H. Qed.
Lemma find_comp : forall (f : dmap -> nat) v b x, nth_error l v = Some b -> x < f b ->
  upper_bound (prefix (map f l)) (x + list_sum (firstn v (map f l))) - 1 = v.
Proof.
  intros f v b x E Hx.
  assert (Hv : v < length (map f l)) by (rewrite map_length; apply nth_error_Some; congruence).
  assert (Hn : nth v (map f l) 0 = f b) by (apply nth_error_nth; now rewrite nth_error_map, E).
  assert (Hs : x + list_sum (firstn v (map f l)) < list_sum (map f l)).
  { apply Nat.lt_le_trans with (list_sum (firstn (S v) (map f l))).
    - rewrite list_sum_firstn_S by assumption. lia.
    - rewrite <- (firstn_all_sum (map f l) (max (S v) (length (map f l)))) by lia. apply list_sum_firstn_le. lia. }
  destruct (upper_bound_prefix _ _ Hs) as (w & -> & Hw & Hb). cbn. rewrite Nat.sub_0_r.
  symmetry. apply (block_unique (map f l) v w (x + list_sum (firstn v (map f l)))); try assumption; lia.
Qed.
Lemma local_cshift : forall v b lo, nth_error l v = Some b -> local_order b (lo_gid lo) = Some lo ->
  local_order (Complex l) (lo_gid (cshift v lo)) = Some (cshift v lo).
Proof.
  intros v b lo Ev E. pose proof (wf_at v b Ev) as Hb. pose proof (local_order_valid b _ lo Hb E) as (_ & H1 & _).
  assert (Hv : v < n) by (apply nth_error_Some; congruence).
  assert (G : lo_gid lo + comp_tet l v < num_dof_tet (Complex l)).
  { rewrite num_dof_tet_complex by assumption. rewrite comp_tet_eq by lia.
    apply Nat.lt_le_trans with (list_sum (firstn (S v) (map num_dof_tet l))).
    - rewrite list_sum_firstn_S by (rewrite map_length; exact Hv). erewrite (nth_error_nth (map num_dof_tet l) v) by (rewrite nth_error_map, Ev; reflexivity). lia.
    - rewrite <- (firstn_all_sum (map num_dof_tet l) (max (S v) n)) by (rewrite map_length; unfold n; lia). apply list_sum_firstn_le. lia. }
  unfold cshift, shift_lo. cbn [lo_gid]. cbn [local_order]. rewrite guard_true by (now apply Nat.ltb_lt).
  assert (Eu : upper_bound (prefix (map num_dof_tet l)) (lo_gid lo + comp_tet l v) - 1 = v)
    by (rewrite comp_tet_eq by lia; now apply (find_comp num_dof_tet v b)).
  rewrite Eu. rewrite nth_error_map, Ev. cbn [option_map obind].
  change (nth v (prefix (map num_dof_tet l)) 0) with (comp_tet l v). rewrite Nat.add_sub, E. reflexivity.
Qed.
Lemma cshift_back : forall lo, local_order (Complex l) (lo_gid lo) = Some lo ->
  exists v b y, nth_error l v = Some b /\ local_order b (lo_gid y) = Some y /\ lo = cshift v y.
Proof.
  intros lo E. pose proof (local_order_valid _ _ lo Hwf E) as (_ & H1 & _). cbn [local_order] in E.
  rewrite guard_true in E by (now apply Nat.ltb_lt). rewrite num_dof_tet_complex in H1 by assumption.
  destruct (upper_bound_prefix _ _ H1) as (v & Eu & Hv & Hb1 & Hb2). rewrite Eu in E. cbn [Nat.sub] in E. rewrite Nat.sub_0_r in E.
  rewrite nth_error_map in E. destruct (nth_error l v) as [b|] eqn:Ev; [|discriminate]. cbn [option_map obind] in E.
  destruct (local_order b (lo_gid lo - nth v (prefix (map num_dof_tet l)) 0)) as [y|] eqn:Ey; [|discriminate].
  cbn [obind] in E. exists v, b, y. split; [assumption|]. pose proof (local_order_valid b _ y (wf_at v b Ev) Ey) as (Hg & _).
  split; [now rewrite Hg|]. apply some_inj in E. rewrite <- E at 1. unfold cshift, shift_lo. f_equal.
  rewrite Hg. change (nth v (prefix (map num_dof_tet l)) 0) with (comp_tet l v). rewrite map_length in Hv.
  rewrite comp_tet_eq by (unfold n; lia). lia.
Qed.
Lemma cplx_exact : exact_visit (Complex l) s (cplx_from 0 n).
Proof.
  assert (AT : forall v, v < n -> exists b, nth_error l v = Some b).
  { intros v Hv. destruct (nth_error l v) as [b|] eqn:E; [eauto|]. apply nth_error_None in E. unfold n in Hv. lia. }
  split.
  - unfold cplx_from. rewrite <- flat_map_concat_map. apply NoDup_flat_map; [apply seq_NoDup|..].
    + intros v Hv. apply in_seq in Hv. destruct (AT v ltac:(lia)) as (b & Eb). apply FinFun.Injective_map_NoDup; [|apply (HE v b Eb)].
      intros [g1 t1 e1 p1 s1] [g2 t2 e2 p2 s2] E. unfold cshift, shift_lo in E. cbn [lo_gid lo_type lo_elem lo_leid lo_sym] in E.
      injection E as A1 A2 A3 A4 A5. subst. f_equal; lia.
    + intros v w lo Hv Hw H1 H2. apply in_seq in Hv, Hw. destruct (AT v ltac:(lia)) as (b & Eb), (AT w ltac:(lia)) as (b' & Eb').
      apply in_map_iff in H1, H2. destruct H1 as (x & <- & Hx), H2 as (y & E & Hy).
      apply (HE v b Eb) in Hx. apply (HE w b' Eb') in Hy. destruct Hx as [Hx _], Hy as [Hy _].
      apply local_order_valid in Hx; [|now apply (wf_at v)]. apply local_order_valid in Hy; [|now apply (wf_at w)].
      apply (f_equal lo_gid) in E. unfold cshift, shift_lo in E. cbn [lo_gid] in E. rewrite !comp_tet_eq in E by (unfold n in *; lia).
      rewrite <- (find_comp num_dof_tet v b (lo_gid x)) by (assumption || apply Hx).
      rewrite <- (find_comp num_dof_tet w b' (lo_gid y)) at 1 by (assumption || apply Hy). now rewrite E.
  - intros lo. unfold cplx_from. rewrite in_concat. split.
    + intros (B & HB & Hl). apply in_map_iff in HB. destruct HB as (v & <- & Hv). apply in_seq in Hv. destruct (AT v ltac:(lia)) as (b & Eb).
      apply in_map_iff in Hl. destruct Hl as (x & <- & Hx). apply (HE v b Eb) in Hx. destruct Hx as [Hx Hs]. split; [|exact Hs].
      now apply (local_cshift v b).
    + intros [E Hs]. destruct (cshift_back lo E) as (v & b & y & Ev & Ey & El).
      exists (map (cshift v) (Ls v)). split.
      * apply in_map_iff. exists v. split; [reflexivity|]. apply in_seq. assert (v < length l) by (apply nth_error_Some; congruence). unfold n. lia.
      * rewrite El. apply in_map. apply (HE v b Ev). split; [assumption|]. rewrite El in Hs. exact Hs.
Qed.
Lemma complex_begin_ok : forall m v, v + m = n ->
  complex_begin l v (map (fun b => sp_begin false b s) (skipn v l)) = Some (hd_error (cplx_from v m)).
Proof.
  induction m as [|m IH]; intros v Hv.
  - rewrite skipn_all2 by (unfold n in Hv; lia). reflexivity.
  - destruct (nth_error l v) as [b|] eqn:Ev; [|apply nth_error_None in Ev; unfold n in Hv; lia].
    assert (Es : skipn v l = b :: skipn (S v) l).
    { clear -Ev. revert v Ev. induction l as [|x l' IHl]; intros [|v] Ev; try discriminate; cbn in *; [congruence|now apply IHl]. }
    rewrite Es. cbn [map complex_begin]. destruct (HF v b Ev) as [-> _]. cbn [obind].
    unfold cplx_from. cbn [seq map concat]. destruct (Ls v) as [|x L]; cbn [hd_error map app]; [|reflexivity].
    rewrite IH by lia. reflexivity.
Qed.
Lemma empty_after : forall v m, S v + m = n -> Ls v <> [] -> (0 < m -> Ls (S v) = []) -> cplx_from (S v) m = [].
Proof.
  intros v m Hm Hne H0.
  assert (AT : forall v, v < n -> exists b, nth_error l v = Some b).
  { intros w Hw. destruct (nth_error l w) as [b|] eqn:E; [eauto|]. apply nth_error_None in E. unfold n in Hw. lia. }
  assert (Hall : forall w, S v <= w < n -> Ls w = []).
  { intros w Hw. destruct (Ls w) as [|x L] eqn:Ew; [reflexivity|exfalso].
    destruct (Nat.eq_dec w (S v)) as [->|Hd]; [rewrite H0 in Ew by lia; discriminate|].
    destruct (AT v ltac:(lia)) as (b0 & Eb0), (AT w ltac:(lia)) as (b2 & Eb2).
    destruct (HC v (S v) w) as (b1 & lo & Eb1 & Hs); try lia.
    - destruct (Ls v) as [|y L'] eqn:Eq; [now elim Hne|]. exists b0, y. split; [assumption|]. apply (HE v b0 Eb0). rewrite Eq. now left.
    - exists b2, x. split; [assumption|]. apply (HE w b2 Eb2). rewrite Ew. now left.
    - apply (HE (S v) b1 Eb1) in Hs. rewrite H0 in Hs by lia. destruct Hs. }
  unfold cplx_from. clear -Hall Hm. assert (G : forall m u, S v <= u -> u + m = n -> concat (map (fun v => map (cshift v) (Ls v)) (seq u m)) = []).
  { clear m Hm. induction m as [|m IH]; intros u Hu Hm; [reflexivity|]. cbn [seq map concat]. rewrite (Hall u) by lia. cbn. apply IH; lia. }
  apply G; lia.
Qed.
Lemma cplx_follows : follows (sp_begin false (Complex l) s) (sp_incr false (Complex l) s) (cplx_from 0 n).
Proof.
  split; [apply (complex_begin_ok n 0); reflexivity|].
  assert (STEP : forall v b m1 y m2, nth_error l v = Some b -> Ls v = m1 ++ y :: m2 ->
     sp_incr false (Complex l) s (cshift v y) =
     match m2 with z :: _ => Some (Some (cshift v z)) | [] => Some (hd_error (cplx_from (S v) (n - S v))) end).
  { intros v b m1 y m2 Ev E. pose proof (wf_at v b Ev) as Hb.
    assert (Hv : v < n) by (apply nth_error_Some; congruence).
    assert (Hy : local_order b (lo_gid y) = Some y) by (apply (HE v b Ev); rewrite E, in_app_iff; cbn; auto).
    pose proof (local_order_valid b _ y Hb Hy) as (_ & G1 & G2 & G3 & G4).
    cbn [sp_incr]. unfold incr_complex.
    rewrite guard_true by (apply local_order_valid_lo; [exact Hwf|now apply (local_cshift v b)]).
    change (lo_type (cshift v y)) with (lo_type y). change (lo_elem (cshift v y)) with (lo_elem y). change (lo_sym (cshift v y)) with (lo_sym y).
    change (lo_gid (cshift v y)) with (lo_gid y + comp_tet l v).
    change (lo_leid (cshift v y)) with (lo_leid y + comp_elem l v (lo_type y)).
    assert (Eu : upper_bound (prefix (map (fun b0 => num_dof b0 (lo_type y)) l)) (lo_leid y + comp_elem l v (lo_type y)) - 1 = v)
      by (rewrite comp_elem_eq by (unfold n in *; lia); now apply (find_comp (fun b0 => num_dof b0 (lo_type y)) v b)).
    rewrite Eu. rewrite guard_true by (apply Nat.leb_le; lia). rewrite !Nat.add_sub.
    replace (LO (lo_gid y) (lo_type y) (lo_elem y) (lo_leid y) (lo_sym y)) with y by (now destruct y).
    rewrite nth_error_map, Ev. cbn [option_map obind negb]. destruct (HF v b Ev) as [_ Hi]. rewrite (Hi m1 y m2 E).
    destruct m2 as [|z m2]; cbn [obind hd_error]; [|reflexivity]. fold n.
    destruct (S v =? n) eqn:En; cbn [negb].
    - apply Nat.eqb_eq in En. replace (n - S v) with 0 by lia. reflexivity.
    - apply Nat.eqb_neq in En. destruct (nth_error l (S v)) as [b'|] eqn:Ev'; [|apply nth_error_None in Ev'; unfold n in *; lia].
      rewrite nth_error_map, Ev'. cbn [option_map obind]. destruct (HF (S v) b' Ev') as [-> _]. cbn [obind].
      destruct (Ls (S v)) as [|w L] eqn:Ew; cbn [hd_error].
      + rewrite (empty_after v (n - S v)); [reflexivity|lia| |intros _; exact Ew]. rewrite E. now destruct m1.
      + unfold cplx_from. destruct (n - S v) eqn:Em; [lia|]. cbn [seq map concat]. rewrite Ew. reflexivity. }
  assert (AT : forall v, v < n -> exists b, nth_error l v = Some b).
  { intros w Hw. destruct (nth_error l w) as [b|] eqn:E; [eauto|]. apply nth_error_None in E. unfold n in Hw. lia. }
  unfold cplx_from. apply follow_concat.
  - intros B l1 x y l2 HB EB. apply in_map_iff in HB. destruct HB as (v & <- & Hv). apply in_seq in Hv. destruct (AT v ltac:(lia)) as (b & Eb).
    apply map_eq_app in EB. destruct EB as (m1 & m2 & E & _ & E2).
    destruct m2 as [|x' [|y' m2]]; try discriminate. cbn [map] in E2. injection E2 as <- <- _.
    rewrite (STEP v b m1 x' (y' :: m2) Eb E). reflexivity.
  - intros A' B C l1 x EL EB. apply map_seq_split in EL. destruct EL as (v & Hv & -> & ->). destruct (AT v ltac:(lia)) as (b & Eb).
    apply map_eq_app in EB. destruct EB as (m1 & m2 & E & _ & E2).
    destruct m2 as [|x' m2]; [discriminate|]. destruct m2; [|discriminate]. cbn [map] in E2. injection E2 as <-.
    rewrite (STEP v b m1 x' [] Eb E). cbn [Nat.add]. reflexivity.
Qed.
End complex.

Lemma complex_free_safe : forall s d, complex_free d -> iter_safe s d.
Proof. intros s [nd sy|k b|l] H; cbn in *; [exact I|exact H|destruct H]. Qed.
Lemma iter_exact : forall d s, wf d -> in_range s -> iter_safe s d ->
  exists L, follows (sp_begin false d s) (sp_incr false d s) L /\ exact_visit d s L.
Proof.
  intros d s Hwf Hr. induction d as [nd sy|k b IH|l IH] using dmap_ind'; intros Hs.
  - exists (leaf_list nd sy s). split; [now apply leaf_follows|now apply leaf_exact].
  - cbn in Hs. destruct (IH Hwf (complex_free_safe s b Hs)) as (L & HF & HE). exists (vec_list k b L).
    split; [now apply vec_follows|now apply vec_exact].
  - destruct Hs as [Hs HC]. rewrite wf_complex in Hwf.
    assert (Hall : Forall (fun b => exists L, follows (sp_begin false b s) (sp_incr false b s) L /\ exact_visit b s L) l).
    { clear HC. induction l as [|b l IHl]; [constructor|]. inversion IH; inversion Hwf; subst. cbn in Hs. destruct Hs as [Hs1 Hs2].
      constructor; [apply H1; assumption|]. apply IHl; assumption. }
    assert (G : exists Ls : nat -> list LocalOrder, forall v b, nth_error l v = Some b ->
        follows (sp_begin false b s) (sp_incr false b s) (Ls v) /\ exact_visit b s (Ls v)).
    { clear -Hall. induction Hall as [|b l (L & HL) _ (Ls & IH)].
      - exists (fun _ => []). intros [|v] b E; discriminate.
      - exists (fun v => match v with 0 => L | S v => Ls v end). intros [|v] b' E; cbn in E; [injection E as <-; exact HL|now apply IH]. }
    destruct G as (Ls & G). exists (cplx_from l Ls 0 (length l)).
    split; [apply cplx_follows|apply cplx_exact]; try (now apply wf_complex); try assumption;
    intros v b E; apply (G v b E).
Qed.
Lemma iterate_exact : forall d s, wf d -> in_range s -> iter_safe s d ->
  exists L, sp_iterate false d s = Some L /\ exact_visit d s L.
Proof.
  intros d s Hwf Hr Hs. destruct (iter_exact d s Hwf Hr Hs) as (L & HF & HE). exists L. split; [|assumption].
  apply iterate_follows; [assumption|]. now apply (visit_length d s).
Qed.
