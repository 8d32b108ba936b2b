(** Proofs about integrals over a mesh *)
From Coq Require Import ZArith Reals List Bool Lia Lra Permutation.
From Coquelicot Require Import Coquelicot.
From Verif Require Import Prelude RSum BasModel BasSpec QuadModel QuadTables QuadRules QuadSpec QuadProofs QuadCheck QuadCheck1 QuadProofs2 QuadProofs3 QuadPoly QuadProofs4 KinModel KinSpec KinProofs UtModel UtSpec.
Import ListNotations.
Open Scope R_scope.

(** *** Loops that add and loops that fill *)
Lemma add_loop : forall n (h g : nat -> R) body, (forall d g', (d < n)%nat -> body d (arr n g') = wr (arr n g') d (g' d + h d)) ->
  for_ n body (arr n g) = Some (arr n (fun d => g d + h d)).
Proof.
  intros n h g body H. destruct (for_inv (fun i s => s = arr n (fun d => if (d <? i)%nat then g d + h d else g d)) n body (arr n g)) as (s & E & ->).
  - apply arr_ext. intros. reflexivity.
  - intros i s Hi ->. rewrite H by assumption. rewrite wr_arr by assumption. eexists. split; [reflexivity|]. apply arr_ext. intros d Hd. unfold upd.
    rewrite Nat.ltb_irrefl. destruct (Nat.eqb_spec d i) as [->|Ne].
    + destruct (Nat.ltb_spec i (S i)); [reflexivity|lia].
    + destruct (Nat.ltb_spec d i), (Nat.ltb_spec d (S i)); try lia; reflexivity.
  - rewrite E. f_equal. apply arr_ext. intros d Hd. destruct (Nat.ltb_spec d n); [reflexivity|lia].
Qed.
Lemma add_loops : forall q n (h : nat -> nat -> R) (g : nat -> R) body,
  (forall i g', (i < q)%nat -> body i (arr n g') = Some (arr n (fun d => g' d + h i d))) ->
  for_ q body (arr n g) = Some (arr n (fun d => g d + Rsum q (fun i => h i d))).
Proof.
  intros q n h g body H. destruct (for_inv (fun i s => s = arr n (fun d => g d + Rsum i (fun i => h i d))) q body (arr n g)) as (s & E & ->).
  - apply arr_ext. intros. cbn. ring.
  - intros i s Hi ->. rewrite H by assumption. eexists. split; [reflexivity|]. apply arr_ext. intros d Hd. rewrite Rsum_S. ring.
  - exact E.
Qed.
Lemma fill_loop : forall m q (v : nat -> nat -> R) X body, (0 < m)%nat -> length X = (m * q)%nat ->
  (forall n k Y, (n < q)%nat -> (k < m)%nat -> length Y = (m * q)%nat -> body n k Y = wr Y (m * n + k)%nat (v n k)) ->
  for_ q (fun n X => for_ m (body n) X) X = Some (store m q (fun k n => v n k)).
Proof.
  intros m q v X body Hm HX H.
  destruct (for_inv (fun n Y => exists a, Y = store m q a /\ forall n' k, (n' < n)%nat -> (k < m)%nat -> a k n' = v n' k) q (fun n X => for_ m (body n) X) X) as (s & E & a & -> & Ha).
  - exists (fun k n => nth (k + m * n) X 0). split; [now apply list_store|]. intros. lia.
  - intros n Y Hn (a & -> & Ha).
    destruct (for_inv (fun k Y => exists a, Y = store m q a /\ (forall n' k, (n' < n)%nat -> (k < m)%nat -> a k n' = v n' k) /\ forall k', (k' < k)%nat -> a k' n = v n k') m (body n) (store m q a))
      as (Y & E & b & -> & Hb & Hb').
    + exists a. split; [reflexivity|]. split; [exact Ha|]. intros. lia.
    + intros k Y Hk (b & -> & Hb & Hb'). rewrite H by (trivial; now rewrite store_length). rewrite Nat.add_comm.
      fold (mwr (store m q b) m k n (v n k)). rewrite mwr_store by assumption. eexists. split; [reflexivity|]. exists (upd2 b k n (v n k)). split; [reflexivity|]. unfold upd2. split.
      * intros n' k' Hn' Hk'. destruct (Nat.eqb_spec n' n); [lia|]. rewrite andb_false_r. now apply Hb.
      * intros k' Hk'. rewrite Nat.eqb_refl, andb_true_r. destruct (Nat.eqb_spec k' k) as [->|]; [reflexivity|]. apply Hb'. lia.
    + exists (store m q b). split; [exact E|]. exists b. split; [reflexivity|]. intros n' k Hn' Hk. destruct (Nat.eq_dec n' n) as [->|]; [now apply Hb'|]. apply Hb; lia.
  - rewrite E. f_equal. apply store_ext. intros i j Hi Hj. now apply Ha.
Qed.
Lemma nth_arr : forall n (f : nat -> R) i, (i < n)%nat -> nth i (arr n f) 0 = f i.
Proof. intros n f i Hi. apply nth_error_nth. apply (rd_arr n f i Hi). Qed.
Lemma nth_store : forall m q (a : nat -> nat -> R) n k, (k < m)%nat -> (n < q)%nat -> nth (m * n + k) (store m q a) 0 = a k n.
Proof.
  intros m q a n k Hk Hn. pose proof (mrd_store m q a k n Hk Hn) as E. unfold mrd, rd in E. rewrite Nat.add_comm. now apply nth_error_nth.
Qed.

(** *** The table of a formula *)
Lemma combine_nth_error : forall {A B} (l : list A) (m : list B) n a b, nth_error l n = Some a -> nth_error m n = Some b -> nth_error (List.combine l m) n = Some (a, b).
Proof. induction l as [|x l IH]; intros [|y m] [|n] a b; cbn; intros H1 H2; try discriminate; [congruence|]. now apply IH. Qed.
Lemma table_points : forall order, (0 <= order <= 20)%Z -> exists f F, tetrahedron_quadrature_formulas order = Some f /\ all_points 3 f = Some F /\
  length F = q_num f /\ forall n, (n < q_num f)%nat -> exists p w, nth_error F n = Some (p, w) /\ length p = 4%nat /\
    (forall i, (i < 4)%nat -> rd (q_p f) (4 * n + i) = Some (nth i p 0)) /\ rd (q_w f) n = Some w.
Proof.
  intros order H. set (o := Z.to_nat order).
  assert (K : tet_ok (means 3 20) o = true) by (apply (forallb_seq _ _ _ o tet_checked); lia). unfold tet_ok in K.
  unfold tetrahedron_quadrature_formulas. rewrite (range_ok _ _ H). fold o. change tet_rules_np with tet_rules.
  destruct (nth_error tet_rules o) as [f|]; [|discriminate]. destruct (nth_error tet_rules_w o) as [w|]; [|discriminate]. destruct (nth_error tet_symmetry o) as [sy|]; [|discriminate].
  apply andb_prop in K. destruct K as [K1 K2]. cbn [obind].
  destruct (real_combine Tetrahedron o 20 (tet_points Zarith) (tet_points Rarith) f w rel_tet K1) as [E L].
  pose proof (real_all_points Tetrahedron o 20 (tet_points Zarith) (tet_points Rarith) f w rel_tet good_tet K1 sy) as A.
  set (pts := flat_map (tet_points Rarith) f) in *. set (ws := weight_array w) in *.
  assert (G : forall p, In p pts -> length p = 4%nat).
  { intros p Hp. unfold pts in Hp. apply in_flat_map in Hp. destruct Hp as (c & _ & Hp). apply (good_tet _ _ Hp). }
  assert (N : (length (concat pts) / 4)%nat = length pts).
  { rewrite (concat_length 3 pts G). rewrite Nat.mul_comm. apply Nat.div_mul. lia. }
  eexists. exists (List.combine pts ws). split; [reflexivity|]. split; [rewrite E; exact A|]. cbn [q_num q_p q_w]. change (reals (tet_points Rarith) f) with (concat pts). rewrite N.
  assert (Lc : length (List.combine pts ws) = length pts) by (rewrite List.combine_length, L; lia).
  split; [exact Lc|]. intros n Hn. exists (nth n pts []), (nth n ws 0).
  assert (Ew : nth_error ws n = Some (nth n ws 0)) by (apply nth_error_nth'; lia).
  assert (Ep : nth_error pts n = Some (nth n pts [])) by now apply nth_error_nth'.
  split; [now apply combine_nth_error|]. split; [apply G; now apply nth_In|]. split; [|exact Ew].
  intros i Hi. apply (rd_concat 3); trivial.
Qed.

Lemma qsum_Rsum : forall F h, qsum F h = Rsum (length F) (fun n => snd (nth n F ([], 0)) * h (fst (nth n F ([], 0)))).
Proof.
  intros F h. assert (Sh : forall n g, Rsum (S n) g = g 0%nat + Rsum n (fun k => g (S k))).
  { clear. induction n as [|n IH]; intros g; [cbn; ring|]. rewrite Rsum_S, IH, Rsum_S. ring. }
  induction F as [|[p w] F IH]; [reflexivity|]. cbn [length]. rewrite Sh. cbn [nth fst snd]. rewrite <- IH. reflexivity.
Qed.

(** *** One cell *)
Section Cell.
Variables (f : quad) (F : formula).
Hypothesis HL : length F = q_num f.
Hypothesis HF : forall n, (n < q_num f)%nat -> exists p w, nth_error F n = Some (p, w) /\ length p = 4%nat /\
    (forall i, (i < 4)%nat -> rd (q_p f) (4 * n + i) = Some (nth i p 0)) /\ rd (q_w f) n = Some w.
Definition pt (n : nat) : list R := fst (nth n F ([], 0)).
Definition wt (n : nat) : R := snd (nth n F ([], 0)).
Lemma table : forall n, (n < q_num f)%nat -> length (pt n) = 4%nat /\ (forall i, (i < 4)%nat -> rd (q_p f) (4 * n + i) = Some (nth i (pt n) 0)) /\ rd (q_w f) n = Some (wt n).
Proof. intros n Hn. destruct (HF n Hn) as (p & w & E & L & P & W). unfold pt, wt. rewrite (nth_error_nth _ _ _ E). auto. Qed.
Lemma at_bary4 : forall X p k, length p = 4%nat -> at_bary X p k = nth 0 p 0 * X 0%nat k + nth 1 p 0 * X 1%nat k + nth 2 p 0 * X 2%nat k + nth 3 p 0 * X 3%nat k.
Proof. intros X p k L. unfold at_bary. rewrite L. cbn [seq map fold_right]. ring. Qed.
Lemma xy_ok : forall c, exists xy, xy_nodes c = Some xy /\ forall n k, (n < 4)%nat -> (k < 3)%nat -> rd xy (3 * n + k) = Some (ic_node c n k).
Proof.
  intros c. exists (store 3 4 (fun k n => ic_node c n k)). split; [unfold xy_nodes; apply (fill_loop 3 4); [lia|reflexivity|reflexivity]|].
  intros n k Hn Hk. rewrite Nat.add_comm. exact (mrd_store 3 4 (fun k n => ic_node c n k) k n Hk Hn).
Qed.
Lemma points_ok : forall c xy X, xy_nodes c = Some xy -> length X = (3 * q_num f)%nat ->
  phys_points f xy X = Some (store 3 (q_num f) (fun k n => at_bary (ic_node c) (pt n) k)).
Proof.
  intros c xy X E HX. destruct (xy_ok c) as (xy' & E' & R'). rewrite E in E'. apply Some_inj' in E'. subst xy'.
  unfold phys_points. apply (fill_loop 3 (q_num f)); [lia|exact HX|]. intros n k Y Hn Hk HY.
  destruct (table n Hn) as (L4 & P & _).
  rewrite (for_sum 4 (fun i => nth i (pt n) 0 * ic_node c i k)).
  - cbn [obind]. f_equal. rewrite at_bary4 by assumption. cbn [Rsum]. ring.
  - intros i s Hi. rewrite P, R' by assumption. reflexivity.
Qed.
Lemma accumulate_ok : forall dim vol V g, length V = (dim * q_num f)%nat ->
  accumulate f dim vol V (arr dim g) = Some (arr dim (fun d => g d + vol * Rsum (q_num f) (fun n => wt n * nth (d + dim * n) V 0))).
Proof.
  intros dim vol V g HV. unfold accumulate. rewrite (add_loops (q_num f) dim (fun n d => wt n * vol * nth (d + dim * n) V 0)).
  - f_equal. apply arr_ext. intros d Hd. rewrite <- Rsum_scal. f_equal. apply Rsum_ext. intros. ring.
  - intros n g' Hn. destruct (table n Hn) as (_ & _ & W). rewrite W. cbn [obind]. apply add_loop. intros d g2 Hd. rewrite rd_arr by assumption. cbn [obind].
    assert (E : rd V (d + dim * n) = Some (nth (d + dim * n) V 0)) by (apply nth_error_nth'; rewrite HV; nia). rewrite E. reflexivity.
Qed.

Variables (dim : nat) (func : user_func) (val : integrand).
Hypothesis Hfunc : evaluates dim (q_num f) (q_p f) func val.
Variables (slots : list (option icell)) (work : nat -> list R).
Hypothesis Hwork : forall i, (i < length slots)%nat -> length (work i) = (3 * q_num f + dim * q_num f)%nat.
Definition part (i d : nat) : R :=
  match nth i slots None with Some c => if ic_ghost c then 0 else ic_vol c * qsum F (fun p => val c p (phys c p) d) | None => 0 end.
Lemma list4 : forall (l : list R), length l = 4%nat -> l = [nth 0 l 0; nth 1 l 0; nth 2 l 0; nth 3 l 0].
Proof. intros l H. destruct l as [|a [|b [|c [|d [|e l]]]]]; try discriminate. reflexivity. Qed.
Lemma cycle_ok : forall nt i t L, (i < length slots)%nat -> (t < nt)%nat ->
  cycle_body f dim func slots work i t (arr nt (fun t => arr dim (L t))) =
  Some (arr nt (fun t' => arr dim (fun d => L t' d + if (t' =? t)%nat then part i d else 0))).
Proof.
  intros nt i t L Hi Ht. unfold cycle_body, part. rewrite (nth_error_nth' slots None Hi : rd slots i = _). cbn [obind].
  assert (Z : forall P : nat -> bool, Some (arr nt (fun t : nat => arr dim (L t))) = Some (arr nt (fun t' => arr dim (fun d => L t' d + if P t' then 0 else 0)))).
  { intros P. f_equal. apply arr_ext. intros t' _. apply arr_ext. intros d _. destruct (P t'); ring. }
  destruct (nth i slots None) as [c|]; [|exact (Z (fun t' => (t' =? t)%nat))]. destruct (ic_ghost c) eqn:G; [exact (Z (fun t' => (t' =? t)%nat))|].
  rewrite rd_arr by assumption. cbn [obind]. destruct (xy_ok c) as (xy & Ex & _). rewrite Ex. cbn [obind].
  pose proof (Hwork i Hi) as Hw. rewrite (points_ok c xy) by (trivial; rewrite firstn_length; lia). cbn [obind].
  set (X := store 3 (q_num f) (fun k n => at_bary (ic_node c) (pt n) k)).
  destruct (Hfunc c X (skipn (3 * q_num f) (work i))) as (V & EV & LV & HV); [apply store_length|rewrite skipn_length; lia|].
  rewrite EV. cbn [obind]. rewrite accumulate_ok by assumption. cbn [obind]. rewrite wr_arr by assumption. f_equal. apply arr_ext. intros t' Ht'. unfold upd.
  destruct (Nat.eqb_spec t' t) as [->|]; [|apply arr_ext; intros; ring]. apply arr_ext. intros d Hd. f_equal. f_equal.
  rewrite qsum_Rsum, HL. apply Rsum_ext. intros n Hn. unfold wt. f_equal. fold (pt n). destruct (table n Hn) as (L4 & P & _).
  rewrite HV by assumption. f_equal.
  - rewrite (list4 (pt n) L4) at 1. cbn [map]. unfold rd in P. rewrite !(fun i Hi => nth_error_nth _ _ 0 (P i Hi)) by lia. reflexivity.
  - unfold X. cbn [map phys]. rewrite !nth_store by lia. reflexivity.
Qed.
(** sums over the iterations of one thread *)
Definition thread_sum (sched : list (nat * nat)) (t d : nat) : R := fold_right (fun p s => (if (t =? snd p)%nat then part (fst p) d else 0) + s) 0 sched.
Lemma sched_ok : forall nt sched L, (forall i t, In (i, t) sched -> (i < length slots)%nat /\ (t < nt)%nat) ->
  run_sched (cycle_body f dim func slots work) sched (arr nt (fun t => arr dim (L t))) = Some (arr nt (fun t => arr dim (fun d => L t d + thread_sum sched t d))).
Proof.
  intros nt. induction sched as [|[i t] sched IH]; intros L H.
  - cbn. f_equal. apply arr_ext. intros t _. apply arr_ext. intros. ring.
  - destruct (H i t (or_introl eq_refl)) as [Hi Ht]. cbn [run_sched]. rewrite cycle_ok by assumption. cbn [obind].
    rewrite (IH (fun t' d => L t' d + if (t' =? t)%nat then part i d else 0)) by (intros; apply H; now right). f_equal. apply arr_ext. intros t' _. apply arr_ext. intros d _.
    cbn [thread_sum fold_right fst snd]. unfold thread_sum. ring.
Qed.
Lemma threads_sum : forall nt sched d, (forall i t, In (i, t) sched -> (t < nt)%nat) ->
  Rsum nt (fun t => thread_sum sched t d) = fold_right Rplus 0 (map (fun p => part (fst p) d) sched).
Proof.
  intros nt sched d. induction sched as [|[i t] sched IH]; intros H; [cbn; now apply Rsum_zero|].
  cbn [thread_sum fold_right map fst snd]. rewrite Rsum_plus. f_equal; [|apply IH; intros i' t' Hi; apply (H i'); now right].
  rewrite (Rsum_single nt t); [now rewrite Nat.eqb_refl|apply (H i); now left|]. intros t' _ Ne. destruct (Nat.eqb_spec t' t); [contradiction|reflexivity].
Qed.
Lemma fold_perm : forall (l l' : list R), Permutation l l' -> fold_right Rplus 0 l = fold_right Rplus 0 l'.
Proof. induction 1; cbn; lra. Qed.
Lemma parts_sum : forall d, fold_right Rplus 0 (map (fun i => part i d) (seq 0 (length slots))) = quad_sum F val d (owned_cells slots).
Proof.
  intros d. unfold part, quad_sum. clear Hwork. induction slots as [|s sl IH]; [reflexivity|]. cbn [length seq map]. rewrite <- seq_shift, map_map. cbn [fold_right nth]. rewrite IH.
  unfold owned_cells. cbn [flat_map]. destruct s as [c|]; [destruct (ic_ghost c)|]; cbn [app map fold_right]; ring.
Qed.
Lemma local_ok : forall order nt sched, tetrahedron_quadrature_formulas order = Some f -> valid_sched (length slots) nt sched ->
  integrate_local order dim nt func slots work sched = Some (arr dim (fun d => quad_sum F val d (owned_cells slots))).
Proof.
  intros order nt sched Ef [Pm Th]. unfold integrate_local. rewrite Ef. cbn [obind].
  assert (R0 : forall A n (a : A), repeat a n = arr n (fun _ => a)).
  { intros A n a. unfold arr. generalize 0%nat. induction n as [|n IH]; intros lo; [reflexivity|]. cbn. f_equal. apply IH. }
  rewrite !R0. rewrite (sched_ok nt sched (fun _ _ => 0)).
  2:{ intros i t Hi. split; [|now apply (Th i)]. apply (in_map fst) in Hi. apply (Permutation_in _ Pm) in Hi. apply in_seq in Hi. cbn in Hi. lia. }
  cbn [obind]. rewrite (add_loops nt dim (fun t d => 0 + thread_sum sched t d)).
  - f_equal. apply arr_ext. intros d _. rewrite Rplus_0_l. rewrite (Rsum_ext nt _ (fun t => thread_sum sched t d)) by (intros; ring).
    rewrite threads_sum by exact Th. rewrite <- parts_sum. rewrite <- map_map with (f := fst) (g := fun i => part i d).
    apply fold_perm. now apply Permutation_map.
  - intros t g Ht. apply add_loop. intros d g' Hd. rewrite !rd_arr by assumption. cbn [obind]. rewrite rd_arr by assumption. reflexivity.
Qed.

(** the template version *)
Variable g : point_func.
Hypothesis Hg : forall c x, length (g c x) = dim.
Lemma point_ok : forall c n, (n < q_num f)%nat -> point_at f c n = Some (phys c (pt n)).
Proof.
  intros c n Hn. destruct (table n Hn) as (L4 & P & _). unfold point_at, phys. change (repeat 0 3) with (arr 3 (fun _ : nat => 0)).
  rewrite (add_loops 4 3 (fun i k => nth i (pt n) 0 * ic_node c i k)).
  - unfold arr. cbn [seq map]. rewrite !at_bary4 by assumption. cbn [Rsum]. f_equal; (f_equal; [ring|]); (f_equal; [ring|]); (f_equal; ring).
  - intros i g' Hi. apply add_loop. intros k g2 Hk. rewrite P by assumption. cbn [obind]. rewrite rd_arr by assumption. reflexivity.
Qed.
Lemma template_ok : forall order cells, tetrahedron_quadrature_formulas order = Some f ->
  integrate_template order dim g cells = Some (arr dim (fun d => quad_sum F (fun c _ x d => nth d (g c x) 0) d (filter (fun c => negb (ic_ghost c)) cells))).
Proof.
  intros order cells Ef. unfold integrate_template. rewrite Ef. cbn [obind].
  assert (R0 : repeat 0 dim = arr dim (fun _ => 0)).
  { unfold arr. clear. generalize 0%nat. induction dim as [|n IH]; intros lo; [reflexivity|]. cbn. f_equal. apply IH. }
  rewrite R0. set (d0 := ICell true (fun _ _ => 0) 0).
  rewrite (add_loops (length cells) dim (fun e d => let c := nth e cells d0 in if ic_ghost c then 0 else ic_vol c * qsum F (fun p => nth d (g c (phys c p)) 0))).
  - f_equal. apply arr_ext. intros d _. rewrite Rplus_0_l. unfold quad_sum. clear. 
    assert (Sh : forall n g, Rsum (S n) g = g 0%nat + Rsum n (fun k => g (S k))).
    { clear. induction n as [|n IH]; intros g; [cbn; ring|]. rewrite Rsum_S, IH, Rsum_S. ring. }
    induction cells as [|c cells IH]; [reflexivity|]. cbn [length]. rewrite Sh. cbn [nth]. cbv zeta in IH |- *. rewrite IH. cbn [filter]. destruct (ic_ghost c); cbn [negb map fold_right]; ring.
  - intros e g' He. rewrite (nth_error_nth' cells d0 He : rd cells e = _). cbn [obind]. cbv zeta. set (c := nth e cells d0). destruct (ic_ghost c); [f_equal; apply arr_ext; intros; ring|].
    rewrite (add_loops (q_num f) dim (fun n d => wt n * ic_vol c * nth d (g c (phys c (pt n))) 0)).
    + f_equal. apply arr_ext. intros d _. f_equal. rewrite qsum_Rsum, HL, <- Rsum_scal. apply Rsum_ext. intros n _. unfold wt, pt. ring.
    + intros n g2 Hn. rewrite point_ok by assumption. cbn [obind]. destruct (table n Hn) as (_ & _ & W). rewrite W. cbn [obind]. apply add_loop. intros d g3 Hd.
      rewrite rd_arr by assumption. cbn [obind]. assert (Ev : rd (g c (phys c (pt n))) d = Some (nth d (g c (phys c (pt n))) 0)) by (apply nth_error_nth'; rewrite Hg; exact Hd). rewrite Ev. reflexivity.
Qed.
End Cell.
