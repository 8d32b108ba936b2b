(** Proofs about the dof maps (no repository code is modelled here). *)
From Coq Require Import FinFun.
From Verif Require Import Prelude DofModel DofSpec.

(** Induction over nested maps. *)
Lemma dmap_ind' : forall P : dmap -> Prop,
  (forall nd sy, P (Unite nd sy)) ->
  (forall k b, P b -> P (Vector k b)) ->
  (forall l, Forall P l -> P (Complex l)) ->
  forall d, P d.
Proof.
  intros P HU HV HC. fix IH 1. intros [nd sy|k b|l].
  - apply HU.
  - apply HV, IH.
  - apply HC. induction l as [|x l IHl]; constructor; [apply IH|exact IHl].
Qed.

Lemma wf_complex : forall l, wf (Complex l) <-> Forall wf l.
Proof.
  intros l. cbn [wf]. induction l as [|x l IH]; cbn [fold_right].
  - split; constructor.
  - rewrite IH. split; [intros [H1 H2]; now constructor|intros H; now inversion H].
Qed.
Lemma safe_complex : forall l, lookup_safe (Complex l) <-> Forall lookup_safe l.
Proof.
  intros l. cbn [lookup_safe]. induction l as [|x l IH]; cbn [fold_right].
  - split; constructor.
  - rewrite IH. split; [intros [H1 H2]; now constructor|intros H; now inversion H].
Qed.

(** *** Lists *)
Lemma length_flat_map' : forall {A B} (f : A -> list B) l,
  length (flat_map f l) = list_sum (map (fun x => length (f x)) l).
Proof.
  intros A B f l. induction l as [|x l IH]; [reflexivity|].
  cbn [flat_map map]. rewrite app_length, IH, list_sum_cons. reflexivity.
Qed.
Lemma list_sum_map_ext_in : forall {A} (f g : A -> nat) l, (forall x, In x l -> f x = g x) ->
  list_sum (map f l) = list_sum (map g l).
Proof. intros A f g l H. f_equal. now apply map_ext_in. Qed.
Lemma list_sum_const : forall {A} (f : A -> nat) c l, (forall x, In x l -> f x = c) ->
  list_sum (map f l) = length l * c.
Proof.
  intros A f c l. induction l as [|x l IH]; intros H; [reflexivity|].
  cbn [map length]. rewrite list_sum_cons, IH, (H x); [lia|now left|]. intros y Hy; apply H; now right.
Qed.
Lemma list_sum_map_mul : forall {A} (f : A -> nat) k l,
  list_sum (map (fun x => k * f x) l) = k * list_sum (map f l).
Proof.
  intros A f k l. induction l as [|x l IH]; [cbn; rewrite list_sum_nil; lia|].
  cbn [map]. rewrite !list_sum_cons, IH. lia.
Qed.
Lemma list_sum_map_add : forall {A} (f g : A -> nat) l,
  list_sum (map (fun x => f x + g x) l) = list_sum (map f l) + list_sum (map g l).
Proof.
  intros A f g l. induction l as [|x l IH]; [reflexivity|].
  cbn [map]. rewrite !list_sum_cons, IH. lia.
Qed.
Lemma list_sum_swap : forall {A B} (f : A -> B -> nat) l m,
  list_sum (map (fun a => list_sum (map (f a) m)) l) = list_sum (map (fun b => list_sum (map (fun a => f a b) l)) m).
Proof.
  intros A B f l m. induction l as [|x l IH].
  - cbn [map]. rewrite list_sum_nil. symmetry. rewrite (list_sum_const _ 0); [lia|]. reflexivity.
  - cbn [map]. rewrite list_sum_cons, IH, <- list_sum_map_add.
    apply list_sum_map_ext_in. intros b _. now rewrite list_sum_cons.
Qed.

Lemma seq_split : forall k c, c < k -> seq 0 k = seq 0 c ++ c :: seq (S c) (k - S c).
Proof.
  intros k c H. replace k with (c + S (k - S c)) at 1 by lia. rewrite seq_app. reflexivity.
Qed.
Lemma nth_error_flat_map : forall {A} (f : nat -> list A) k c r, c < k -> r < length (f c) ->
  nth_error (flat_map f (seq 0 k)) (list_sum (map (fun x => length (f x)) (seq 0 c)) + r) = nth_error (f c) r.
Proof.
  intros A f k c r Hc Hr. rewrite (seq_split k c Hc), flat_map_app. cbn [flat_map].
  rewrite nth_error_app2 by (rewrite length_flat_map'; lia).
  rewrite length_flat_map'.
  match goal with |- nth_error _ (?a + r - ?b) = _ => replace (a + r - b) with r by lia end.
  now rewrite nth_error_app1.
Qed.
Lemma nth_error_flat_map_unif : forall {A} (f : nat -> list A) k n c r, c < k -> r < n ->
  (forall x, x < k -> length (f x) = n) ->
  nth_error (flat_map f (seq 0 k)) (c * n + r) = nth_error (f c) r.
Proof.
  intros A f k n c r Hc Hr Hn.
  rewrite <- (nth_error_flat_map f k c r); [|assumption|now rewrite Hn].
  f_equal. f_equal. rewrite (list_sum_const _ n); [now rewrite seq_length|].
  intros x Hx. apply in_seq in Hx. apply Hn. lia.
Qed.
Lemma nth_error_map_seq : forall {A} (f : nat -> A) n r, r < n -> nth_error (map f (seq 0 n)) r = Some (f r).
Proof.
  intros A f n r H. apply map_nth_error. rewrite nth_error_nth' with (d := 0) by (rewrite seq_length; lia).
  now rewrite seq_nth.
Qed.
Lemma nth_map_seq : forall (f : nat -> nat) n r, r < n -> nth r (map f (seq 0 n)) 0 = f r.
Proof. intros f n r H. apply nth_error_nth. now apply nth_error_map_seq. Qed.

Lemma flat_map_seq_S : forall {A} (f : nat -> list A) n a,
  flat_map f (seq (S a) n) = flat_map (fun i => f (S i)) (seq a n).
Proof. intros A f n. induction n as [|n IH]; intros a; cbn; [reflexivity|]. now rewrite IH. Qed.
Lemma flat_map_ext_in : forall {A B} (f g : A -> list B) l, (forall x, In x l -> f x = g x) ->
  flat_map f l = flat_map g l.
Proof.
  intros A B f g l H. induction l as [|x l IH]; [reflexivity|].
  cbn [flat_map]. rewrite (H x) by now left. f_equal. apply IH. intros y Hy; apply H; now right.
Qed.
Lemma map_flat_map : forall {A B C} (g : B -> C) (f : A -> list B) l,
  map g (flat_map f l) = flat_map (fun x => map g (f x)) l.
Proof.
  intros. induction l as [|x l IH]; [reflexivity|]. cbn [flat_map]. now rewrite map_app, IH.
Qed.

Lemma firstn_map_seq : forall n k, firstn n (seq 0 k) = seq 0 (min n k).
Proof.
  intros n k. generalize 0 as a. revert n. induction k as [|k IH]; intros n a.
  - rewrite Nat.min_0_r. now destruct n.
  - destruct n as [|n]; [reflexivity|]. cbn [seq firstn Nat.min]. now rewrite IH.
Qed.

Lemma nth_firstn_lt : forall {A} (l : list A) v n d, n < v -> nth n (firstn v l) d = nth n l d.
Proof.
  intros A l. induction l as [|x l IH]; intros v n d H; [now rewrite firstn_nil|].
  destruct v as [|v]; [lia|]. destruct n as [|n]; [reflexivity|]. cbn. apply IH. lia.
Qed.

(** *** Tables *)
Lemma nth_prefix_diff : forall l i, i < length l -> nth (i + 1) (prefix l) 0 - nth i (prefix l) 0 = nth i l 0.
Proof.
  intros l i H. rewrite !nth_prefix by lia. rewrite Nat.add_1_r, list_sum_firstn_S by assumption. lia.
Qed.
Lemma nth_prefix_total : forall l, nth (length l) (prefix l) 0 - nth 0 (prefix l) 0 = list_sum l.
Proof.
  intros l. rewrite !nth_prefix by lia. rewrite firstn_all. cbn [firstn]. rewrite list_sum_nil. lia.
Qed.
Lemma nth_prefix_0 : forall l, nth 0 (prefix l) 0 = 0.
Proof. intros l. rewrite nth_prefix by lia. reflexivity. Qed.

Lemma length_tetCounts : forall nd, length (tetCounts nd) = 6.
Proof. reflexivity. Qed.
Lemma nth_tetCounts : forall nd t, t < 6 -> nth t (tetCounts nd) 0 = tet_elems t * nth t nd 0.
Proof. intros nd t H. unfold tetCounts. now rewrite nth_map_seq. Qed.

Lemma num_dof_cnt : forall d t, wf d -> t < 6 -> num_dof d t = cnt d t.
Proof.
  induction d as [nd sy|k b IH|l IH] using dmap_ind'; intros t Hwf Ht.
  - destruct Hwf as [Hl _]. cbn [num_dof cnt]. unfold shiftDof. now rewrite nth_prefix_diff by lia.
  - cbn [num_dof cnt]. now rewrite IH.
  - cbn [num_dof cnt].
    replace (length l) with (length (map (fun b => num_dof b t) l)) by apply map_length.
    rewrite nth_prefix_total. apply list_sum_map_ext_in. intros x Hx.
    apply wf_complex in Hwf. rewrite Forall_forall in IH, Hwf. now apply IH; auto.
Qed.
Lemma num_dof_tet_t_cnt : forall d t, wf d -> t < 6 -> num_dof_tet_t d t = tet_elems t * cnt d t.
Proof.
  induction d as [nd sy|k b IH|l IH] using dmap_ind'; intros t Hwf Ht.
  - destruct Hwf as [Hl _]. cbn [num_dof_tet_t cnt]. unfold shiftTetDof.
    rewrite nth_prefix_diff by (rewrite length_tetCounts; lia). now apply nth_tetCounts.
  - cbn [num_dof_tet_t cnt]. rewrite IH by assumption. lia.
  - cbn [num_dof_tet_t cnt].
    replace (length l) with (length (map (fun b => num_dof_tet_t b t) l)) by apply map_length.
    rewrite nth_prefix_total, <- list_sum_map_mul. apply list_sum_map_ext_in. intros x Hx.
    apply wf_complex in Hwf. rewrite Forall_forall in IH, Hwf. now apply IH; auto.
Qed.
Lemma num_dof_tet_cnt : forall d, wf d -> num_dof_tet d = list_sum (map (fun t => tet_elems t * cnt d t) (seq 0 6)).
Proof.
  induction d as [nd sy|k b IH|l IH] using dmap_ind'; intros Hwf.
  - cbn [num_dof_tet]. unfold ngeom, shiftTetDof.
    replace 6 with (length (tetCounts nd)) at 1 by reflexivity. rewrite nth_prefix_total. reflexivity.
  - cbn [num_dof_tet cnt]. rewrite IH by assumption. rewrite <- list_sum_map_mul.
    apply list_sum_map_ext_in. intros; lia.
  - cbn [num_dof_tet]. apply list_sum_map_ext_in. intros t Ht. apply in_seq in Ht.
    apply num_dof_tet_t_cnt; [assumption|unfold ngeom in *; lia].
Qed.
Lemma num_dof_tet_complex : forall l, wf (Complex l) -> num_dof_tet (Complex l) = list_sum (map num_dof_tet l).
Proof.
  intros l Hwf. rewrite num_dof_tet_cnt by assumption. cbn [cnt].
  rewrite (list_sum_map_ext_in _ (fun t => list_sum (map (fun b => tet_elems t * cnt b t) l)))
    by (intros; now rewrite list_sum_map_mul).
  rewrite list_sum_swap. apply list_sum_map_ext_in. intros b Hb.
  symmetry. apply num_dof_tet_cnt. apply wf_complex in Hwf. rewrite Forall_forall in Hwf. auto.
Qed.

(** *** Layout *)
Lemma length_shift_pos : forall f l, length (shift_pos f l) = length l.
Proof. intros; apply map_length. Qed.
Lemma shift_pos_ext : forall f g l, (forall t, f t = g t) -> shift_pos f l = shift_pos g l.
Proof. intros f g l H. apply map_ext. intros x. now rewrite H. Qed.

Definition go_layout := fix go (l : list dmap) (acc : nat -> nat) : list dof :=
  match l with
  | [] => []
  | b :: r => shift_pos acc (layout b) ++ go r (fun t => acc t + cnt b t)
  end.
Definition comp_shift (l : list dmap) (v t : nat) : nat := list_sum (firstn v (map (fun b => cnt b t) l)).
Definition comp_block (l : list dmap) (v : nat) : list dof :=
  shift_pos (comp_shift l v) (layout (nth v l (Complex []))).
Lemma go_layout_eq : forall l acc, go_layout l acc =
  flat_map (fun v => shift_pos (fun t => acc t + comp_shift l v t) (layout (nth v l (Complex [])))) (seq 0 (length l)).
Proof.
  induction l as [|b r IH]; intros acc; [reflexivity|].
  cbn [go_layout length seq flat_map nth]. f_equal.
  - apply shift_pos_ext. intros t. unfold comp_shift. cbn [firstn]. rewrite list_sum_nil. lia.
  - rewrite IH, flat_map_seq_S. apply flat_map_ext_in. intros v _. apply shift_pos_ext.
    intros t. unfold comp_shift. cbn [map firstn]. rewrite list_sum_cons. lia.
Qed.
Lemma layout_complex : forall l, layout (Complex l) = flat_map (comp_block l) (seq 0 (length l)).
Proof. intros l. change (layout (Complex l)) with (go_layout l (fun _ => 0)). rewrite go_layout_eq. reflexivity. Qed.

Lemma length_layout : forall d, length (layout d) = list_sum (map (fun t => tet_elems t * cnt d t) (seq 0 6)).
Proof.
  induction d as [nd sy|k b IH|l IH] using dmap_ind'.
  - cbn [layout]. rewrite length_flat_map'. apply list_sum_map_ext_in. intros t _.
    rewrite length_flat_map', (list_sum_const _ (nth t nd 0)); [now rewrite seq_length|].
    intros e _. now rewrite map_length, seq_length.
  - cbn [layout]. rewrite length_flat_map', (list_sum_const _ (length (layout b))).
    + rewrite seq_length, IH, <- list_sum_map_mul. apply list_sum_map_ext_in. intros; cbn [cnt]; lia.
    + intros; apply length_shift_pos.
  - rewrite layout_complex, length_flat_map'.
    rewrite (list_sum_map_ext_in _ (fun v => length (layout (nth v l (Complex []))))) by (intros; apply length_shift_pos).
    transitivity (list_sum (map (fun b => length (layout b)) l)).
    + f_equal. clear IH. induction l as [|x l IHl]; [reflexivity|].
      cbn [length seq map nth]. f_equal. rewrite <- seq_shift, map_map. exact IHl.
    + cbn [cnt].
      rewrite (list_sum_map_ext_in (fun t => tet_elems t * _) (fun t => list_sum (map (fun b => tet_elems t * cnt b t) l)))
        by (intros; now rewrite list_sum_map_mul).
      rewrite list_sum_swap. apply list_sum_map_ext_in. rewrite Forall_forall in IH. auto.
Qed.
Lemma length_layout_num : forall d, wf d -> num_dof_tet d = length (layout d).
Proof. intros d H. now rewrite num_dof_tet_cnt, length_layout. Qed.

(** *** Membership *)

Lemma in_shift_pos : forall f l t e p, In (t, e, p) (map locus (shift_pos f l)) <->
  exists q, p = f t + q /\ In (t, e, q) (map locus l).
Proof.
  intros f l t e p. unfold shift_pos. rewrite map_map. split.
  - intros H. apply in_map_iff in H. destruct H as (x & E & Hx). unfold locus in E; cbn in E.
    injection E as <- <- <-. exists (d_pos x). split; [reflexivity|].
    change (d_type x, d_elem x, d_pos x) with (locus x). now apply in_map.
  - intros (q & -> & H). apply in_map_iff in H. destruct H as (x & E & Hx). unfold locus in E.
    injection E as <- <- <-. apply in_map_iff. exists x. split; [reflexivity|assumption].
Qed.

Lemma comp_shift_total : forall l t, comp_shift l (length l) t = list_sum (map (fun b => cnt b t) l).
Proof. intros l t. unfold comp_shift. apply firstn_all_sum. now rewrite map_length. Qed.
Lemma comp_shift_S : forall l v t, v < length l ->
  comp_shift l (S v) t = comp_shift l v t + cnt (nth v l (Complex [])) t.
Proof.
  intros l v t H. unfold comp_shift. rewrite list_sum_firstn_S by now rewrite map_length.
  f_equal. change 0 with (cnt (Complex []) t). exact (map_nth (fun b => cnt b t) l (Complex []) v).
Qed.
Lemma comp_find : forall l t p, p < list_sum (map (fun b => cnt b t) l) ->
  exists v, v < length l /\ comp_shift l v t <= p < comp_shift l v t + cnt (nth v l (Complex [])) t.
Proof.
  intros l t p H. destruct (upper_bound_prefix _ _ H) as (v & _ & Hv & H1 & H2).
  rewrite map_length in Hv. exists v. split; [assumption|]. unfold comp_shift.
  change 0 with (cnt (Complex []) t) in H2.
  rewrite (map_nth (fun b => cnt b t) l (Complex []) v) in H2. lia.
Qed.
Lemma comp_shift_le : forall l v t, comp_shift l v t <= list_sum (map (fun b => cnt b t) l).
Proof.
  intros l v t. rewrite <- comp_shift_total. unfold comp_shift.
  destruct (Nat.le_gt_cases v (length l)).
  - now apply list_sum_firstn_le.
  - rewrite !firstn_all_sum; rewrite ?map_length; lia.
Qed.

Lemma in_loci : forall d t e p, In (t, e, p) (loci d) <-> t < 6 /\ e < tet_elems t /\ p < cnt d t.
Proof.
  induction d as [nd sy|k b IH|l IH] using dmap_ind'; intros t e p; unfold loci in *.
  - cbn [layout cnt]. rewrite in_map_iff. split.
    + intros (x & E & Hx). apply in_flat_map in Hx. destruct Hx as (t' & Ht & Hx).
      apply in_flat_map in Hx. destruct Hx as (e' & He & Hx). apply in_map_iff in Hx.
      destruct Hx as (p' & <- & Hp). unfold locus in E; cbn in E. injection E as <- <- <-.
      apply in_seq in Ht, He, Hp. unfold ngeom in *. lia.
    + intros (Ht & He & Hp). exists (Dof t e p (sym_at sy t p)). split; [reflexivity|].
      apply in_flat_map. exists t. split; [apply in_seq; unfold ngeom; lia|].
      apply in_flat_map. exists e. split; [apply in_seq; lia|].
      apply in_map_iff. exists p. split; [reflexivity|apply in_seq; lia].
  - cbn [layout cnt]. rewrite map_flat_map, in_flat_map. split.
    + intros (c & Hc & Hx). apply in_seq in Hc. apply in_shift_pos in Hx.
      destruct Hx as (q & -> & Hq). apply IH in Hq. destruct Hq as (H1 & H2 & H3). repeat split; [assumption..|]. nia.
    + intros (Ht & He & Hp). assert (Hc : cnt b t <> 0) by (intros E; rewrite E in Hp; lia).
      exists (p / cnt b t). split; [apply in_seq; split; [lia|]|].
      * cbn. apply Nat.div_lt_upper_bound; [assumption|]. lia.
      * apply in_shift_pos. exists (p mod cnt b t). split.
        -- pose proof (Nat.div_mod p (cnt b t) Hc). lia.
        -- apply IH. repeat split; [assumption..|]. now apply Nat.mod_upper_bound.
  - rewrite layout_complex, map_flat_map, in_flat_map. cbn [cnt]. rewrite Forall_forall in IH. split.
    + intros (v & Hv & Hx). apply in_seq in Hv. unfold comp_block in Hx. apply in_shift_pos in Hx.
      destruct Hx as (q & -> & Hq). apply IH in Hq; [|apply nth_In; lia].
      destruct Hq as (H1 & H2 & H3). repeat split; [assumption..|].
      pose proof (comp_shift_le l (S v) t) as Hle. rewrite comp_shift_S in Hle by lia. lia.
    + intros (Ht & He & Hp). destruct (comp_find l t p Hp) as (v & Hv & H1 & H2).
      exists v. split; [apply in_seq; lia|]. unfold comp_block. apply in_shift_pos.
      exists (p - comp_shift l v t). split; [lia|]. apply IH; [apply nth_In; lia|]. repeat split; [assumption..|lia].
Qed.

Lemma NoDup_flat_map : forall {A B} (f : A -> list B) l,
  NoDup l -> (forall x, In x l -> NoDup (f x)) ->
  (forall x y b, In x l -> In y l -> In b (f x) -> In b (f y) -> x = y) -> NoDup (flat_map f l).
Proof.
  intros A B f l Hl. induction Hl as [|x l Hx Hl IH]; intros H1 H2; [constructor|].
  cbn [flat_map].
  assert (Happ : forall (a b : list B), NoDup a -> NoDup b -> (forall z, In z a -> In z b -> False) -> NoDup (a ++ b)).
  { clear. intros a b Ha. induction Ha as [|z a Hz Ha IH]; intros Hb Hd; [assumption|].
    cbn. constructor.
    - intros H. apply in_app_or in H. destruct H; [contradiction|]. apply (Hd z); [now left|assumption].
    - apply IH; [assumption|]. intros y Hy. apply Hd. now right. }
  apply Happ.
  - apply H1. now left.
  - apply IH; [intros; apply H1; now right|]. intros a b c Ha Hb. apply H2; now right.
  - intros z Hz1 Hz2. apply in_flat_map in Hz2. destruct Hz2 as (y & Hy & Hz2).
    apply Hx. rewrite (H2 x y z); [assumption|now left|now right|assumption..].
Qed.

Lemma NoDup_loci_unite : forall nd sy, NoDup (loci (Unite nd sy)).
Proof.
  intros nd sy. unfold loci. cbn [layout]. rewrite map_flat_map. apply NoDup_flat_map.
  - apply seq_NoDup.
  - intros t _. rewrite map_flat_map. apply NoDup_flat_map.
    + apply seq_NoDup.
    + intros e _. rewrite map_map. unfold locus; cbn.
      apply Injective_map_NoDup; [|apply seq_NoDup]. intros p q E. now injection E.
    + intros e e' x _ _ H1 H2. rewrite map_map in H1, H2. apply in_map_iff in H1, H2.
      destruct H1 as (p & <- & _), H2 as (q & E & _). unfold locus in E; cbn in E. now injection E.
  - intros t t' x _ _ H1 H2. rewrite map_flat_map in H1, H2. apply in_flat_map in H1, H2.
    destruct H1 as (e & _ & H1), H2 as (e' & _ & H2). rewrite map_map in H1, H2.
    apply in_map_iff in H1, H2. destruct H1 as (p & <- & _), H2 as (q & E & _). unfold locus in E; cbn in E. now injection E.
Qed.
Lemma NoDup_loci : forall d, NoDup (loci d).
Proof.
  intros d. set (u := Unite (map (cnt d) (seq 0 6)) None).
  assert (Hcnt : forall t, t < 6 -> cnt u t = cnt d t) by (intros t Ht; unfold u; cbn [cnt]; now rewrite nth_map_seq).
  apply NoDup_incl_NoDup with (l := loci u).
  - apply NoDup_loci_unite.
  - unfold loci. rewrite !map_length, !length_layout. apply Nat.eq_le_incl. apply list_sum_map_ext_in.
    intros t Ht. apply in_seq in Ht. now rewrite Hcnt by lia.
  - intros [[t e] p] H. apply in_loci in H. apply in_loci. destruct H as (H1 & H2 & H3).
    rewrite Hcnt in H3 by assumption. auto.
Qed.

(** *** Symmetry classes *)
Section SymLoop.
  Variables (s : list nat) (t : nat).
  Let vol c := nth (nth t sym_offs 0 + c) sym_vols 0.
  Let mul c := nth (nth t sym_offs 0 + c) s 0.
  Lemma loc_sym_loop_spec : forall p n cls tot v0, tot <= p ->
    p < tot + list_sum (map (fun c => vol c * mul c) (seq cls n)) ->
    exists c, cls <= c < cls + n /\
      loc_sym_loop s t p n cls tot v0 = (S c, tot + list_sum (map (fun c => vol c * mul c) (seq cls (S c - cls))), vol c) /\
      tot + list_sum (map (fun c => vol c * mul c) (seq cls (c - cls))) <= p <
      tot + list_sum (map (fun c => vol c * mul c) (seq cls (c - cls))) + vol c * mul c.
  Proof.
    intros p n. induction n as [|n IH]; intros cls tot v0 H1 H2; [cbn in H2; rewrite list_sum_nil in H2; lia|].
    cbn [seq map] in H2. rewrite list_sum_cons in H2. cbn [loc_sym_loop].
    destruct (Nat.leb_spec tot p) as [_|?]; [|lia].
    fold (vol cls). fold (mul cls).
    destruct (Nat.lt_ge_cases p (tot + vol cls * mul cls)) as [Hlt|Hge].
    - exists cls. split; [lia|]. rewrite Nat.sub_diag. replace (S cls - cls) with 1 by lia.
      cbn [seq map]. autorewrite with lsum. split; [|lia].
      rewrite Nat.add_0_r.
      destruct n as [|n]; [reflexivity|]. cbn [loc_sym_loop].
      destruct (Nat.leb_spec (tot + vol cls * mul cls) p); [lia|]. reflexivity.
    - destruct (IH (S cls) (tot + vol cls * mul cls) (vol cls)) as (c & Hc & E & Hb); [lia|lia|].
      exists c. split; [lia|].
      replace (S c - cls) with (S (S c - S cls)) by lia. replace (c - cls) with (S (c - S cls)) by lia.
      cbn [seq map]. rewrite !list_sum_cons. split; [|lia]. rewrite E. f_equal. f_equal. lia.
  Qed.
End SymLoop.

Lemma nth_error_concat_repeat : forall {A} (x : list A) m q, q < m * length x ->
  nth_error (concat (repeat x m)) q = nth_error x (q mod length x).
Proof.
  intros A x m. induction m as [|m IH]; intros q Hq; [cbn in Hq; lia|].
  cbn [repeat concat]. assert (length x <> 0) by (intros E; rewrite E in Hq; lia).
  destruct (Nat.lt_ge_cases q (length x)) as [Hlt|Hge].
  - rewrite nth_error_app1 by assumption. now rewrite Nat.mod_small.
  - rewrite nth_error_app2 by assumption. rewrite IH by lia. f_equal.
    replace q with (q - length x + 1 * length x) at 2 by lia. now rewrite Nat.mod_add.
Qed.
Lemma length_concat_repeat : forall {A} (x : list A) m, length (concat (repeat x m)) = m * length x.
Proof. intros A x m. induction m as [|m IH]; [reflexivity|]. cbn [repeat concat]. rewrite app_length, IH. lia. Qed.

Lemma length_sym_list : forall s t, length (sym_list s t) =
  list_sum (map (fun c => nth (nth t sym_offs 0 + c) sym_vols 0 * nth (nth t sym_offs 0 + c) s 0)
                (seq 0 (nth (t + 1) sym_offs 0 - nth t sym_offs 0))).
Proof.
  intros s t. unfold sym_list. rewrite length_flat_map'. apply list_sum_map_ext_in. intros c _.
  rewrite length_concat_repeat, map_length, seq_length. lia.
Qed.
Lemma length_sym_counts : forall s t, length s = 16 -> t < 6 -> length (sym_list s t) = nth t (counts_of_sym s) 0.
Proof.
  intros s t _ Ht. rewrite length_sym_list.
  do 6 (destruct t as [|t]; [cbn -[Nat.mul]; autorewrite with lsum; lia|]). lia.
Qed.
Lemma loc_sym_at : forall s t p, length s = 16 -> t < 6 -> p < nth t (counts_of_sym s) 0 ->
  loc_sym (Some s) t p = sym_at (Some s) t p.
Proof.
  intros s t p Hs Ht Hp. rewrite <- length_sym_counts in Hp by assumption.
  unfold loc_sym, sym_at. set (nc := nth (t + 1) sym_offs 0 - nth t sym_offs 0).
  assert (Hp' := Hp). rewrite length_sym_list in Hp'. fold nc in Hp'.
  destruct (loc_sym_loop_spec s t p nc 0 0 0) as (c & Hc & E & Hb); [lia|lia|].
  rewrite E. cbn [fst snd]. rewrite !Nat.sub_0_r in *. cbn [Nat.add] in E, Hb. rewrite !Nat.add_0_l in *.
  replace (S c - 1) with c by lia.
  rewrite seq_S, map_app, list_sum_app. cbn [map Nat.add]. autorewrite with lsum.
  set (w := fun c => nth (nth t sym_offs 0 + c) sym_vols 0 * nth (nth t sym_offs 0 + c) s 0) in *.
  change (nth (nth t sym_offs 0 + c) sym_vols 0 * nth (nth t sym_offs 0 + c) s 0) with (w c).
  replace (list_sum (map w (seq 0 c)) + (w c + 0) - w c) with (list_sum (map w (seq 0 c))) by lia.
  set (B := list_sum (map w (seq 0 c))) in *.
  set (f := fun c => let i := nth t sym_offs 0 + c in
              concat (repeat (map (fun j => (c, j)) (seq 0 (nth i sym_vols 0))) (nth i s 0))).
  assert (HB : B = list_sum (map (fun x => length (f x)) (seq 0 c))).
  { unfold B. apply list_sum_map_ext_in. intros x _. unfold f, w. cbn zeta.
    rewrite length_concat_repeat, map_length, seq_length. lia. }
  assert (Hlen : length (f c) = w c).
  { unfold f, w. cbn zeta. rewrite length_concat_repeat, map_length, seq_length. lia. }
  replace p with (B + (p - B)) at 2 by lia. unfold sym_list. fold nc. fold f.
  rewrite HB at 2. rewrite (nth_error_flat_map f nc c (p - B)); [|lia|rewrite Hlen; unfold w; lia].
  unfold f. cbn zeta. rewrite nth_error_concat_repeat.
  - rewrite map_length, seq_length. rewrite nth_error_map_seq; [reflexivity|].
    apply Nat.mod_upper_bound. intros E0. unfold w in Hb. rewrite E0 in Hb. lia.
  - rewrite map_length, seq_length. unfold w in Hb. lia.
Qed.

(** *** LocalOrderOnTet enumerates the layout *)
Definition lo_of (i : nat) (x : dof) : LocalOrder := LO i (d_type x) (d_elem x) (d_pos x) (d_sym x).

Lemma guard_true : forall {B} b (f : unit -> option B), b = true -> obind (guard b) f = f tt.
Proof. intros B b f ->. reflexivity. Qed.
Lemma guard_false : forall {B} b (f : unit -> option B), b = false -> obind (guard b) f = None.
Proof. intros B b f ->. reflexivity. Qed.

Lemma option_map_None : forall {A B} (f : A -> B) l i, length l <= i -> option_map f (nth_error l i) = None.
Proof. intros A B f l i H. apply nth_error_None in H. now rewrite H. Qed.

Lemma local_order_layout : forall d, wf d -> forall i,
  local_order d i = option_map (lo_of i) (nth_error (layout d) i).
Proof.
  induction d as [nd sy|k b IH|l IH] using dmap_ind'; intros Hwf i.
  - cbn [local_order]. assert (Hn := length_layout_num _ Hwf).
    destruct (Nat.ltb_spec i (num_dof_tet (Unite nd sy))) as [Hi|Hi];
      [|rewrite guard_false by reflexivity; rewrite option_map_None by lia; reflexivity].
    rewrite guard_true by reflexivity. rewrite num_dof_tet_cnt in Hi by assumption.
    change (list_sum (map (fun t => tet_elems t * cnt (Unite nd sy) t) (seq 0 6))) with (list_sum (tetCounts nd)) in Hi.
    destruct Hwf as [Hl Hsy].
    destruct (upper_bound_prefix _ _ Hi) as (v & E & Hv & H1 & H2).
    unfold shiftTetDof. rewrite E. cbn zeta. replace (S v - 1) with v by lia.
    rewrite length_tetCounts in Hv. rewrite nth_tetCounts in H2 by assumption.
    unfold shiftDof. rewrite nth_prefix_diff by lia.
    assert (Hc : nth v nd 0 <> 0) by (intros E0; rewrite E0 in H2; lia).
    rewrite guard_true by (apply Nat.ltb_lt; lia).
    rewrite nth_prefix by (rewrite length_tetCounts; lia).
    set (B := list_sum (firstn v (tetCounts nd))) in *. set (c := nth v nd 0) in *.
    set (q := (i - B) / c). set (r := (i - B) mod c).
    assert (Hdm : i - B = c * q + r) by (apply Nat.div_mod; assumption).
    assert (Hr : r < c) by (apply Nat.mod_upper_bound; assumption).
    assert (Hq : q < tet_elems v) by (apply Nat.div_lt_upper_bound; lia).
    set (g := fun t => flat_map (fun e => map (fun p => Dof t e p (sym_at sy t p)) (seq 0 (nth t nd 0))) (seq 0 (tet_elems t))).
    assert (HB : B = list_sum (map (fun x => length (g x)) (seq 0 v))).
    { unfold B, tetCounts. rewrite firstn_map, firstn_map_seq. unfold ngeom. replace (min v 6) with v by lia.
      apply list_sum_map_ext_in. intros t _. unfold g. rewrite length_flat_map', (list_sum_const _ (nth t nd 0)); [now rewrite seq_length|].
      intros e _. now rewrite map_length, seq_length. }
    assert (Hlen : length (g v) = tet_elems v * c).
    { unfold g. rewrite length_flat_map', (list_sum_const _ c); [now rewrite seq_length|].
      intros e _. now rewrite map_length, seq_length. }
    assert (Hnth : nth_error (layout (Unite nd sy)) i = Some (Dof v q r (sym_at sy v r))).
    { cbn [layout]. fold g. replace i with (B + (q * c + r)) by lia. rewrite HB.
      rewrite nth_error_flat_map; [|unfold ngeom; lia|rewrite Hlen; nia].
      unfold g. fold c. rewrite (nth_error_flat_map_unif _ _ c); [|lia|lia|].
      - now rewrite nth_error_map_seq.
      - intros x _. now rewrite map_length, seq_length. }
    rewrite Hnth. cbn [option_map]. unfold lo_of; cbn [d_type d_elem d_pos d_sym].
    do 2 f_equal. destruct sy as [s|]; [|reflexivity]. destruct Hsy as [Hs Hnd].
    apply loc_sym_at; [assumption..|]. rewrite <- Hnd. exact Hr.
  - cbn [local_order]. assert (Hwf' : wf b) by exact Hwf. assert (Hn := length_layout_num _ Hwf).
    destruct (Nat.ltb_spec i (num_dof_tet (Vector k b))) as [Hi|Hi];
      [|rewrite guard_false by reflexivity; rewrite option_map_None by lia; reflexivity].
    rewrite guard_true by reflexivity. cbn [num_dof_tet] in Hi. set (n := num_dof_tet b) in *.
    assert (n <> 0) by (intros E; rewrite E in Hi; lia).
    rewrite guard_true by (apply Nat.ltb_lt; lia). rewrite IH by assumption.
    set (q := i / n). set (r := i mod n).
    assert (Hdm : i = n * q + r) by (apply Nat.div_mod; assumption).
    assert (Hr : r < n) by (apply Nat.mod_upper_bound; assumption).
    assert (Hq : q < k) by (apply Nat.div_lt_upper_bound; lia).
    cbn [layout]. replace i with (q * n + r) at 2 by lia.
    assert (Hln : length (layout b) = n) by (symmetry; now apply length_layout_num).
    rewrite (nth_error_flat_map_unif _ _ n); [|assumption|assumption|intros; now rewrite length_shift_pos].
    unfold shift_pos. rewrite nth_error_map.
    destruct (nth_error (layout b) r) as [x|] eqn:Ex; [|reflexivity]. cbn [option_map obind].
    unfold lo_of; cbn [lo_type lo_elem lo_leid lo_sym d_type d_elem d_pos d_sym]. do 2 f_equal.
    rewrite num_dof_cnt; [lia|assumption|].
    apply nth_error_In, (in_map locus) in Ex. apply in_loci in Ex. apply Ex.
  - cbn [local_order]. assert (Hn := length_layout_num _ Hwf).
    destruct (Nat.ltb_spec i (num_dof_tet (Complex l))) as [Hi|Hi];
      [|rewrite guard_false by reflexivity; rewrite option_map_None by lia; reflexivity].
    rewrite guard_true by reflexivity. rewrite num_dof_tet_complex in Hi by assumption.
    apply wf_complex in Hwf. rewrite Forall_forall in Hwf, IH.
    destruct (upper_bound_prefix _ _ Hi) as (v & E & Hv & H1 & H2).
    rewrite E. cbn zeta. replace (S v - 1) with v by lia. rewrite nth_prefix by lia.
    rewrite map_length in Hv. set (b := nth v l (Complex [])).
    assert (Hb : In b l) by (apply nth_In; assumption).
    rewrite nth_error_map. rewrite (nth_error_nth' l (Complex [])) by assumption. fold b. cbn [option_map obind].
    set (B := list_sum (firstn v (map num_dof_tet l))) in *.
    rewrite IH by auto.
    replace (nth v (map num_dof_tet l) 0) with (num_dof_tet b) in H2
      by (change 0 with (num_dof_tet (Complex [])) ; symmetry; apply map_nth).
    assert (HB : B = list_sum (map (fun x => length (comp_block l x)) (seq 0 v))).
    { unfold B. clear - Hv Hwf. f_equal.
      apply nth_ext with (d := 0) (d' := 0).
      - rewrite firstn_length, !map_length, seq_length. lia.
      - intros n Hn. rewrite firstn_length, map_length in Hn.
        rewrite (nth_map_seq (fun x => length (comp_block l x))) by lia.
        unfold comp_block. rewrite length_shift_pos, <- length_layout_num.
        + rewrite nth_firstn_lt by lia. change 0 with (num_dof_tet (Complex [])). apply map_nth.
        + apply Hwf, nth_In. lia. }
    rewrite layout_complex.
    assert (Hnth : nth_error (flat_map (comp_block l) (seq 0 (length l))) i = nth_error (comp_block l v) (i - B)).
    { replace i with (B + (i - B)) at 1 by lia. rewrite HB at 1.
      apply nth_error_flat_map; [assumption|].
      unfold comp_block. rewrite length_shift_pos. fold b. rewrite <- length_layout_num by auto. lia. }
    rewrite Hnth.
    unfold comp_block. fold b. unfold shift_pos. rewrite nth_error_map.
    destruct (nth_error (layout b) (i - B)) as [x|] eqn:Ex; [|reflexivity]. cbn [option_map obind].
    unfold lo_of; cbn [lo_type lo_elem lo_leid lo_sym d_type d_elem d_pos d_sym]. do 2 f_equal.
    apply nth_error_In, (in_map locus) in Ex. apply in_loci in Ex. destruct Ex as (Ht & _ & _).
    rewrite nth_prefix by (rewrite map_length; lia). unfold comp_shift.
    rewrite Nat.add_comm. f_equal. f_equal. f_equal. apply map_ext_in. intros y Hy. apply num_dof_cnt; auto.
Qed.
