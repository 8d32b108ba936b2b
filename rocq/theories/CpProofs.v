From Coq Require Import Sorted.
From Verif Require Import Prelude DofModel DofSpec DofProofs EnumModel EnumSpec EnumProofs EnumProofs2 GwModel GwSpec GwProofs GwProofs2 GwProofs3 CpModel CpSpec.

(** *** loops of copies *)
Lemma each_app : forall X M (A B : list X) (f : X -> M -> option M) m, each (A ++ B) f m = do m <- each A f m; each B f m.
Proof. intros X M A B f. induction A as [|a A IH]; intros m; [reflexivity|]. cbn. destruct (f a m); [apply IH|reflexivity]. Qed.
Lemma each_ext : forall X M (L : list X) (f g : X -> M -> option M) m, (forall x m, In x L -> f x m = g x m) -> each L f m = each L g m.
Proof. intros X M L f g. induction L as [|a L IH]; intros m H; [reflexivity|]. cbn. rewrite (H a) by now left. destruct (g a m); [|reflexivity]. cbn. apply IH. intros x m' Hx. apply H. now right. Qed.
Lemma each_map : forall X Y M (h : X -> Y) (L : list X) (f : Y -> M -> option M) m, each (map h L) f m = each L (fun x => f (h x)) m.
Proof. intros X Y M h L f. induction L as [|a L IH]; intros m; [reflexivity|]. cbn. destruct (f (h a) m); [apply IH|reflexivity]. Qed.
Lemma each_flat : forall X Y M (g : X -> list Y) (L : list X) (f : Y -> M -> option M) m, each (flat_map g L) f m = each L (fun x => each (g x) f) m.
Proof. intros X Y M g L f. induction L as [|a L IH]; intros m; [reflexivity|]. cbn [flat_map each]. rewrite each_app. destruct (each (g a) f m); [apply IH|reflexivity]. Qed.
Lemma copy_ok : forall A (from to : mem A) s d, from s <> None -> to d <> None -> exists to', copy from s to d = Some to' /\ to' d = from s /\ (forall b, b <> d -> to' b = to b).
Proof.
  intros A from to s d Hs Hd. unfold copy, mset. destruct (from s) as [v|]; [|congruence]. destruct (to d) as [w|]; [|congruence]. cbn [obind]. eexists. split; [reflexivity|]. split.
  - now destruct (list_eq_dec Nat.eq_dec d d).
  - intros b Hb. now destruct (list_eq_dec Nat.eq_dec b d).
Qed.
Lemma each_copy : forall X A (from : mem A) (src dst : X -> list nat) L to, (forall x, In x L -> from (src x) <> None) -> (forall x, In x L -> to (dst x) <> None) ->
  (forall x y, In x L -> In y L -> dst x = dst y -> src x = src y) ->
  exists to', each L (fun x to => copy from (src x) to (dst x)) to = Some to' /\ (forall x, In x L -> to' (dst x) = from (src x)) /\ (forall b, (forall x, In x L -> dst x <> b) -> to' b = to b).
Proof.
  intros X A from src dst. induction L as [|a L IH]; intros to H1 H2 H3.
  - exists to. split; [reflexivity|]. split; [intros x []|reflexivity].
  - cbn [each]. destruct (copy_ok A from to (src a) (dst a)) as (t1 & E1 & V1 & K1); [apply H1; now left|apply H2; now left|]. rewrite E1. cbn [obind].
    destruct (IH t1) as (t2 & E2 & V2 & K2).
    + intros x Hx. apply H1. now right.
    + intros x Hx. destruct (list_eq_dec Nat.eq_dec (dst x) (dst a)) as [E|E]; [rewrite E, V1; apply H1; now left|]. rewrite K1 by assumption. apply H2. now right.
    + intros x y Hx Hy. apply H3; now right.
    + exists t2. split; [exact E2|]. split.
      * intros x [<-|Hx]; [|now apply V2]. destruct (in_dec (list_eq_dec Nat.eq_dec) (dst a) (map dst L)) as [Hi|Hi].
        -- apply in_map_iff in Hi. destruct Hi as (y & Ey & Hy). rewrite <- Ey, (V2 y Hy). f_equal. exact (H3 y a (or_intror Hy) (or_introl eq_refl) Ey).
        -- rewrite K2; [exact V1|]. intros y Hy E. apply Hi. rewrite <- E. now apply in_map.
      * intros b Hb. rewrite K2 by (intros y Hy; apply Hb; now right). apply K1. intros ->. now apply (Hb a (or_introl eq_refl)).
Qed.
(** the loop visits the dofs in P, each with its two cells *)
Lemma copies : forall X A (P : place -> Prop) (c1 c2 : place -> list nat -> Prop) (from to : mem A) (L : list X) (src dst : X -> list nat) f,
  (forall x to, In x L -> f x to = copy from (src x) to (dst x)) ->
  (forall y, In y L -> exists x, P x /\ c1 x (src y) /\ c2 x (dst y)) ->
  (forall x, P x -> exists y, In y L /\ c1 x (src y) /\ c2 x (dst y)) ->
  (forall x a a', P x -> c1 x a -> c1 x a' -> a = a') -> (forall x a a', P x -> c2 x a -> c2 x a' -> a = a') -> (forall x y a, P x -> P y -> c2 x a -> c2 y a -> x = y) ->
  room P c1 from -> room P c2 to -> exists to', each L f to = Some to' /\ copied P c1 c2 from to to'.
Proof.
  intros X A P c1 c2 from to L src dst f Hf HL HP U1 U2 I2 R1 R2. rewrite (each_ext _ _ _ _ (fun x to => copy from (src x) to (dst x))) by (intros; now apply Hf).
  destruct (each_copy X A from src dst L to) as (to' & E & V & K).
  - intros y Hy. destruct (HL y Hy) as (x & Px & C1 & C2). now apply (R1 x).
  - intros y Hy. destruct (HL y Hy) as (x & Px & C1 & C2). now apply (R2 x).
  - intros y z Hy Hz Ed. destruct (HL y Hy) as (x & Px & C1 & C2), (HL z Hz) as (x' & Px' & C1' & C2'). rewrite Ed in C2. rewrite (I2 x x' _ Px Px' C2 C2') in C1. exact (U1 x' _ _ Px' C1 C1').
  - exists to'. split; [exact E|]. split.
    + intros x a b Px C1 C2. destruct (HP x Px) as (y & Hy & D1 & D2). rewrite (U1 x a _ Px C1 D1), (U2 x b _ Px C2 D2). now apply V.
    + intros b Hb. apply K. intros y Hy Eb. destruct (HL y Hy) as (x & Px & _ & C2). rewrite Eb in C2. exact (Hb x Px C2).
Qed.

(** *** cells *)
Lemma desc_dim : forall l m x, dof_of l m x -> valid_desc l (p_desc x) /\ geom_dim (x_type (p_desc x)) = p_dim x /\ p_dim x < 4.
Proof. intros l m x H. unfold dof_of in H. tauto. Qed.
Lemma union_cell_iff : forall l m x a, wf (Complex l) -> dof_of l m x -> union_cell l x a <-> a = [p_dim x; p_lid x; local_id l (p_desc x)].
Proof.
  intros l m x a Hw Hx. destruct (desc_dim l m x Hx) as (Hv & Hg & Hd). split.
  - intros (k & E & ->). apply descs_nth in E; [|assumption..]. now destruct E as (_ & _ & ->).
  - intros ->. exists (local_id l (p_desc x)). split; [|reflexivity]. rewrite <- Hg. now apply descs_at.
Qed.
Lemma sorted_nodup : forall L, StronglySorted dbefore L -> NoDup L.
Proof. intros L H. induction H as [|a L H IH Ha]; constructor; [|exact IH]. intros Hi. rewrite Forall_forall in Ha. pose proof (Ha a Hi) as Q. unfold dbefore, lex_le in Q. lia. Qed.
Lemma descs_var_nodup : forall l v d, d < 4 -> v < length l -> NoDup (descs_var l v d).
Proof.
  intros l v d Hd Hv. assert (E : descs_var l v d = ditems l (Slice (Some v) None None 63 None) d).
  { rewrite descs_var_eq. unfold ditems. assert (Ef : filter (has (Slice (Some v) None None 63 None)) (types_of_dim d) = types_of_dim d) by (destruct d as [|[|[|[|d]]]]; [reflexivity..|lia]). rewrite Ef.
    apply flat_map_ext. intros t. unfold items. cbn [s_var vals]. rewrite (proj2 (Nat.ltb_lt _ _) Hv). cbn [flat_map]. rewrite app_nil_r. reflexivity. }
  rewrite E. apply sorted_nodup, sorted_ditems.
Qed.
Lemma var_lt : forall l x, valid_desc l x -> x_var x < length l.
Proof. intros l x (_ & b & E & _). apply nth_error_Some. congruence. Qed.
Lemma var_cell_iff : forall l m x a, dof_of l m x -> var_cell l x a <-> a = [p_dim x; p_lid x; vpos l (p_desc x)].
Proof.
  intros l m x a Hx. destruct (desc_dim l m x Hx) as (Hv & Hg & Hd). pose proof (descs_var_at l (p_desc x) Hv) as E. rewrite Hg in E. split.
  - intros (k & Ek & ->). assert (Hk : k = vpos l (p_desc x)).
    { pose proof (descs_var_nodup l (x_var (p_desc x)) (p_dim x) Hd (var_lt l _ Hv)) as N. rewrite NoDup_nth_error in N. apply N; [apply nth_error_Some; congruence|congruence]. }
    now rewrite Hk.
  - intros ->. eexists. split; [exact E|reflexivity].
Qed.
Lemma tags_cell_iff : forall l m x a, dof_of l m x -> tags_cell l x a <-> a = [x_var (p_desc x); p_dim x; p_lid x; vpos l (p_desc x)].
Proof. intros l m x a Hx. split; [intros (b & Hb & ->); apply (var_cell_iff l m) in Hb; [now subst|exact Hx]|]. intros ->. eexists. split; [apply (var_cell_iff l m); [exact Hx|reflexivity]|reflexivity]. Qed.
Lemma place_eq : forall x y, p_dim x = p_dim y -> p_lid x = p_lid y -> p_desc x = p_desc y -> x = y.
Proof. intros [] []; cbn; intros -> -> ->; reflexivity. Qed.
Lemma union_inj : forall l m x y a, wf (Complex l) -> dof_of l m x -> dof_of l m y -> union_cell l x a -> union_cell l y a -> x = y.
Proof.
  intros l m x y a Hw Hx Hy Cx Cy. destruct Cx as (k & Ek & ->), Cy as (k' & Ek' & E). injection E as E1 E2 E3. apply place_eq; [assumption..|]. rewrite E1, E3 in Ek. congruence.
Qed.
Lemma var_inj : forall l x y a, x_var (p_desc x) = x_var (p_desc y) -> var_cell l x a -> var_cell l y a -> x = y.
Proof. intros l x y a Ev Cx Cy. destruct Cx as (k & Ek & ->), Cy as (k' & Ek' & E). injection E as E1 E2 E3. apply place_eq; [assumption..|]. rewrite E1, E3, Ev in Ek. congruence. Qed.
Lemma tags_inj : forall l x y a, tags_cell l x a -> tags_cell l y a -> x = y.
Proof. intros l x y a (b & Hb & ->) (b' & Hb' & E). injection E as Ev Eb. subst b'. now apply (var_inj l x y b). Qed.

(** *** loops over the elements *)
Lemma in_elements : forall m b d i, In (d, i) (elements m b) <-> d < 4 /\ 0 < nd_dim b d /\ i < length (m d) /\ status m d i <> Deleted.
Proof.
  intros m b d i. unfold elements. rewrite in_flat_map. split.
  - intros (d' & Hd & H). destruct (0 <? nd_dim b d') eqn:E; [|destruct H]. apply in_map_iff in H. destruct H as (j & Ej & H). injection Ej as -> ->. apply filter_In in H. destruct H as (Hi & Hs). apply in_seq in Hi. apply Nat.ltb_lt in E.
    split; [cbn in Hd; intuition lia|]. split; [exact E|]. split; [lia|]. now destruct (status m d i).
  - intros (Hd & Hn & Hi & Hs). exists d. split; [cbn; lia|]. rewrite (proj2 (Nat.ltb_lt _ _) Hn). apply in_map_iff. exists i. split; [reflexivity|]. apply filter_In. split; [apply in_seq; lia|]. now destruct (status m d i).
Qed.
(** k-th dof of a variable and type *)
Lemma dtype_desc : forall l t v k, t < 6 -> v < length l -> k < cnt (nth v l (Complex [])) t -> exists x, valid_desc l x /\ x_type x = t /\ x_var x = v /\ x_dim x * per_comp (nth v l (Complex [])) t + x_pos x = k.
Proof.
  intros l t v k Ht Hv Hk. set (b := nth v l (Complex [])) in *. rewrite cnt_split in Hk. assert (Hp : per_comp b t <> 0) by nia.
  exists (Desc t v (k / per_comp b t) (k mod per_comp b t)). cbn [x_type x_var x_dim x_pos]. split; [|split; [reflexivity|split; [reflexivity|]]].
  - split; [exact Ht|]. exists b. split; [now apply nth_error_nth'|]. cbn [x_dim x_pos x_type]. split; [apply Nat.div_lt_upper_bound; [exact Hp|lia]|now apply Nat.mod_upper_bound].
  - rewrite Nat.mul_comm. symmetry. now apply Nat.div_mod.
Qed.
Lemma desc_k : forall l x, valid_desc l x -> x_dim x * per_comp (nth (x_var x) l (Complex [])) (x_type x) + x_pos x < cnt (nth (x_var x) l (Complex [])) (x_type x).
Proof. intros l x (Ht & b & Eb & Hc & Hp). destruct (nth_of_error l _ b Eb) as (En & _). rewrite En, cnt_split. nia. Qed.
Lemma shift_all : forall l t, wf (Complex l) -> t < 6 -> var_shift l t (length l) = cnt (Complex l) t.
Proof. intros l t Hw Ht. rewrite var_shift_comp by (assumption || lia). unfold comp_shift. rewrite firstn_all2 by (now rewrite map_length). reflexivity. Qed.
Lemma shift_diff : forall l t v, wf (Complex l) -> t < 6 -> v < length l -> var_shift l t (v + 1) - var_shift l t v = cnt (nth v l (Complex [])) t.
Proof.
  intros l t v Hw Ht Hv. rewrite !var_shift_comp by (assumption || lia). rewrite !comp_shift_seq by lia. rewrite Nat.add_1_r, seq_S, map_app, list_sum_app.
  replace (list_sum (map (fun i => length (dtype l t i)) [0 + v])) with (length (dtype l t v)) by (symmetry; apply Nat.add_0_r). rewrite length_dtype. lia.
Qed.
Lemma cnt_nth_le : forall l t v, cnt (nth v l (Complex [])) t <= cnt (Complex l) t.
Proof.
  intros l t v. destruct (Nat.lt_ge_cases v (length l)) as [H|H]; [|rewrite nth_overflow by assumption; apply Nat.le_0_l].
  change (cnt (Complex l) t) with (list_sum (map (fun b => cnt b t) l)). revert v H. induction l as [|b l IH]; intros v H; [cbn in H; lia|].
  change (list_sum (map (fun b => cnt b t) (b :: l))) with (cnt b t + list_sum (map (fun b => cnt b t) l)). destruct v as [|v]; cbn [nth]; [lia|]. cbn in H. specialize (IH v ltac:(lia)). lia.
Qed.
Lemma types_from_iff : forall d t, d < 4 -> In t (types_from d) <-> t < 6 /\ geom_dim t = d.
Proof. intros d t Hd. rewrite <- types_dim by assumption. destruct d as [|[|[|[|d]]]]; [reflexivity..|lia]. Qed.
Lemma uchar_small : forall n, n < 256 -> uchar n = n.
Proof. intros n H. unfold uchar. now apply Nat.mod_small. Qed.
Lemma tshift_ok : forall l t, wf (Complex l) -> small_shifts l -> t < 6 -> 0 < cnt (Complex l) t -> tshift l (geom_dim t) t = tshift_of l t.
Proof.
  intros l t Hw (H1 & H3) Ht Hc. unfold tshift, tshift_of. destruct t as [|[|[|[|[|[|t]]]]]]; [..|lia]; cbn [geom_dim nth lookup Nat.sub seq fold_left Nat.eqb orb]; try reflexivity; rewrite shift_all by (assumption || lia); apply uchar_small; auto.
Qed.
Lemma tvshift_ok : forall l t v, wf (Complex l) -> small_shifts l -> t < 6 -> 0 < cnt (Complex l) t -> v < length l -> tvshift l (geom_dim t) t v = if is_oriented t then cnt (nth v l (Complex [])) (t - 1) else 0.
Proof.
  intros l t v Hw (H1 & H3) Ht Hc Hv. unfold tvshift, is_oriented. pose proof (cnt_nth_le l 1 v). pose proof (cnt_nth_le l 3 v).
  destruct t as [|[|[|[|[|[|t]]]]]]; [..|lia]; cbn [geom_dim nth lookup Nat.sub seq fold_left Nat.eqb orb]; try reflexivity; rewrite shift_diff by (assumption || lia); apply uchar_small; try specialize (H1 Hc); try specialize (H3 Hc); lia.
Qed.
Lemma cnt_desc : forall l x, valid_desc l x -> 0 < cnt (nth (x_var x) l (Complex [])) (x_type x) /\ 0 < cnt (Complex l) (x_type x).
Proof. intros l x Hx. pose proof (desc_k l x Hx). pose proof (cnt_nth_le l (x_type x) (x_var x)). lia. Qed.
Lemma cell_union : forall l x, wf (Complex l) -> small_shifts l -> valid_desc l x ->
  tshift l (geom_dim (x_type x)) (x_type x) + var_shift l (x_type x) (x_var x) + (x_dim x * per_comp (nth (x_var x) l (Complex [])) (x_type x) + x_pos x) = local_id l x.
Proof. intros l x Hw Hs Hx. pose proof (var_lt l x Hx). assert (Ht : x_type x < 6) by apply Hx. destruct (cnt_desc l x Hx) as (_ & Hc). rewrite tshift_ok by assumption. rewrite var_shift_comp by (assumption || lia). unfold local_id, tpos. lia. Qed.
Lemma cell_var : forall l x, wf (Complex l) -> small_shifts l -> valid_desc l x ->
  x_dim x * per_comp (nth (x_var x) l (Complex [])) (x_type x) + x_pos x + tvshift l (geom_dim (x_type x)) (x_type x) (x_var x) = vpos l x.
Proof. intros l x Hw Hs Hx. pose proof (var_lt l x Hx). assert (Ht : x_type x < 6) by apply Hx. destruct (cnt_desc l x Hx) as (_ & Hc). rewrite tvshift_ok by assumption. unfold vpos. lia. Qed.
