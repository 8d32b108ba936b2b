From Verif Require Import Prelude RSum MeshModel MeshSpec MeshProofs MeshProofs2 MeshProofs3.
From Coq Require Import Reals ZArith Lia Lra Permutation.
Open Scope R_scope.

(** *** Which cube a coordinate belongs to *)
Lemma cell_index : forall s X, (0 < s)%nat -> 0 <= X <= IZR (Z.of_nat s) -> exists i, (1 <= i <= Z.of_nat s)%Z /\ IZR (i - 1) <= X <= IZR (i - 1) + 1.
Proof.
  intros s X Hs HX. destruct (archimed X) as (H1 & H2).
  assert (U : (0 < up X)%Z) by (apply lt_IZR; lra).
  destruct (Z_le_gt_dec (up X) (Z.of_nat s)) as [D|D].
  - exists (up X). split; [lia|]. rewrite minus_IZR. lra.
  - exists (Z.of_nat s). split; [lia|]. rewrite minus_IZR. assert (IZR (Z.of_nat s) + 1 <= IZR (up X)) by (rewrite <- plus_IZR; apply IZR_le; lia). lra.
Qed.
Lemma rd_map : forall {S T} (f : S -> T) l n c, rd (map f l) n = Some c -> exists e, rd l n = Some e /\ c = f e.
Proof.
  unfold rd. intros S T f l. induction l as [|e l IH]; intros [|n] c H; cbn in *; try discriminate.
  - injection H as <-. exists e. auto.
  - now apply IH.
Qed.
Lemma rd_nodup : forall {S} (l : list S) n m e, NoDup l -> rd l n = Some e -> rd l m = Some e -> n = m.
Proof. intros S l n m e N Hn Hm. apply (proj1 (NoDup_nth_error l) N); [apply nth_error_Some; unfold rd in Hn; congruence|unfold rd in *; congruence]. Qed.
Lemma nodup_flat : forall {S T} (f : S -> list T) l, NoDup l -> (forall x, In x l -> NoDup (f x)) -> (forall x y z, In x l -> In y l -> In z (f x) -> In z (f y) -> x = y) -> NoDup (flat_map f l).
Proof.
  intros S T f l N. induction N as [|x l Nx N IH]; intros H1 H2; [constructor|]. cbn.
  assert (K : forall a b : list T, NoDup a -> NoDup b -> (forall z, In z a -> In z b -> False) -> NoDup (a ++ b)).
  { induction a as [|c a IHa]; intros b Na Nb D; [exact Nb|]. inversion Na as [|? ? Nc Na']; subst. cbn. constructor.
    - rewrite in_app_iff. intros [?|?]; [contradiction|]. eapply D; [now left|eassumption].
    - apply IHa; [assumption|assumption|]. intros z Hz. apply D. now right. }
  apply K; [apply H1; now left|apply IH; [intros; apply H1; now right|intros a b z Ha Hb; apply H2; now right]|].
  intros z Hz Hz'. apply in_flat_map in Hz' as (y & Hy & Hz'). apply Nx. rewrite (H2 x y z); [exact Hy|now left|now right|exact Hz|exact Hz'].
Qed.
Lemma upto_nodup : forall a b, NoDup (upto a b).
Proof.
  intros a b. unfold upto. apply map_nodup; [apply seq_NoDup|]. intros x y _ _ E. lia.
Qed.
Lemma cubes_nodup : forall l, NoDup (cubes l).
Proof.
  intros l. unfold cubes. apply nodup_flat; [apply upto_nodup| |].
  - intros i _. apply nodup_flat; [apply upto_nodup| |].
    + intros j _. apply map_nodup; [apply upto_nodup|]. intros x y _ _ E. now injection E.
    + intros x y z _ _ Hx Hy. apply in_map_iff in Hx as (k & <- & _). apply in_map_iff in Hy as (k' & E & _). now injection E.
  - intros x y z _ _ Hx Hy. apply in_flat_map in Hx as (j & _ & Hx). apply in_flat_map in Hy as (j' & _ & Hy).
    apply in_map_iff in Hx as (k & <- & _). apply in_map_iff in Hy as (k' & E & _). now injection E.
Qed.

(** *** The six of two cubes *)
Lemma tet_low : forall v, In v tets -> (exists n, In n v /\ cx n = 0%Z) /\ (exists n, In n v /\ cy n = 0%Z) /\ (exists n, In n v /\ cz n = 0%Z).
Proof.
  intros v Hv. tet6 Hv; (split; [|split]); first [exists 0%nat; split; [cbn; tauto|reflexivity] | exists 2%nat; split; [cbn; tauto|reflexivity] | exists 4%nat; split; [cbn; tauto|reflexivity]].
Qed.
Lemma c_nonneg : forall n, (0 <= cx n /\ 0 <= cy n /\ 0 <= cz n)%Z.
Proof. intros n. unfold cx, cy, cz. lia. Qed.
Lemma tet_lt : forall v n, In v tets -> In n v -> (n < 8)%nat.
Proof. intros v n Hv Hn. tet6 Hv; cbn in Hn; lia. Qed.
Lemma c_inj : forall n m, (n < 8)%nat -> (m < 8)%nat -> cx n = cx m -> cy n = cy m -> cz n = cz m -> n = m.
Proof.
  intros n m Hn Hm. unfold cx, cy, cz.
  do 8 (destruct n as [|n]; [do 8 (destruct m as [|m]; [try reflexivity; cbn; lia|]); lia|]). lia.
Qed.
Lemma tet_incl : forall v v', In v tets -> In v' tets -> incl v v' -> v = v'.
Proof.
  intros v v' Hv Hv' I. assert (K : forallb (fun a => forallb (fun b => negb (forallb (fun n => existsb (Nat.eqb n) b) a) || (if list_eq_dec Nat.eq_dec a b then true else false)) tets) tets = true) by reflexivity.
  rewrite forallb_forall in K. specialize (K v Hv). rewrite forallb_forall in K. specialize (K v' Hv'). apply Bool.orb_true_iff in K as [K|K].
  - apply Bool.negb_true_iff in K. assert (forallb (fun n => existsb (Nat.eqb n) v') v = true); [|congruence].
    apply forallb_forall. intros n Hn. apply existsb_exists. exists n. split; [now apply I|apply Nat.eqb_refl].
  - now destruct (list_eq_dec Nat.eq_dec v v').
Qed.
Lemma cut_fun : forall t t' v, In (t, v) cut -> In (t', v) cut -> t = t'.
Proof.
  intros t t' v H H'. assert (E : forall e, In e cut -> exists i, (i < 6)%nat /\ nth_error six i = Some (fst e) /\ nth_error tets i = Some (snd e)).
  { intros e He. unfold cut in He. apply In_nth_error in He as (i & Hi). exists i.
    do 6 (destruct i as [|i]; [split; [lia|]; injection Hi as <-; split; reflexivity|]). destruct i; discriminate Hi. }
  destruct (E _ H) as (i & Li & A1 & B1). destruct (E _ H') as (i' & Li' & A2 & B2). cbn [fst snd] in *.
  assert (N : NoDup tets) by (repeat (constructor; [cbn; intuition discriminate|]); constructor).
  assert (i = i') by (apply (proj1 (NoDup_nth_error tets) N); [cbn; lia|congruence]). subst. congruence.
Qed.

Definition det (na nb nc nd : nat) : Z :=
  ((cx nb - cx na) * ((cy nc - cy na) * (cz nd - cz na) - (cz nc - cz na) * (cy nd - cy na)) - (cy nb - cy na) * ((cx nc - cx na) * (cz nd - cz na) - (cz nc - cz na) * (cx nd - cx na)) + (cz nb - cz na) * ((cx nc - cx na) * (cy nd - cy na) - (cy nc - cy na) * (cx nd - cx na)))%Z.
Lemma det_all : forallb (fun v => forallb (fun a => forallb (fun b => forallb (fun c => forallb (fun d =>
  ((a =? b) || (a =? c) || (a =? d) || (b =? c) || (b =? d) || (c =? d))%nat || (Z.abs (det a b c d) =? 1)%Z) v) v) v) v) tets = true.
Proof. reflexivity. Qed.

Section Main.
Variables (size : nat) (sizes : axes) (A O : point).
Hypothesis (Hp : proper sizes A O) (Hc : countable sizes) (Hf : all_fit size sizes).

Lemma cube_cell : forall r vs, (r < size)%nat -> cell_of r size sizes A O vs ->
  exists i j k v, in_cubes (local_of r size sizes) i j k /\ In v tets /\ Permutation vs (map (vp sizes A O i j k) v).
Proof using Hp Hc Hf. intros r vs Hr H. now apply (cell_of_iff size sizes A O Hp Hc Hf r vs Hr). Qed.

Lemma gp_box : forall p d, (d < 3)%nat -> (axis d O <= axis d p <= axis d A <-> 0 <= gp sizes A O d p <= IZR (Z.of_nat (axis d sizes))).
Proof using Hp.
  intros p d Hd. destruct (Hp d Hd) as (Hs & HA). unfold gp, grid. set (s := IZR (Z.of_nat (axis d sizes))).
  assert (0 < s) by (apply (IZR_lt 0); lia). set (h := axis d A - axis d O). assert (0 < h) by (unfold h; lra).
  assert (Q : forall t, t * s / h = t * (s / h)) by (intros; field; lra). assert (0 < s / h) by (apply Rdiv_lt_0_compat; assumption).
  assert (F : s = h * (s / h)) by (field; lra). rewrite Q. clearbody s. set (c := s / h) in *. clearbody c. clear Q. subst s. split; intros (H1' & H2').
  - split; [apply Rmult_le_pos; lra|]. apply Rmult_le_compat_r; unfold h; lra.
  - apply Rmult_le_reg_r in H2'; [|assumption]. unfold h in H2'. split; [|lra]. assert (0 * c <= (axis d p - axis d O) * c) by lra. match goal with K : 0 * c <= _ |- _ => apply Rmult_le_reg_r in K; lra end.
Qed.
Lemma main_cover : forall p, (1 <= size)%nat -> in_box A O p -> exists r vs l, (r < size)%nat /\ cell_of r size sizes A O vs /\ lies_in vs l p.
Proof using Hp Hc Hf.
  intros p Hs (B0 & B1 & B2). apply (gp_box p 0 ltac:(lia)) in B0. apply (gp_box p 1 ltac:(lia)) in B1. apply (gp_box p 2 ltac:(lia)) in B2.
  destruct (cell_index _ _ (proj1 (Hp 0%nat ltac:(lia))) B0) as (i & Ri & Bi). destruct (cell_index _ _ (proj1 (Hp 1%nat ltac:(lia))) B1) as (j & Rj & Bj). destruct (cell_index _ _ (proj1 (Hp 2%nat ltac:(lia))) B2) as (k & Rk & Bk).
  destruct (cube_rank size sizes A O Hp Hc Hf i j k Hs ltac:(lia)) as (r & Hr & Q).
  destruct (cover_unit (gp sizes A O 0 p - IZR (i - 1)) (gp sizes A O 1 p - IZR (j - 1)) (gp sizes A O 2 p - IZR (k - 1)) ltac:(lra) ltac:(lra) ltac:(lra)) as (v & w & Hv & Lw & Hw & H1 & Hx & Hy & Hz).
  exists r, (map (vp sizes A O i j k) v), (List.combine (map (vp sizes A O i j k) v) w). split; [exact Hr|]. split.
  - apply (cell_of_iff size sizes A O Hp Hc Hf r _ Hr). exists i, j, k, v. auto.
  - split; [|now apply cell_in]. assert (Lv : length v = 4%nat) by (clear - Hv; tet6 Hv; reflexivity).
    assert (L : length (map (vp sizes A O i j k) v) = length w) by (rewrite map_length; lia). clear - L. revert w L. induction (map (vp sizes A O i j k) v) as [|a m IH]; intros [|b w] L; try discriminate; [reflexivity|]. cbn. f_equal. apply IH. cbn in L. lia.
Qed.
Lemma main_inside : forall r vs l p, (r < size)%nat -> cell_of r size sizes A O vs -> lies_in vs l p -> in_box A O p.
Proof using Hp Hc Hf.
  intros r vs l p Hr C L. destruct (cube_cell r vs Hr C) as (i & j & k & v & Q & Hv & P).
  destruct (to_canonical sizes A O vs v i j k l p P L) as (w & Lw & _ & K).
  destruct (in_cell sizes A O Hp i j k v w p Lw K) as (H1 & Hx & Hy & Hz).
  assert (Lv : length v = 4%nat) by (clear - Hv; tet6 Hv; reflexivity). rewrite Lv in Lw.
  destruct K as (W & _). four w Lw. destruct v as [|n0 [|n1 [|n2 [|n3 [|? ?]]]]]; try discriminate Lv. cbn [map List.combine] in W.
  assert (W0 : 0 <= w0) by (eapply W; cbn; eauto). assert (W1 : 0 <= w1) by (eapply W; cbn; eauto 10).
  assert (W2 : 0 <= w2) by (eapply W; cbn; eauto 10). assert (W3 : 0 <= w3) by (eapply W; cbn; eauto 10).
  destruct (cube_range size sizes A O Hp Hc Hf i j k r Hr Q) as (Ri & Rj & Rk).
  assert (B : 0 <= lsum fx [n0; n1; n2; n3] [w0; w1; w2; w3] <= 1 /\ 0 <= lsum fy [n0; n1; n2; n3] [w0; w1; w2; w3] <= 1 /\ 0 <= lsum fz [n0; n1; n2; n3] [w0; w1; w2; w3] <= 1).
  { clear - Hv W0 W1 W2 W3 H1. cbn in Hv. destruct Hv as [E|[E|[E|[E|[E|[E|[]]]]]]]; injection E as <- <- <- <-; unfold lsum, fx, fy, fz, cx, cy, cz in *; cbn in H1 |- *; lra. }
  assert (Z : forall i s, (1 <= i <= Z.of_nat s)%Z -> 0 <= IZR (i - 1) /\ IZR (i - 1) + 1 <= IZR (Z.of_nat s)).
  { clear. intros i s H. split; [apply (IZR_le 0); lia|]. rewrite <- (plus_IZR (i - 1) 1). apply IZR_le. lia. }
  destruct (Z _ _ Ri), (Z _ _ Rj), (Z _ _ Rk). split; [|split]; apply gp_box; try lia; lra.
Qed.
(** Two cells that share a point *)
Lemma main_conforming : forall r vs l r' vs' l' p, (r < size)%nat -> cell_of r size sizes A O vs -> lies_in vs l p ->
  (r' < size)%nat -> cell_of r' size sizes A O vs' -> lies_in vs' l' p -> forall v w, In (v, w) l -> 0 < w -> In (v, w) l'.
Proof using Hp Hc Hf.
  intros r vs l r' vs' l' p Hr C L Hr' C' L' x a Hx Ha.
  destruct (cube_cell r vs Hr C) as (i & j & k & v & Q & Hv & P). destruct (cube_cell r' vs' Hr' C') as (i' & j' & k' & v' & Q' & Hv' & P').
  destruct (to_canonical sizes A O vs v i j k l p P L) as (w & Lw & Pl & K). destruct (to_canonical sizes A O vs' v' i' j' k' l' p P' L') as (w' & Lw' & Pl' & K').
  assert (Lv : length v = 4%nat) by (clear - Hv; tet6 Hv; reflexivity). assert (Lv' : length v' = 4%nat) by (clear - Hv'; tet6 Hv'; reflexivity).
  rewrite Lv in Lw. rewrite Lv' in Lw'.
  destruct (cell_weights sizes A O Hp i j k v w p Hv Lw K) as (F & _). destruct (cell_weights sizes A O Hp i' j' k' v' w' p Hv' Lw' K') as (F' & G').
  apply (Permutation_in _ Pl) in Hx. pose proof (F x a Hx) as E. apply (Permutation_in _ (Permutation_sym Pl')).
  assert (N : exists m1 m2 m3, x = node_at sizes A O m1 m2 m3).
  { apply in_combine_l in Hx. apply in_map_iff in Hx as (n & <- & _). unfold vp. eauto. }
  destruct N as (m1 & m2 & m3 & ->). pose proof (G' m1 m2 m3 ltac:(lra)) as M.
  assert (Y : exists b, In (node_at sizes A O m1 m2 m3, b) (List.combine (map (vp sizes A O i' j' k') v') w')).
  { assert (Z : length (map (vp sizes A O i' j' k') v') = length w') by (rewrite map_length; lia). clear - M Z. revert w' Z. induction (map (vp sizes A O i' j' k') v') as [|q m IH]; intros [|b w] Z; cbn in *; try contradiction; try discriminate.
    destruct M as [->|M]; [exists b; auto|]. destruct (IH M w ltac:(lia)) as (c & Hc). exists c. auto. }
  destruct Y as (b & Hb). rewrite (F' _ b Hb) in E. subst b. exact Hb.
Qed.
Lemma cell_same : forall i j k v i' j' k' v', In v tets -> In v' tets -> incl (map (vp sizes A O i j k) v) (map (vp sizes A O i' j' k') v') ->
  incl (map (vp sizes A O i' j' k') v') (map (vp sizes A O i j k) v) -> i = i' /\ j = j' /\ k = k' /\ v = v'.
Proof using Hp.
  intros i j k v i' j' k' v' Hv Hv' I I'.
  assert (K : forall i j k v i' j' k' v', In v tets -> incl (map (vp sizes A O i j k) v) (map (vp sizes A O i' j' k') v') -> (i' <= i /\ j' <= j /\ k' <= k)%Z).
  { clear - Hp. intros i j k v i' j' k' v' Hv I. destruct (tet_low v Hv) as ((a & Ha & Ea) & (b & Hb & Eb) & (c & Hcc & Ec)).
    assert (M : forall n, In n v -> exists m, In m v' /\ (i' - 1 + cx m = i - 1 + cx n /\ j' - 1 + cy m = j - 1 + cy n /\ k' - 1 + cz m = k - 1 + cz n)%Z).
    { intros n Hn. pose proof (I _ (in_map (vp sizes A O i j k) _ _ Hn)) as H. apply in_map_iff in H as (m & E & Hm). exists m. split; [exact Hm|]. unfold vp in E. now apply (node_inj sizes A O Hp) in E. }
    destruct (M a Ha) as (a' & _ & A0 & _). destruct (M b Hb) as (b' & _ & _ & B1 & _). destruct (M c Hcc) as (c' & _ & _ & _ & C2).
    pose proof (c_nonneg a'). pose proof (c_nonneg b'). pose proof (c_nonneg c'). lia. }
  pose proof (K _ _ _ _ _ _ _ _ Hv I). pose proof (K _ _ _ _ _ _ _ _ Hv' I').
  assert (i = i' /\ j = j' /\ k = k') as (<- & <- & <-) by lia. do 3 (split; [reflexivity|]). apply tet_incl; [exact Hv|exact Hv'|].
  intros n Hn. pose proof (I _ (in_map (vp sizes A O i j k) _ _ Hn)) as Q. apply in_map_iff in Q as (m & E & Hm). unfold vp in E. apply (node_inj sizes A O Hp) in E as (E1 & E2 & E3).
  assert (m = n) as <-; [|exact Hm]. apply c_inj; [now apply (tet_lt v')|now apply (tet_lt v)|lia..].
Qed.
(** Six times the volume of a cell *)
Lemma main_volume : forall r a b c d, (r < size)%nat -> cell_of r size sizes A O [a; b; c; d] ->
  Rabs (volume6 a b c d) = (axis 0 A - axis 0 O) / INR (axis 0 sizes) * ((axis 1 A - axis 1 O) / INR (axis 1 sizes)) * ((axis 2 A - axis 2 O) / INR (axis 2 sizes)).
Proof using Hp Hc Hf.
  intros r a b c d Hr C. destruct (cube_cell r _ Hr C) as (i & j & k & v & Q & Hv & P).
  set (h := fun e => (axis e A - axis e O) / INR (axis e sizes)). fold (h 0%nat) (h 1%nat) (h 2%nat).
  assert (Hh : forall e, (e < 3)%nat -> 0 < h e).
  { intros e He. destruct (Hp e He). unfold h. apply Rdiv_lt_0_compat; [lra|]. now apply lt_0_INR. }
  assert (N : forall p e, (e < 3)%nat -> axis e p = axis e O + h e * gp sizes A O e p).
  { intros p e He. destruct (Hp e He). unfold h, gp, grid. rewrite <- INR_IZR_INZ. assert (INR (axis e sizes) <> 0) by (apply not_0_INR; lia). field. split; [lra|assumption]. }
  assert (V : volume6 a b c d = h 0%nat * h 1%nat * h 2%nat *
     volume6 (gp sizes A O 0 a, gp sizes A O 1 a, gp sizes A O 2 a) (gp sizes A O 0 b, gp sizes A O 1 b, gp sizes A O 2 b) (gp sizes A O 0 c, gp sizes A O 1 c, gp sizes A O 2 c) (gp sizes A O 0 d, gp sizes A O 1 d, gp sizes A O 2 d)).
  { unfold volume6. rewrite (N a 0%nat), (N a 1%nat), (N a 2%nat), (N b 0%nat), (N b 1%nat), (N b 2%nat), (N c 0%nat), (N c 1%nat), (N c 2%nat), (N d 0%nat), (N d 1%nat), (N d 2%nat) by lia.
    cbn [axis fst snd]. ring. }
  rewrite V, Rabs_mult, (Rabs_right (h 0%nat * h 1%nat * h 2%nat)).
  2:{ apply Rle_ge. pose proof (Hh 0%nat ltac:(lia)). pose proof (Hh 1%nat ltac:(lia)). pose proof (Hh 2%nat ltac:(lia)). apply Rmult_le_pos; [apply Rmult_le_pos|]; lra. }
  rewrite <- (Rmult_1_r (h 0%nat * h 1%nat * h 2%nat)) at 2. f_equal.
  (* a permutation of the vertices *)
  assert (M : exists ns, [a; b; c; d] = map (vp sizes A O i j k) ns /\ Permutation ns v).
  { apply Permutation_map_inv in P. destruct P as (ns & E & Pn). exists ns. split; [exact E|now apply Permutation_sym]. }
  destruct M as (ns & E & Pn). destruct ns as [|na [|nb [|nc [|nd [|? ?]]]]]; try discriminate E. cbn [map] in E. injection E as -> -> -> ->.
  destruct (gp_vp sizes A O Hp i j k na) as (-> & -> & ->). destruct (gp_vp sizes A O Hp i j k nb) as (-> & -> & ->).
  destruct (gp_vp sizes A O Hp i j k nc) as (-> & -> & ->). destruct (gp_vp sizes A O Hp i j k nd) as (-> & -> & ->).
  assert (W : volume6 (IZR (i - 1) + fx na, IZR (j - 1) + fy na, IZR (k - 1) + fz na) (IZR (i - 1) + fx nb, IZR (j - 1) + fy nb, IZR (k - 1) + fz nb)
     (IZR (i - 1) + fx nc, IZR (j - 1) + fy nc, IZR (k - 1) + fz nc) (IZR (i - 1) + fx nd, IZR (j - 1) + fy nd, IZR (k - 1) + fz nd) =
     IZR (det na nb nc nd)).
  { unfold volume6, fx, fy, fz, det. cbn [axis fst snd]. repeat (rewrite ?plus_IZR, ?minus_IZR, ?mult_IZR). ring. }
  rewrite W, <- abs_IZR. apply IZR_eq. clear - Hv Pn.
  assert (Ia : In na v) by (apply (Permutation_in _ Pn); cbn; auto). assert (Ib : In nb v) by (apply (Permutation_in _ Pn); cbn; auto).
  assert (Ic : In nc v) by (apply (Permutation_in _ Pn); cbn; auto). assert (Id : In nd v) by (apply (Permutation_in _ Pn); cbn; auto).
  assert (N : NoDup [na; nb; nc; nd]). { apply (Permutation_NoDup (Permutation_sym Pn)). clear - Hv. tet6 Hv; repeat (constructor; [cbn; lia|]); constructor. }
  clear Pn. inversion N as [|? ? N1 N']; subst. inversion N' as [|? ? N2 N'']; subst. inversion N'' as [|? ? N3 _]; subst. cbn in N1, N2, N3. clear N N' N''.
  pose proof (proj1 (forallb_forall _ _) det_all v Hv) as K. rewrite forallb_forall in K. specialize (K na Ia). rewrite forallb_forall in K. specialize (K nb Ib).
  rewrite forallb_forall in K. specialize (K nc Ic). rewrite forallb_forall in K. specialize (K nd Id).
  rewrite !Bool.orb_true_iff, !Nat.eqb_eq, Z.eqb_eq in K. decompose [or] K; try (exfalso; subst; tauto). assumption.
Qed.
Lemma cells_form : forall r, (r < size)%nat -> let l := local_of r size sizes in
  generate r size sizes A O = Some (new_nodes l sizes A O, map (fun e => map (map (vn l (axis 0 (fst e)) (axis 1 (fst e)) (axis 2 (fst e)))) (fst (snd e))) (flat_map (fun q => map (pair q) cut) (cubes l))).
Proof using Hp Hc Hf.
  intros r Hr l. unfold generate. fold l. rewrite (cells_ok l sizes A O (good size sizes A O Hp Hc Hf r Hr)). cbn [obind]. do 2 f_equal.
  induction (cubes l) as [|q qs IH]; [reflexivity|]. cbn [flat_map]. rewrite map_app, <- IH. reflexivity.
Qed.
Lemma nth_form : forall r n vs, (r < size)%nat -> nth_cell r size sizes A O n vs ->
  exists i j k t v, rd (flat_map (fun q => map (pair q) cut) (cubes (local_of r size sizes))) n = Some (i, j, k, (t, v)) /\ in_cubes (local_of r size sizes) i j k /\ In (t, v) cut /\ Permutation vs (map (vp sizes A O i j k) v).
Proof using Hp Hc Hf.
  intros r n vs Hr (nodes & cells & cell & E & Hn & T). rewrite (cells_form r Hr) in E. injection E as <- <-.
  apply rd_map in Hn as ((((i, j), k), (t, v)) & Hn & ->). cbn [fst snd axis] in T.
  assert (Hin : In (i, j, k, (t, v)) (flat_map (fun q => map (pair q) cut) (cubes (local_of r size sizes)))) by (eapply nth_error_In; exact Hn).
  apply in_flat_map in Hin as (q & Hq & Hin). apply in_map_iff in Hin as (tv & Eq & Ht). injection Eq as -> ->. apply cubes_in in Hq.
  exists i, j, k, t, v. do 3 (split; [assumption|]). eapply cell_vertices; try eassumption. apply (good size sizes A O Hp Hc Hf r Hr).
Qed.
Lemma nth_cell_of : forall r n vs, nth_cell r size sizes A O n vs -> cell_of r size sizes A O vs.
Proof using.
  intros r n vs (nodes & cells & cell & E & Hn & T). exists nodes, cells, cell. split; [exact E|]. split; [eapply nth_error_In; exact Hn|exact T].
Qed.
Lemma vp_nodup : forall i j k v, In v tets -> NoDup (map (vp sizes A O i j k) v).
Proof using Hp.
  intros i j k v Hv. apply map_nodup; [clear - Hv; tet6 Hv; repeat (constructor; [cbn; lia|]); constructor|].
  intros a b Ha Hb E. unfold vp in E. apply (node_inj sizes A O Hp) in E. apply c_inj; [now apply (tet_lt v)|now apply (tet_lt v)|lia..].
Qed.
Lemma main_once : forall r n vs r' n' vs' p, (r < size)%nat -> nth_cell r size sizes A O n vs -> inside vs p ->
  (r' < size)%nat -> nth_cell r' size sizes A O n' vs' -> (exists l', lies_in vs' l' p) -> r = r' /\ n = n' /\ Permutation vs vs'.
Proof using Hp Hc Hf.
  intros r n vs r' n' vs' p Hr C (l & L & W) Hr' C' (l' & L').
  assert (I : incl vs vs').
  { intros x Hx. pose proof L as (E & _). rewrite <- E in Hx. apply in_map_iff in Hx as ((x', a) & Ex & Hx). cbn [fst] in Ex. subst x'.
    pose proof (main_conforming r vs l r' vs' l' p Hr (nth_cell_of _ _ _ C) L Hr' (nth_cell_of _ _ _ C') L' x a Hx (W _ _ Hx)) as M.
    destruct L' as (E' & _). rewrite <- E'. apply in_map_iff. exists (x, a). auto. }
  destruct (nth_form r n vs Hr C) as (i & j & k & t & v & Hn & Q & Ht & P). destruct (nth_form r' n' vs' Hr' C') as (i' & j' & k' & t' & v' & Hn' & Q' & Ht' & P').
  destruct (cut_six t v Ht) as (_ & Hv). destruct (cut_six t' v' Ht') as (_ & Hv').
  assert (N : NoDup vs) by (apply (Permutation_NoDup (Permutation_sym P)), vp_nodup, Hv). assert (N' : NoDup vs') by (apply (Permutation_NoDup (Permutation_sym P')), vp_nodup, Hv').
  assert (Lv : length v = 4%nat) by (clear - Hv; tet6 Hv; reflexivity). assert (Lv' : length v' = 4%nat) by (clear - Hv'; tet6 Hv'; reflexivity).
  assert (I' : incl vs' vs). { apply NoDup_length_incl; [exact N| |exact I]. rewrite (Permutation_length P), (Permutation_length P'), !map_length. lia. }
  destruct (cell_same i j k v i' j' k' v' Hv Hv') as (<- & <- & <- & <-).
  - intros x Hx. apply (Permutation_in _ P'), I, (Permutation_in _ (Permutation_sym P)), Hx.
  - intros x Hx. apply (Permutation_in _ P), I', (Permutation_in _ (Permutation_sym P')), Hx.
  - assert (r = r') as <- by (eapply (cube_once size sizes A O Hp Hc Hf); eassumption). split; [reflexivity|]. rewrite (cut_fun t' t v Ht' Ht) in Hn'. split; [|apply NoDup_Permutation; [exact N|exact N'|split; auto]].
    eapply rd_nodup; [|exact Hn|exact Hn']. apply nodup_flat; [apply cubes_nodup| |].
    + intros q _. apply map_nodup; [|intros a b _ _ E; now injection E]. unfold cut. repeat (constructor; [cbn; intuition discriminate|]). constructor.
    + intros x y z _ _ Hx Hy. apply in_map_iff in Hx as (a & <- & _). apply in_map_iff in Hy as (b & E & _). now injection E.
Qed.
(** All cells *)
Lemma main_tetra : forall r, (r < size)%nat -> exists nodes cells, generate r size sizes A O = Some (nodes, cells) /\
  (forall p, In p nodes -> in_box A O p) /\ forall c, In c cells -> exists vs, tetrahedron nodes c vs.
Proof using Hp Hc Hf.
  intros r Hr. pose proof (good size sizes A O Hp Hc Hf r Hr) as G. destruct (generate_ok r size sizes A O G) as (nodes & cells & E & En & _ & C). exists nodes, cells. split; [exact E|]. split.
  - intros p Hin. subst nodes. unfold new_nodes in Hin. apply in_flat_map in Hin as (i & Hi & Hin). apply in_flat_map in Hin as (j & Hj & Hin). apply in_map_iff in Hin as (k & <- & Hk).
    apply upto_in in Hi, Hj, Hk. destruct (gp_node sizes A O Hp i j k) as (E0 & E1 & E2).
    destruct (local_ok size sizes A O Hp Hc Hf r 0 Hr ltac:(lia)) as (A0 & B0 & _ & L0 & _). destruct (local_ok size sizes A O Hp Hc Hf r 1 Hr ltac:(lia)) as (A1 & B1 & _ & L1 & _). destruct (local_ok size sizes A O Hp Hc Hf r 2 Hr ltac:(lia)) as (A2 & B2 & _ & L2 & _).
    rewrite A0, B0 in Hi. rewrite A1, B1 in Hj. rewrite A2, B2 in Hk.
    split; [|split]; apply gp_box; try lia; rewrite ?E0, ?E1, ?E2; (split; [apply (IZR_le 0); lia|apply IZR_le; lia]).
  - intros c Hin. apply C in Hin as (i & j & k & t & Q & Ht & ->). destruct (six_cut t Ht) as (v & Hv). exists (map (vp sizes A O i j k) v). subst nodes. eapply cell_tetra; eassumption.
Qed.
End Main.

(** When the processes divide an axis *)
Lemma fits_square : forall s p, ((p - 1) * (p - 1) <= s)%nat -> (1 <= p)%nat -> fits s p.
Proof.
  intros s p H Hp. unfold fits, avgsize. pose proof (Nat.mul_div_le (s + p - 1) p ltac:(lia)) as D. remember ((s + p - 1) / p)%nat as q. clear Heqq. destruct p as [|p]; [lia|]. replace (S p - 1)%nat with p in * by lia. nia.
Qed.
Lemma fits_divides : forall s p, (1 <= p)%nat -> Nat.divide p s -> fits s p.
Proof.
  intros s p Hp (m & ->). unfold fits, avgsize. replace ((m * p + p - 1) / p)%nat with m; [destruct p; [lia|]; nia|].
  replace (m * p + p - 1)%nat with (p - 1 + m * p)%nat by lia. rewrite Nat.div_add by lia. rewrite Nat.div_small by lia. lia.
Qed.
