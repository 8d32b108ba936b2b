(** Interpolation on one dof of a composite space. *)
From Verif Require Import Prelude RSum GeoModel GeoSpec DenseModel DenseSpec BasModel BasSpec BasProofs7 BasProofs9 IntModel IntSpec.
From Coq Require Import FunctionalExtensionality.
Local Open Scope R_scope.

Section Ind.
  Variable P : isp -> Prop.
  Hypothesis HB : forall s, P (IB s).
  Hypothesis HV : forall n s, P s -> P (IV n s).
  Hypothesis HC : forall l, Forall P l -> P (IC l).
  Hypothesis HU : forall l W, Forall P l -> P (IU l W).
  Fixpoint isp_ind' (s : isp) : P s :=
    match s with
    | IB s => HB s
    | IV n s => HV n s (isp_ind' s)
    | IC l => HC l ((fix go l : Forall P l := match l with [] => Forall_nil P | s :: r => Forall_cons s (isp_ind' s) (go r) end) l)
    | IU l W => HU l W ((fix go l : Forall P l := match l with [] => Forall_nil P | s :: r => Forall_cons s (isp_ind' s) (go r) end) l)
    end.
End Ind.

Lemma all_of : forall (P : isp -> Prop) l s, (fix all l := match l with [] => True | s :: r => P s /\ all r end) l -> In s l -> P s.
Proof. intros P l s. induction l as [|a l IH]; cbn [In]; [tauto|]. intros [H1 H2] [->|H]; [exact H1|now apply IH]. Qed.
Lemma nth_error_In' : forall {A} (l : list A) v s, nth_error l v = Some s -> In s l.
Proof. intros. now apply nth_error_In with v. Qed.

(** *** Components *)
Lemma comp_of_ok : forall sizes i, (i < list_sum sizes)%nat ->
  exists v k, comp_of sizes i = Some (v, k) /\ (v < length sizes)%nat /\ (k < nth v sizes 0)%nat /\ (i = list_sum (firstn v sizes) + k)%nat.
Proof.
  intros sizes i Hi. destruct (upper_bound_prefix sizes i Hi) as (v & E & Hv & Hlo & Hhi). exists v, (i - list_sum (firstn v sizes))%nat.
  unfold comp_of. destruct (Nat.ltb_spec i (list_sum sizes)); [|lia]. cbn [guard obind]. rewrite E. replace (S v - 1)%nat with v by lia.
  unfold rd. rewrite nth_error_prefix by lia. cbn [obind]. repeat split; try lia.
Qed.
Lemma comp_of_at : forall sizes v k, (v < length sizes)%nat -> (k < nth v sizes 0)%nat -> comp_of sizes (list_sum (firstn v sizes) + k) = Some (v, k).
Proof.
  intros sizes v k Hv Hk. assert (Hs := list_sum_firstn_S sizes v Hv). assert (Hm := list_sum_firstn_le sizes (S v) (length sizes) ltac:(lia)). rewrite firstn_all in Hm.
  destruct (comp_of_ok sizes (list_sum (firstn v sizes) + k)) as (v' & k' & E & Hv' & Hk' & Ei); [lia|].
  assert (v = v') as <- by (apply (block_unique sizes v v' (list_sum (firstn v sizes) + k)%nat); lia). rewrite E. do 2 f_equal. lia.
Qed.
Lemma nth_size : forall l v s (f : isp -> nat), nth_error l v = Some s -> nth v (map f l) 0%nat = f s.
Proof. intros l v s f H. apply nth_error_nth. now apply map_nth_error. Qed.
Lemma rd_map : forall {A B} (f : A -> B) l v s, nth_error l v = Some s -> rd (map f l) v = Some (f s).
Proof. intros. unfold rd. now apply map_nth_error. Qed.
Lemma part_ex : forall l i, (i < list_sum (map infa l))%nat ->
  exists v k s, comp_of (map infa l) i = Some (v, k) /\ nth_error l v = Some s /\ (k < infa s)%nat /\ (i = list_sum (firstn v (map infa l)) + k)%nat.
Proof.
  intros l i Hi. destruct (comp_of_ok _ i Hi) as (v & k & E & Hv & Hk & Ei). rewrite map_length in Hv.
  destruct (nth_error l v) as [s|] eqn:Es; [|apply nth_error_None in Es; lia]. rewrite (nth_size l v s infa Es) in Hk. exists v, k, s. auto.
Qed.
(** dof i of a product, of a union *)
Lemma cdof_IC : forall l v s k Q x g, nth_error l v = Some s -> (k < infa s)%nat ->
  cdof (IC l) Q x (list_sum (firstn v (map infa l)) + k) g = cdof s Q x k (fun X c => g X (list_sum (firstn v (map idim l)) + c)%nat).
Proof.
  intros l v s k Q x g Hl Hk. cbn [cdof].
  assert (H : forall l v i sh, nth_error l v = Some s -> i = (list_sum (firstn v (map infa l)) + k)%nat ->
    (fix go l i sh := match l with [] => 0 | s :: r => if (i <? infa s)%nat then cdof s Q x i (fun X c => g X (sh + c)%nat) else go r (i - infa s)%nat (sh + idim s)%nat end) l i sh
    = cdof s Q x k (fun X c => g X (sh + list_sum (firstn v (map idim l)) + c)%nat)).
  { clear - Hk. induction l as [|a l IH]; intros v i sh Hv Hi; [now destruct v|]. destruct v as [|v]; cbn [nth_error map firstn] in Hv, Hi |- *.
    - injection Hv as ->. rewrite list_sum_nil in Hi |- *. cbn in Hi. subst i. destruct (Nat.ltb_spec k (infa s)); [|lia]. f_equal. apply functional_extensionality. intros X. apply functional_extensionality. intros c. f_equal. lia.
    - rewrite list_sum_cons in Hi |- *. destruct (Nat.ltb_spec i (infa a)); [lia|]. rewrite (IH v) by (assumption || lia). f_equal. apply functional_extensionality. intros X. apply functional_extensionality. intros c. f_equal. lia. }
  rewrite (H l v _ 0%nat Hl eq_refl). reflexivity.
Qed.
Definition sub_dof (l : list isp) (Q : quads) (x : tetra) (j : nat) (g : vec -> nat -> R) : R :=
  (fix go l j := match l with [] => 0 | s :: r => if (j <? infa s)%nat then cdof s Q x j g else go r (j - infa s)%nat end) l j.
Lemma sub_dof_at : forall l v s k Q x g, nth_error l v = Some s -> (k < infa s)%nat -> sub_dof l Q x (list_sum (firstn v (map infa l)) + k) g = cdof s Q x k g.
Proof.
  intros l v s k Q x g Hl Hk. assert (H : forall l v i, nth_error l v = Some s -> i = (list_sum (firstn v (map infa l)) + k)%nat -> sub_dof l Q x i g = cdof s Q x k g); [|now apply (H l v)].
  clear l v Hl. unfold sub_dof. induction l as [|a l IH]; intros v i Hv Hi; [now destruct v|]. destruct v as [|v]; cbn [nth_error map firstn] in Hv, Hi |- *.
  - injection Hv as ->. rewrite list_sum_nil in Hi. cbn in Hi. subst i. destruct (Nat.ltb_spec k (infa s)); [reflexivity|lia].
  - rewrite list_sum_cons in Hi. destruct (Nat.ltb_spec i (infa a)); [lia|]. apply (IH v); [assumption|lia].
Qed.
Lemma cdof_IU : forall l W Q x i g, cdof (IU l W) Q x i g = Rsum (list_sum (map infa l)) (fun j => nth (i + list_sum (map infa l) * j) W 0 * sub_dof l Q x j g).
Proof. reflexivity. Qed.

(** *** The dof of a function depends on its first components only *)
Lemma dof_value_ext : forall s Q x g g' i, (forall X c, (c < fdim s)%nat -> g X c = g' X c) -> dof_value s Q x g i 0 = dof_value s Q x g' i 0.
Proof.
  intros s Q x g g' i H. assert (HR : forall (n : nat) (a b : nat -> R), (forall k, (k < n)%nat -> a k = b k) -> Rsum n a = Rsum n b) by (intros; now apply Rsum_ext).
  destruct s; cbn [dof_value fdim] in *; try (apply H; lia); try (f_equal; apply functional_extensionality; intros p; apply H; lia).
  - f_equal. apply functional_extensionality. intros p. apply HR. intros k Hk. rewrite H by lia. reflexivity.
  - destruct (edge_of i) as [a b]. f_equal. apply functional_extensionality. intros p. apply HR. intros k Hk. rewrite H by lia. reflexivity.
Qed.
Lemma part_bound : forall l v s (f : isp -> nat), nth_error l v = Some s -> (list_sum (firstn v (map f l)) + f s <= list_sum (map f l))%nat.
Proof.
  intros l v s f H. assert (Hv : (v < length (map f l))%nat) by (rewrite map_length; apply nth_error_Some; congruence).
  assert (E := list_sum_firstn_S (map f l) v Hv). rewrite (nth_size l v s f H) in E. assert (L := list_sum_firstn_le (map f l) (S v) (length (map f l)) ltac:(lia)). rewrite firstn_all in L. lia.
Qed.
Lemma cdof_ext : forall s Q x i g g', iwf s -> (i < infa s)%nat -> (forall X c, (c < idim s)%nat -> g X c = g' X c) -> cdof s Q x i g = cdof s Q x i g'.
Proof.
  intros s Q x. induction s as [s|n s IH|l IH|l W IH] using isp_ind'; intros i g g' Hw Hi H.
  - now apply dof_value_ext.
  - cbn [cdof infa idim iwf] in *. assert (0 < infa s)%nat by (destruct (infa s); lia). apply IH; [exact Hw|apply Nat.mod_upper_bound; lia|]. intros X c Hc. apply H.
    assert (i / infa s < n)%nat by (apply Nat.div_lt_upper_bound; lia). nia.
  - destruct (part_ex l i Hi) as (v & k & s & _ & Es & Hk & ->). rewrite !(cdof_IC l v s) by assumption. rewrite Forall_forall in IH. assert (Hin := nth_error_In' _ _ _ Es).
    apply IH; [exact Hin|eapply all_of; [exact Hw|exact Hin]|exact Hk|]. intros X c Hc. apply H. cbn [idim]. assert (B := part_bound l v s idim Es). lia.
  - rewrite !cdof_IU. apply Rsum_ext. intros j Hj. f_equal. destruct (part_ex l j Hj) as (v & k & s & _ & Es & Hk & ->). rewrite !(sub_dof_at l v s) by assumption. rewrite Forall_forall in IH. assert (Hin := nth_error_In' _ _ _ Es).
    destruct Hw as (Hw & Hd & _). apply IH; [exact Hin|eapply all_of; [exact Hw|exact Hin]|exact Hk|]. intros X c Hc. apply H. now rewrite <- (Hd s Hin).
Qed.
Lemma dof_value_fused : forall s Q x F i r, dof_value s Q x F i r = dof_value s Q x (fun_of (fdim s) r F) i 0.
Proof.
  intros s Q x F i r. unfold fun_of. destruct s; cbn [dof_value fdim]; rewrite ?Nat.mul_1_r, ?Nat.add_0_r; try reflexivity.
  - f_equal. apply functional_extensionality. intros p. apply Rsum_ext. intros c Hc. do 2 f_equal. lia.
  - destruct (edge_of i) as [a b]. f_equal. apply functional_extensionality. intros p. apply Rsum_ext. intros c Hc. do 2 f_equal. lia.
Qed.

(** *** Moved views *)
Lemma combine_nth_error : forall {A B} (l : list A) (m : list B) n a b, nth_error l n = Some a -> nth_error m n = Some b -> nth_error (List.combine l m) n = Some (a, b).
Proof. intros A B. induction l as [|x l IH]; intros m n a b H1 H2; [now destruct n|]. destruct m as [|y m]; [now destruct n|]. destruct n; cbn in *; [congruence|now apply IH]. Qed.
Lemma nth_error_firstn' : forall {A} (l : list A) n k, (k < n)%nat -> nth_error (firstn n l) k = nth_error l k.
Proof. intros A. induction l as [|x l IH]; intros [|n] [|k] H; cbn; try reflexivity; try lia. apply IH. lia. Qed.
Lemma nth_error_skipn' : forall {A} (l : list A) n k, nth_error (skipn n l) k = nth_error l (n + k).
Proof. intros A. induction l as [|x l IH]; intros [|n] k; cbn; try reflexivity; [now destruct k|]. apply IH. Qed.
Lemma on_tail_ok : forall fusion o j v f ud, has_dof fusion (o + j) ud ->
  (forall ts, has_dof fusion j ts -> exists ts', f ts = Some ts' /\ entered fusion j v ts ts') ->
  exists ud', on_tail fusion o f ud = Some ud' /\ entered fusion (o + j) v ud ud'.
Proof.
  intros fusion o j v f ud Hd Hf. unfold on_tail.
  assert (Hl : (fusion <= length ud)%nat). { destruct fusion as [|n]; [lia|]. destruct (Hd n ltac:(lia)) as (a & Ea & _). apply rd_lt in Ea. lia. }
  assert (G : forallb (fun a => o <=? length a)%nat (firstn fusion ud) = true).
  { apply forallb_forall. intros a Ha. apply In_nth_error in Ha as (r & Er). assert (Hr : (r < fusion)%nat). { assert (nth_error (firstn fusion ud) r <> None) by congruence. apply nth_error_Some in H. rewrite firstn_length in H. lia. }
    rewrite nth_error_firstn' in Er by lia. destruct (Hd r Hr) as (b & Eb & Hb). unfold rd in Eb. assert (a = b) by congruence. subst. apply Nat.leb_le. lia. }
  rewrite G. replace (fusion <=? length ud)%nat with true by (symmetry; now apply Nat.leb_le). cbn [guard andb obind].
  destruct (Hf (map (skipn o) (firstn fusion ud))) as (ts' & E & L & P).
  { intros r Hr. destruct (Hd r Hr) as (a & Ea & Ha). exists (skipn o a). split; [|rewrite skipn_length; lia]. unfold rd in *. apply map_nth_error. now rewrite nth_error_firstn'. }
  rewrite E. cbn [obind]. eexists. split; [reflexivity|]. rewrite map_length, firstn_length, Nat.min_l in L by lia.
  assert (Lc : length (map (fun at_ => firstn o (fst at_) ++ snd at_) (List.combine (firstn fusion ud) ts')) = fusion) by (rewrite map_length, combine_length, firstn_length; lia).
  split; [rewrite app_length, Lc, skipn_length; lia|].
  intros r a Ha. destruct (Nat.lt_ge_cases r fusion) as [Hr|Hr].
  - destruct (P r (skipn o a)) as (t & Et & Lt & Rt). { unfold rd in *. apply map_nth_error. now rewrite nth_error_firstn'. }
    destruct (Hd r Hr) as (a' & Ea & La). assert (a' = a) by congruence. subst a'. exists (firstn o a ++ t). split; [|split].
    + unfold rd. rewrite nth_error_app1 by lia. rewrite (map_nth_error _ r (List.combine (firstn fusion ud) ts') (combine_nth_error _ _ r a t (eq_trans (nth_error_firstn' ud fusion r Hr) Ha) Et)). reflexivity.
    + rewrite app_length, firstn_length, Lt, skipn_length. lia.
    + intros k. destruct (Nat.ltb_spec r fusion) as [_|]; [|lia]. unfold rd in *. destruct (Nat.lt_ge_cases k o) as [Hk|Hk].
      * rewrite nth_error_app1 by (rewrite firstn_length; lia). rewrite nth_error_firstn' by lia. destruct (Nat.eqb_spec k (o + j)); [lia|reflexivity].
      * rewrite nth_error_app2 by (rewrite firstn_length; lia). rewrite firstn_length, Nat.min_l by lia. rewrite Rt, nth_error_skipn'. destruct (Nat.ltb_spec r fusion) as [_|]; [|lia]. cbn [andb].
        destruct (Nat.eqb_spec (k - o) j), (Nat.eqb_spec k (o + j)); try lia; [reflexivity|]. f_equal. lia.
  - exists a. split; [|split; [reflexivity|]].
    + unfold rd in *. rewrite nth_error_app2 by lia. rewrite Lc, nth_error_skipn'. now replace (fusion + (r - fusion))%nat with r by lia.
    + intros k. destruct (Nat.ltb_spec r fusion); [lia|reflexivity].
Qed.
(** *** Memory requests *)
Lemma over_row_total : forall {S} W nf i l (body : nat -> nat -> R -> S -> option S) (I : S -> Prop) s0, nf = list_sum (map infa l) -> length W = (nf * nf)%nat -> (i < nf)%nat -> I s0 ->
  (forall v k s w st, nth_error l v = Some s -> (k < infa s)%nat -> w = nth (i + nf * (list_sum (firstn v (map infa l)) + k)) W 0 -> w <> 0 -> I st -> exists st', body v k w st = Some st' /\ I st') ->
  exists st', over_row W nf i (map infa l) body s0 = Some st' /\ I st'.
Proof.
  intros S W nf i l body I s0 Enf HW Hi H0 H. unfold over_row. destruct (for_inv (fun _ st => I st) nf (fun j s => do w <- rd W (i + nf * j); if Req_EM_T w 0 then Some s else do (c, k) <- comp_of (map infa l) j; body c k w s) s0) as (s' & E & P); [exact H0| |now exists s'].
  intros j st Hj Hst. assert (Ew : rd W (i + nf * j) = Some (nth (i + nf * j) W 0)) by (apply nth_error_nth'; nia). rewrite Ew. cbn [obind].
  destruct (Req_EM_T (nth (i + nf * j) W 0) 0) as [e|e]; [now exists st|]. rewrite Enf in Hj. destruct (part_ex l j Hj) as (v & k & s & Ec & Es & Hk & Ej). rewrite Ec. cbn [obind]. apply (H v k s); auto. now rewrite <- Ej.
Qed.
Lemma max_row_total : forall W nf i l, nf = list_sum (map infa l) -> length W = (nf * nf)%nat -> (i < nf)%nat -> exists mx, max_row W nf i (map infa l) = Some mx.
Proof.
  intros W nf i l H1 H2 H3. unfold max_row. destruct (over_row_total W nf i l (fun c _ _ a => do sz <- rd (map infa l) c; Some (Nat.max a sz)) (fun _ => True) 0%nat H1 H2 H3 Logic.I) as (s & E & _); [|now exists s].
  intros v k s w st Hs Hk _ _ _. rewrite (rd_map infa l v s Hs). cbn [obind]. eauto.
Qed.
Lemma imem_total : forall s i fusion, iwf s -> (i < infa s)%nat -> exists m, imem s i fusion = Some m.
Proof.
  induction s as [s|n s IH|l IH|l W IH] using isp_ind'; intros i fusion Hw Hi; cbn [imem].
  - eauto.
  - cbn [infa iwf] in *. assert (0 < infa s)%nat by (destruct (infa s); lia). destruct (Nat.ltb_spec 0 (infa s)); [|lia]. cbn [guard obind]. destruct (IH (i mod infa s)%nat fusion Hw) as (m & E); [apply Nat.mod_upper_bound; lia|]. rewrite E. cbn [obind]. eauto.
  - cbn [infa] in Hi. destruct (part_ex l i Hi) as (v & k & s & Ec & Es & Hk & Ei). rewrite Ec. cbn [obind]. rewrite (rd_map _ l v s Es). cbn [obind]. rewrite Forall_forall in IH.
    destruct (IH s (nth_error_In' _ _ _ Es) k fusion (all_of _ _ _ Hw (nth_error_In' _ _ _ Es)) Hk) as (m & E). rewrite E. cbn [obind]. eauto.
  - destruct (is_nil l || is_nil W)%bool; [eauto|]. destruct Hw as (Hw & _ & HW & _). cbn [infa] in Hi. rewrite Forall_forall in IH.
    destruct (over_row_total W _ i l (fun c k _ a => do f <- rd (map (fun s k => imem s k fusion) l) c; do b <- f k; Some (Nat.max a b)) (fun _ => True) 0%nat eq_refl HW Hi Logic.I) as (m & E & _).
    { intros v k s w st Es Hk _ _ _. rewrite (rd_map _ l v s Es). cbn [obind]. destruct (IH s (nth_error_In' _ _ _ Es) k fusion (all_of _ _ _ Hw (nth_error_In' _ _ _ Es)) Hk) as (b & Eb). rewrite Eb. cbn [obind]. eauto. }
    rewrite E. cbn [obind]. destruct (max_row_total W _ i l eq_refl HW Hi) as (mx & Em). rewrite Em. cbn [obind]. eauto.
Qed.

(** *** The main result *)
Lemma accumulate : forall fusion k w (v : nat -> R) t acc (a : nat -> R), length acc = fusion -> (forall r, (r < fusion)%nat -> rd acc r = Some (a r)) ->
  (forall r, (r < fusion)%nat -> exists b, rd t r = Some b /\ rd b k = Some (v r)) ->
  exists acc', for_ fusion (fun r acc => do a <- rd t r; do v <- rd a k; do y <- rd acc r; wr acc r (y + w * v)) acc = Some acc' /\ length acc' = fusion /\
    forall r, (r < fusion)%nat -> rd acc' r = Some (a r + w * v r).
Proof.
  intros fusion k w v t acc a La Ha Ht.
  destruct (for_inv (fun n s => length s = fusion /\ forall r, (r < fusion)%nat -> rd s r = Some (if (r <? n)%nat then a r + w * v r else a r)) fusion
    (fun r acc => do a <- rd t r; do v <- rd a k; do y <- rd acc r; wr acc r (y + w * v)) acc) as (s' & E & L & P).
  - split; [exact La|]. intros r Hr. now rewrite Ha.
  - intros r s Hr (L & P). destruct (Ht r Hr) as (b & Eb & Ev). rewrite Eb. cbn [obind]. rewrite Ev. cbn [obind]. rewrite P by exact Hr. destruct (Nat.ltb_spec r r); [lia|]. cbn [obind].
    destruct (wr_some s r (a r + w * v r)) as (s2 & E2 & L2 & R2); [lia|]. exists s2. split; [exact E2|]. split; [congruence|]. intros q Hq. rewrite R2, P by exact Hq.
    destruct (Nat.eqb_spec q r) as [->|Hne]; [destruct (Nat.ltb_spec r (S r)); [reflexivity|lia]|]. destruct (Nat.ltb_spec q r), (Nat.ltb_spec q (S r)); try lia; reflexivity.
  - exists s'. split; [exact E|]. split; [exact L|]. intros r Hr. rewrite P by exact Hr. destruct (Nat.ltb_spec r fusion); [reflexivity|lia].
Qed.
Lemma put_list : forall fusion i acc (v : nat -> R) ud, has_dof fusion i ud -> (forall r, (r < fusion)%nat -> rd acc r = Some (v r)) ->
  exists ud', for_ fusion (fun r ud => do v <- rd acc r; do a <- rd ud r; do a <- wr a i v; wr ud r a) ud = Some ud' /\ entered fusion i v ud ud'.
Proof.
  intros fusion i acc v ud Hd Ha. destruct (put_ok fusion i v ud Hd) as (ud' & E & H). exists ud'. split; [|exact H]. rewrite <- E. unfold put. apply GeoProofs2.for_ext. intros r s Hr. now rewrite Ha.
Qed.
Lemma entered_rd : forall fusion i v ud ud' r, entered fusion i v ud ud' -> has_dof fusion i ud -> (r < fusion)%nat -> exists b, rd ud' r = Some b /\ rd b i = Some (v r).
Proof.
  intros fusion i v ud ud' r (L & P) Hd Hr. destruct (Hd r Hr) as (a & Ea & La). destruct (P r a Ea) as (b & Eb & Lb & Rb). exists b. split; [exact Eb|]. rewrite Rb. destruct (Nat.ltb_spec r fusion); [|lia]. now rewrite Nat.eqb_refl.
Qed.
Lemma max_row_bound : forall W nf i l mx v s k, nf = list_sum (map infa l) -> length W = (nf * nf)%nat -> (i < nf)%nat -> max_row W nf i (map infa l) = Some mx ->
  nth_error l v = Some s -> (k < infa s)%nat -> nth (i + nf * (list_sum (firstn v (map infa l)) + k)) W 0 <> 0 -> (infa s <= mx)%nat.
Proof.
  intros W nf i l mx v s k Enf HW Hi Em Es Hk Hw. set (j := (list_sum (firstn v (map infa l)) + k)%nat) in *.
  assert (Hj : (j < nf)%nat) by (assert (B := part_bound l v s infa Es); lia).
  destruct (for_inv (fun n (a : nat) => (j < n)%nat -> (infa s <= a)%nat) nf (fun j s => do w <- rd W (i + nf * j); if Req_EM_T w 0 then Some s else do (c, _) <- comp_of (map infa l) j; do sz <- rd (map infa l) c; Some (Nat.max s sz)) 0%nat) as (s' & E & P); [lia| |].
  - intros j' st Hj' Hst. assert (Ew : rd W (i + nf * j') = Some (nth (i + nf * j') W 0)) by (apply nth_error_nth'; nia). rewrite Ew. cbn [obind].
    destruct (Req_EM_T (nth (i + nf * j') W 0) 0) as [e|e].
    + exists st. split; [reflexivity|]. intros H. assert (j' <> j) by congruence. apply Hst. lia.
    + rewrite Enf in Hj'. destruct (part_ex l j' Hj') as (v' & k' & s1 & Ec & Es' & Hk' & Ej). rewrite Ec. cbn [obind]. rewrite (rd_map infa l v' s1 Es'). cbn [obind]. eexists. split; [reflexivity|]. intros H.
      destruct (Nat.eq_dec j j') as [<-|Hne]; [|assert (infa s <= st)%nat by (apply Hst; lia); lia].
      unfold j in Ec. rewrite comp_of_at in Ec by (rewrite ?map_length, ?(nth_size l v s infa Es); trivial; apply nth_error_Some; congruence). injection Ec as <- <-. assert (s1 = s) by congruence. subst. lia.
  - unfold max_row, over_row in Em. assert (s' = mx). { apply (f_equal (fun o => match o with Some y => y | None => 0%nat end)) in E, Em. cbn in E, Em. rewrite <- E, <- Em. reflexivity. } subst. auto.
Qed.
Lemma over_row_bound : forall W nf i l (f : nat -> nat -> option nat) m v s k b, nf = list_sum (map infa l) -> length W = (nf * nf)%nat -> (i < nf)%nat ->
  over_row W nf i (map infa l) (fun c k _ a => do b <- f c k; Some (Nat.max a b)) 0%nat = Some m ->
  nth_error l v = Some s -> (k < infa s)%nat -> nth (i + nf * (list_sum (firstn v (map infa l)) + k)) W 0 <> 0 -> f v k = Some b -> (b <= m)%nat.
Proof.
  intros W nf i l f m v s k b Enf HW Hi Em Es Hk Hw Ef. set (j := (list_sum (firstn v (map infa l)) + k)%nat) in *.
  assert (Hj : (j < nf)%nat) by (assert (B := part_bound l v s infa Es); lia).
  unfold over_row, for_ in Em.
  assert (G : forall n lo a, (lo + n = nf)%nat -> (lo <= j \/ b <= a)%nat -> for_range lo n (fun j s => do w <- rd W (i + nf * j); if Req_EM_T w 0 then Some s else do (c, k) <- comp_of (map infa l) j; do b <- f c k; Some (Nat.max s b)) a = Some m -> (b <= m)%nat).
  2:{ apply (G nf 0%nat 0%nat); [lia|lia|exact Em]. }
  induction n as [|n IH]; intros lo a Hlo Ha E; cbn [for_range] in E.
  - injection E as ->. lia.
  - assert (Ew : rd W (i + nf * lo) = Some (nth (i + nf * lo) W 0)) by (apply nth_error_nth'; nia). rewrite Ew in E. cbn [obind] in E.
    destruct (Req_EM_T (nth (i + nf * lo) W 0) 0) as [e|e]; cbn [obind] in E.
    + apply (IH (S lo) a); [lia| |exact E]. assert (lo <> j) by congruence. lia.
    + destruct (comp_of (map infa l) lo) as [[c q]|] eqn:Ec; cbn [obind] in E; [|discriminate]. destruct (f c q) as [b'|] eqn:Eb; cbn [obind] in E; [|discriminate].
      apply (IH (S lo) (Nat.max a b')); [lia| |exact E].
      destruct (Nat.eq_dec j lo) as [<-|Hne]; [|lia]. right.
      unfold j in Ec. rewrite comp_of_at in Ec by (rewrite ?map_length, ?(nth_size l v s infa Es); trivial; apply nth_error_Some; congruence). injection Ec as <- <-. assert (b' = b) by congruence. subst. lia.
Qed.
Section Main.
Variables (Q : quads) (x : tetra).
Hypothesis Hx : nondegenerate x.
Hypothesis H1 : on_simplex 1 (q_seg Q).
Hypothesis H2 : on_simplex 2 (q_tri Q).
Hypothesis H3 : on_simplex 3 (q_tet Q).
Notation X := (fun k => vec_of (x k)).
Lemma narrow_ok : forall gdim sh ldim F r Y c, (c < ldim)%nat -> fun_of ldim r (narrow gdim sh ldim F) Y c = fun_of gdim r F Y (sh + c)%nat.
Proof.
  intros gdim sh ldim F r Y c Hc. unfold fun_of, narrow. f_equal. rewrite (Nat.add_comm (r * ldim) c), Nat.mod_add, Nat.div_add, (Nat.mod_small c), (Nat.div_small c) by lia. lia.
Qed.
Lemma interp_ok : forall s m F fusion i ud rq, iwf s -> (i < infa s)%nat -> imem s i fusion = Some rq -> (rq <= m)%nat -> has_dof fusion i ud ->
  exists ud', interp s Q X m F fusion i ud = Some ud' /\ entered fusion i (fun r => cdof s Q x i (fun_of (idim s) r F)) ud ud'.
Proof.
  induction s as [s|n s IH|l IH|l W IH] using isp_ind'; intros m F fusion i ud rq Hw Hi Em Hm Hd.
  - cbn [interp cdof infa idim imem] in *. injection Em as Em. destruct (Nat.leb_spec (fusion * fdim s) m); [|lia]. cbn [guard obind].
    destruct (dofs_ok s Q x F fusion i ud Hx H1 H2 H3 Hi Hd) as (ud' & E & H'). exists ud'. split; [exact E|]. eapply entered_ext; [exact H'|]. intros r _. apply dof_value_fused.
  - cbn [infa iwf] in Hw, Hi. assert (Hs : (0 < infa s)%nat) by (destruct (infa s); lia). cbn [interp]. rewrite Em. cbn [obind]. destruct (Nat.leb_spec rq m); [|lia]. cbn [guard obind].
    cbn [imem] in Em. destruct (Nat.ltb_spec 0 (infa s)); [|lia]. cbn [guard obind] in Em. destruct (imem s (i mod infa s) fusion) as [m0|] eqn:E0; cbn [obind] in Em; [|discriminate]. injection Em as Em.
    assert (Hmod : (i mod infa s < infa s)%nat) by (apply Nat.mod_upper_bound; lia). assert (Ei : (i = i / infa s * infa s + i mod infa s)%nat) by (rewrite (Nat.div_mod_eq i (infa s)) at 1; lia).
    rewrite Ei in Hd.
    destruct (on_tail_ok fusion (i / infa s * infa s) (i mod infa s) (fun r => cdof (IV n s) Q x i (fun_of (idim (IV n s)) r F))
      (interp s Q X (m - fusion * n * idim s) (narrow (n * idim s) (i / infa s * idim s) (idim s) F) fusion (i mod infa s)) ud Hd) as (ud' & E & H'); [|rewrite <- Ei in H'; now exists ud'].
    intros ts Ht. destruct (IH (m - fusion * n * idim s)%nat (narrow (n * idim s) (i / infa s * idim s) (idim s) F) fusion (i mod infa s)%nat ts m0 Hw Hmod E0 ltac:(lia) Ht) as (ts' & E & H').
    exists ts'. split; [exact E|]. eapply entered_ext; [exact H'|]. intros r _. cbn [cdof]. apply cdof_ext; [exact Hw|exact Hmod|]. intros Y c Hc. cbn [idim]. now apply narrow_ok.
  - cbn [infa] in Hi. cbn [interp]. rewrite Em. cbn [obind]. destruct (Nat.leb_spec rq m); [|lia]. cbn [guard obind].
    destruct (part_ex l i Hi) as (v & k & s & Ec & Es & Hk & Ei). cbn [imem] in Em. rewrite Ec in Em |- *. cbn [obind] in Em |- *. rewrite (rd_map _ l v s Es) in Em. cbn [obind] in Em.
    destruct (imem s k fusion) as [m0|] eqn:E0; cbn [obind] in Em; [|discriminate]. injection Em as Em. rewrite (rd_map idim l v s Es). cbn [obind]. rewrite (rd_map _ l v s Es). cbn [obind].
    assert (Hin := nth_error_In' _ _ _ Es). assert (Hw' := all_of _ _ _ Hw Hin). rewrite Forall_forall in IH. replace (i - k)%nat with (list_sum (firstn v (map infa l))) by lia. rewrite Ei in Hd |- *.
    apply on_tail_ok; [exact Hd|]. intros ts Ht.
    destruct (IH s Hin (m - fusion * list_sum (map idim l))%nat (narrow (list_sum (map idim l)) (list_sum (firstn v (map idim l))) (idim s) F) fusion k ts m0 Hw' Hk E0 ltac:(lia) Ht) as (ts' & E & H').
    exists ts'. split; [exact E|]. eapply entered_ext; [exact H'|]. intros r _. rewrite (cdof_IC l v s) by assumption. apply cdof_ext; [exact Hw'|exact Hk|]. intros Y c Hc. cbn [idim]. now apply narrow_ok.
  - cbn [interp]. rewrite Em. cbn [obind]. destruct (Nat.leb_spec rq m); [|lia]. cbn [guard obind]. destruct Hw as (Hw & Hdim & HW & Hz). cbn [infa] in Hi. set (nf := list_sum (map infa l)) in *.
    assert (Hl : l <> []) by (intros ->; unfold nf in Hi; cbn [map] in Hi; rewrite list_sum_nil in Hi; lia). assert (HWn : W <> []) by (intros ->; cbn [length] in HW; nia).
    cbn [imem] in Em. fold nf in Em. replace (is_nil l || is_nil W)%bool with false in Em |- * by (destruct l; [congruence|]; destruct W; [congruence|reflexivity]).
    destruct (max_row_total W nf i l eq_refl HW Hi) as (mx & Emx). rewrite Emx in Em |- *.
    destruct (over_row W nf i (map infa l) (fun c k _ a => do f <- rd (map (fun s k => imem s k fusion) l) c; do b <- f k; Some (Nat.max a b)) 0%nat) as [m0|] eqn:E0; cbn [obind] in Em; [|discriminate]. injection Em as Em. cbn [obind].
    destruct (Hz i Hi) as (j0 & Hj0 & Hw0). destruct (part_ex l j0 Hj0) as (v0 & k0 & s0 & _ & Es0 & Hk0 & Ej0).
    assert (Hmx := max_row_bound W nf i l mx v0 s0 k0 eq_refl HW Hi Emx Es0 Hk0 ltac:(rewrite <- Ej0; exact Hw0)). destruct (Nat.eqb_spec mx 0); [lia|]. rewrite Forall_forall in IH.
    set (g := fun r => fun_of (idim (IU l W)) r F).
    set (body := fun (c k : nat) (w : R) (acc : list R) => do g <- rd (map (fun s' k ud => interp s' Q X (m - fusion * mx) F fusion k ud) l) c; do t <- g k (repeat (repeat 0 mx) fusion);
        for_ fusion (fun r acc => do a <- rd t r; do v <- rd a k; do y <- rd acc r; wr acc r (y + w * v)) acc).
    destruct (for_inv (fun n acc => length acc = fusion /\ forall r, (r < fusion)%nat -> rd acc r = Some (Rsum n (fun j => nth (i + nf * j) W 0 * sub_dof l Q x j (g r)))) nf
      (fun j s => do w <- rd W (i + nf * j); if Req_EM_T w 0 then Some s else do (c, k) <- comp_of (map infa l) j; body c k w s) (repeat 0 fusion)) as (acc & Ea & La & Pa).
    + split; [apply repeat_length|]. intros r Hr. cbn [Rsum]. apply nth_error_repeat. exact Hr.
    + intros j acc Hj (La & Pa). assert (Ew : rd W (i + nf * j) = Some (nth (i + nf * j) W 0)) by (apply nth_error_nth'; nia). rewrite Ew. cbn [obind].
      destruct (Req_EM_T (nth (i + nf * j) W 0) 0) as [e|e].
      { exists acc. split; [reflexivity|]. split; [exact La|]. intros r Hr. rewrite Pa by exact Hr. f_equal. rewrite Rsum_S, e. ring. }
      destruct (part_ex l j Hj) as (v & k & s & Ec & Es & Hk & Ej). rewrite Ec. cbn [obind]. unfold body at 1. rewrite (rd_map _ l v s Es). cbn [obind].
      assert (Hin := nth_error_In' _ _ _ Es). assert (Hw' := all_of _ _ _ Hw Hin). rewrite Ej in e.
      assert (Hb := max_row_bound W nf i l mx v s k eq_refl HW Hi Emx Es Hk e). destruct (imem_total s k fusion Hw' Hk) as (b & Eb).
      assert (Hm0 : (b <= m0)%nat). { apply (over_row_bound W nf i l (fun c k => do f <- rd (map (fun s k => imem s k fusion) l) c; f k) m0 v s k b eq_refl HW Hi); trivial.
        - rewrite <- E0. unfold over_row. apply GeoProofs2.for_ext. intros j' st Hj'. destruct (rd W (i + nf * j')); cbn [obind]; [|reflexivity]. destruct (Req_EM_T r 0); [reflexivity|]. destruct (comp_of (map infa l) j') as [[c q]|]; cbn [obind]; [|reflexivity]. destruct (rd (map (fun s k => imem s k fusion) l) c); reflexivity.
        - rewrite (rd_map _ l v s Es). exact Eb. }
      assert (Ht : has_dof fusion k (repeat (repeat 0 mx) fusion)). { intros r Hr. exists (repeat 0 mx). split; [apply nth_error_repeat; exact Hr|rewrite repeat_length; lia]. }
      destruct (IH s Hin (m - fusion * mx)%nat F fusion k _ b Hw' Hk Eb ltac:(lia) Ht) as (t & Et & Pt). rewrite Et. cbn [obind].
      destruct (accumulate fusion k (nth (i + nf * j) W 0) (fun r => cdof s Q x k (fun_of (idim s) r F)) t acc _ La Pa (fun r Hr => entered_rd _ _ _ _ _ r Pt Ht Hr)) as (acc' & Ea' & La' & Pa').
      exists acc'. split; [exact Ea'|]. split; [exact La'|]. intros r Hr. rewrite Pa' by exact Hr. rewrite Rsum_S. do 3 f_equal. rewrite Ej. rewrite (sub_dof_at l v s) by assumption. unfold g. now rewrite <- (Hdim s Hin).
    + unfold over_row. fold body. rewrite Ea. cbn [obind].
      destruct (put_list fusion i acc _ ud Hd Pa) as (ud' & E & H'). exists ud'. split; [exact E|]. eapply entered_ext; [exact H'|]. intros r _. rewrite cdof_IU. reflexivity.
Qed.
End Main.
