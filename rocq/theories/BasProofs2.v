(** IDEN of the scalar library spaces. *)
From Verif Require Import Prelude RSum GeoModel GeoSpec SpModel BasModel BasSpec BasProofs CoreProofs SpProofs3.
Local Open Scope R_scope.

(** *** Loop rules *)
Lemma step_ext : forall (S S' : nat -> Prop) P l l', step S P l l' -> (forall c, S c <-> S' c) -> step S' P l l'.
Proof. intros S S' P l l' H E. apply (step_weak S S' P P); auto. Qed.
Lemma step2 : forall (S : nat -> nat -> nat -> Prop) P I N body l,
  (forall i n l1, (i < I)%nat -> (n < N)%nat -> length l1 = length l -> exists l', body i n l1 = Some l' /\ step (S i n) P l1 l') ->
  exists l', for_ I (fun i l => for_ N (fun n l => body i n l) l) l = Some l' /\ step (fun c => exists i n, (i < I)%nat /\ (n < N)%nat /\ S i n c) P l l'.
Proof.
  intros S P I N body l H. destruct (for_step_len (fun i c => exists n, (n < N)%nat /\ S i n c) P I (fun i l => for_ N (fun n l => body i n l) l) l) as (l' & E & St).
  - intros i l1 Hi L1. apply (for_step_len (fun n c => S i n c)). intros n l2 Hn L2. apply H; congruence || assumption.
  - exists l'. split; [exact E|]. eapply step_ext; [exact St|]. intros c. split; [intros (i & Hi & n & Hn & Hc); exists i, n; auto|intros (i & n & Hi & Hn & Hc); exists i; eauto].
Qed.
Lemma step3 : forall (S : nat -> nat -> nat -> nat -> Prop) P I N K body l,
  (forall i n k l1, (i < I)%nat -> (n < N)%nat -> (k < K)%nat -> length l1 = length l -> exists l', body i n k l1 = Some l' /\ step (S i n k) P l1 l') ->
  exists l', for_ I (fun i l => for_ N (fun n l => for_ K (fun k l => body i n k l) l) l) l = Some l' /\ step (fun c => exists i n k, (i < I)%nat /\ (n < N)%nat /\ (k < K)%nat /\ S i n k c) P l l'.
Proof.
  intros S P I N K body l H. destruct (for_step_len (fun i c => exists n k, (n < N)%nat /\ (k < K)%nat /\ S i n k c) P I (fun i l => for_ N (fun n l => for_ K (fun k l => body i n k l) l) l) l) as (l' & E & St).
  - intros i l1 Hi L1. apply (step2 (fun n k c => S i n k c)). intros n k l2 Hn Hk L2. apply H; congruence || assumption.
  - exists l'. split; [exact E|]. eapply step_ext; [exact St|]. intros c. split; [intros (i & Hi & n & k & Hn & Hk & Hc); exists i, n, k; auto|intros (i & n & k & Hi & Hn & Hk & Hc); exists i; eauto 6].
Qed.
Lemma for_range_shift : forall {A} (n lo : nat) (b : nat -> A -> option A) s, for_range lo n b s = for_ n (fun i s => b (lo + i)%nat s) s.
Proof.
  intros A n lo b s. unfold for_. assert (H : forall m k s, for_range (lo + k) m b s = for_range k m (fun i s => b (lo + i)%nat s) s).
  { induction m as [|m IH]; intros k s'; [reflexivity|]. cbn [for_range]. destruct (b (lo + k)%nat s'); [|reflexivity]. cbn [obind]. rewrite <- IH. f_equal. lia. }
  specialize (H n 0%nat s). now rewrite Nat.add_0_r in H.
Qed.
Lemma guard_true : forall b {A} (e : option A), b = true -> (do _ <- guard b; e) = e.
Proof. intros b A e ->. reflexivity. Qed.

(** *** Cells *)
Lemma cell_lt : forall d q nf f r n k i, (r < f)%nat -> (i < nf)%nat -> (n < q)%nat -> (k < d)%nat -> (cell d q nf r n k i < d * q * (nf * f))%nat.
Proof.
  intros d q nf f r n k i Hr Hi Hn Hk. unfold cell. assert (H1 := idx_lt nf f i r Hi Hr). assert (H2 := idx_lt q (nf * f) n (i + nf * r) Hn H1).
  assert (H3 := idx_lt d (q * (nf * f)) k _ Hk H2). rewrite <- Nat.mul_assoc. exact H3.
Qed.
Lemma cell_inj : forall d q nf r n k i r' n' k' i', (i < nf)%nat -> (n < q)%nat -> (k < d)%nat -> (i' < nf)%nat -> (n' < q)%nat -> (k' < d)%nat ->
  cell d q nf r n k i = cell d q nf r' n' k' i' -> r = r' /\ n = n' /\ k = k' /\ i = i'.
Proof.
  intros d q nf r n k i r' n' k' i' Hi Hn Hk Hi' Hn' Hk' E. unfold cell in E.
  destruct (DirProofs2.cell_inj d _ _ _ _ Hk Hk' E) as [E1 E2]. destruct (DirProofs2.cell_inj q _ _ _ _ Hn Hn' E2) as [E3 E4].
  destruct (DirProofs2.cell_inj nf _ _ _ _ Hi Hi' E4) as [E5 E6]. auto.
Qed.
(** what may be written into cell c of a table with values v *)
Definition good (d q nf f : nat) (v : nat -> nat -> nat -> nat -> R) (c : nat) (y : R) : Prop :=
  forall r i n k, (r < f)%nat -> (i < nf)%nat -> (n < q)%nat -> (k < d)%nat -> c = cell d q nf r n k i -> y = v r n k i.
Lemma good_wr : forall d q nf f v U c y r i n k, (d * q * (nf * f) <= length U)%nat -> (r < f)%nat -> (i < nf)%nat -> (n < q)%nat -> (k < d)%nat ->
  c = cell d q nf r n k i -> y = v r n k i -> exists U', wr U c y = Some U' /\ step (fun c' => c' = c) (good d q nf f v) U U'.
Proof.
  intros d q nf f v U c y r i n k HU Hr Hi Hn Hk Hc Hy. apply step_wr.
  - assert (H := cell_lt d q nf f r n k i Hr Hi Hn Hk). lia.
  - intros r' i' n' k' Hr' Hi' Hn' Hk' E. rewrite Hc in E. apply cell_inj in E as (-> & -> & -> & ->); auto.
Qed.
Lemma table_intro : forall d q nf f v (S : nat -> Prop) U U', step S (good d q nf f v) U U' ->
  (forall r i n k, (r < f)%nat -> (i < nf)%nat -> (n < q)%nat -> (k < d)%nat -> S (cell d q nf r n k i)) -> has_table d q nf f v U'.
Proof.
  intros d q nf f v S U U' (_ & H & _) HS r i n k Hr Hi Hn Hk. destruct (H _ (HS r i n k Hr Hi Hn Hk)) as (y & E & Hy). rewrite E. f_equal. eapply Hy; eauto.
Qed.
Lemma after_intro : forall sz (S : nat -> Prop) P U U', step S P U U' -> (forall c, S c -> (c < sz)%nat) -> same_after sz U U'.
Proof. intros sz S P U U' (L & _ & H) HS. split; [exact L|]. intros c Hc. destruct (H c) as [E|E]; [exact E|]. apply HS in E. lia. Qed.
Lemma after_trans : forall sz U1 U2 U3, same_after sz U1 U2 -> same_after sz U2 U3 -> same_after sz U1 U3.
Proof. intros sz U1 U2 U3 (A & B) (C & D). split; [congruence|]. intros c Hc. rewrite D by exact Hc. now apply B. Qed.
Lemma after_le : forall a b U U', (a <= b)%nat -> same_after a U U' -> same_after b U U'.
Proof. intros a b U U' H (A & B). split; [exact A|]. intros c Hc. apply B. lia. Qed.
Lemma after_refl : forall a U, same_after a U U.
Proof. intros. now split. Qed.
Lemma table_ext : forall d q nf f v v' U, has_table d q nf f v U -> (forall r i n k, (r < f)%nat -> (i < nf)%nat -> (n < q)%nat -> (k < d)%nat -> v r n k i = v' r n k i) -> has_table d q nf f v' U.
Proof. intros d q nf f v v' U H E r i n k Hr Hi Hn Hk. rewrite <- E by assumption. now apply H. Qed.
(** results of an operator *)
Definition tabulates (d q nf f : nat) (v : nat -> nat -> nat -> nat -> R) (U : list R) (res : option (list R)) : Prop :=
  exists U', res = Some U' /\ has_table d q nf f v U' /\ same_after (d * q * (nf * f)) U U'.
Lemma tab_intro : forall d q nf f v U U' (S : nat -> Prop) res, res = Some U' -> step S (good d q nf f v) U U' ->
  (forall r i n k, (r < f)%nat -> (i < nf)%nat -> (n < q)%nat -> (k < d)%nat -> S (cell d q nf r n k i)) -> (forall c, S c -> (c < d * q * (nf * f))%nat) -> tabulates d q nf f v U res.
Proof. intros d q nf f v U U' S res E St H1 H2. exists U'. split; [exact E|]. split; [exact (table_intro _ _ _ _ _ _ _ _ St H1)|exact (after_intro _ _ _ _ _ St H2)]. Qed.
Lemma tab_ext : forall d q nf f v v' U res, tabulates d q nf f v U res -> (forall r i n k, (r < f)%nat -> (i < nf)%nat -> (n < q)%nat -> (k < d)%nat -> v r n k i = v' r n k i) -> tabulates d q nf f v' U res.
Proof. intros d q nf f v v' U res (U' & E & T & A) H. exists U'. split; [exact E|]. split; [|exact A]. exact (table_ext _ _ _ _ _ _ _ T H). Qed.

(** *** Fills and copies *)
Lemma fill_n_ok : forall d q nf f a U, (d * q * (nf * f) <= length U)%nat -> tabulates d q nf f (fun _ _ _ _ => a) U (fill_n (d * q * (nf * f)) a U).
Proof.
  intros d q nf f a U H. destruct (for_step_len (fun p c => c = p) (fun _ y => y = a) (d * q * (nf * f)) (fun p U => wr U p a) U) as (U' & E & St).
  - intros p U1 Hp L. apply step_wr; [lia|reflexivity].
  - exists U'. split; [exact E|]. destruct St as (L & St & Fr). split.
    + intros r i n k Hr Hi Hn Hk. destruct (St (cell d q nf r n k i)) as (y & Ey & ->); [|exact Ey]. exists (cell d q nf r n k i). split; [now apply cell_lt|reflexivity].
    + split; [exact L|]. intros c Hc. destruct (Fr c) as [F|(p & Hp & ->)]; [exact F|lia].
Qed.
(* first element to the others, dimension one *)
Lemma copy_cells_ok : forall f q nf (w : nat -> nat -> R) U, (1 <= f)%nat -> (1 * q * (nf * f) <= length U)%nat -> (forall i n, (i < nf)%nat -> (n < q)%nat -> rd U (n + q * i) = Some (w n i)) ->
  tabulates 1 q nf f (fun _ n _ i => w n i) U (copy_cells f q nf U).
Proof.
  intros f q nf w U Hf HU H0. unfold copy_cells. set (v := fun _ n _ i => w n i : R).
  destruct (for_range_step (fun r c => exists i n, (i < nf)%nat /\ (n < q)%nat /\ c = cell 1 q nf r n 0 i) (good 1 q nf f v)
    (fun l => length l = length U /\ forall c, (c < q * nf)%nat -> rd l c = rd U c) (f - 1) 1
    (fun r U => for_ nf (fun i U => for_ q (fun n U => do v <- rd U (n + q * i); wr U (n + q * (i + r * nf)) v) U) U) U) as (U' & E & St & L' & I').
  - split; [reflexivity|auto].
  - intros r l Hr (L & Hl).
    destruct (for_step (fun i c => exists n, (n < q)%nat /\ c = cell 1 q nf r n 0 i) (good 1 q nf f v) (fun l => length l = length U /\ forall c, (c < q * nf)%nat -> rd l c = rd U c) nf
      (fun i U => for_ q (fun n U => do v <- rd U (n + q * i); wr U (n + q * (i + r * nf)) v) U) l) as (l' & E & St & I2).
    + split; auto.
    + intros i l1 Hi (L1 & H1).
      destruct (for_step (fun n c => c = cell 1 q nf r n 0 i) (good 1 q nf f v) (fun l => length l = length U /\ forall c, (c < q * nf)%nat -> rd l c = rd U c) q
        (fun n U => do v <- rd U (n + q * i); wr U (n + q * (i + r * nf)) v) l1) as (l2 & E2 & St2 & I3); [split; auto| |now exists l2].
      intros n l3 Hn (L3 & H3). assert (Hc : (n + q * i < q * nf)%nat) by (apply idx_lt; assumption). rewrite H3 by exact Hc. rewrite H0 by assumption. cbn [obind].
      assert (Ec : (n + q * (i + r * nf))%nat = cell 1 q nf r n 0 i) by (unfold cell; lia). rewrite Ec.
      destruct (good_wr 1 q nf f v l3 (cell 1 q nf r n 0 i) (w n i) r i n 0 ltac:(lia) ltac:(lia) Hi Hn ltac:(lia) eq_refl eq_refl) as (l4 & E4 & St4).
      exists l4. split; [exact E4|]. split; [exact St4|]. split; [destruct St4; congruence|]. intros c Hc'. rewrite (step_keep _ _ _ _ _ St4); [now apply H3|]. unfold cell. nia.
    + exists l'. split; [exact E|]. split; [|exact I2]. eapply step_ext; [exact St|]. intros c. split; [intros (i & Hi & n & Hn & Ec); exists i, n; auto|intros (i & n & Hi & Hn & Ec); exists i; eauto].
  - exists U'. split; [exact E|]. split.
    + intros r i n k Hr Hi Hn Hk. assert (k = 0)%nat as -> by lia. destruct (Nat.eq_dec r 0) as [->|Hr0].
      * unfold cell. replace (0 + 1 * (n + q * (i + nf * 0)))%nat with (n + q * i)%nat by lia. rewrite I' by (apply idx_lt; assumption). now apply H0.
      * destruct St as (_ & St & _). destruct (St (cell 1 q nf r n 0 i)) as (y & Ey & Hy); [exists r; split; [lia|]; exists i, n; auto|]. rewrite Ey. f_equal. eapply Hy; eauto.
    + apply (after_intro _ _ _ _ _ St). intros c (r & Hr & i & n & Hi & Hn & ->). apply cell_lt; lia.
Qed.
(* two copying loops with the same effect: blocks *)
Lemma copy_blocks_ok : forall f q nf (w : nat -> nat -> R) U, (1 <= f)%nat -> (1 * q * (nf * f) <= length U)%nat -> (forall i n, (i < nf)%nat -> (n < q)%nat -> rd U (n + q * i) = Some (w n i)) ->
  tabulates 1 q nf f (fun _ n _ i => w n i) U (copy_blocks f (nf * q) U).
Proof.
  intros f q nf w U Hf HU H0. unfold copy_blocks. set (v := fun _ n _ i => w n i : R). set (m := (nf * q)%nat).
  destruct (for_range_step (fun r c => exists p, (p < m)%nat /\ c = (m * r + p)%nat) (good 1 q nf f v) (fun l => length l = length U /\ forall c, (c < m)%nat -> rd l c = rd U c) (f - 1) 1
    (fun r U => for_ m (fun p U => do v <- rd U p; wr U (m * r + p) v) U) U) as (U' & E & St & L' & I').
  - split; auto.
  - intros r l Hr (L & Hl).
    destruct (for_step (fun p c => c = (m * r + p)%nat) (good 1 q nf f v) (fun l => length l = length U /\ forall c, (c < m)%nat -> rd l c = rd U c) m (fun p U => do v <- rd U p; wr U (m * r + p) v) l) as (l' & E & St & I2); [split; auto| |now exists l'].
    intros p l1 Hp (L1 & H1). rewrite H1 by exact Hp.
    assert (Hq : (q <> 0)%nat) by (intros ->; unfold m in Hp; lia).
    assert (Hn : (p mod q < q)%nat) by (now apply Nat.mod_upper_bound). assert (Hi : (p / q < nf)%nat) by (apply Nat.div_lt_upper_bound; [exact Hq|unfold m in Hp; lia]).
    assert (Ep : p = (p mod q + q * (p / q))%nat) by (rewrite Nat.add_comm; now apply Nat.div_mod).
    assert (Er : rd U p = Some (w (p mod q)%nat (p / q)%nat)) by (rewrite <- H0 by assumption; f_equal; exact Ep). rewrite Er. cbn [obind].
    assert (Ec : (m * r + p)%nat = cell 1 q nf r (p mod q) 0 (p / q)) by (unfold cell, m; revert Ep; generalize (p mod q)%nat (p / q)%nat; intros u z Ez; nia).
    destruct (good_wr 1 q nf f v l1 (m * r + p) (w (p mod q)%nat (p / q)%nat) r (p / q) (p mod q) 0 ltac:(lia) ltac:(lia) Hi Hn ltac:(lia) Ec eq_refl) as (l2 & E2 & St2).
    exists l2. split; [exact E2|]. split; [exact St2|]. split; [destruct St2; congruence|]. intros c Hc. rewrite (step_keep _ _ _ _ _ St2); [now apply H1|]. nia.
  - exists U'. split; [exact E|]. split.
    + intros r i n k Hr Hi Hn Hk. assert (k = 0)%nat as -> by lia. assert (Hc : (n + q * i < m)%nat) by (unfold m; rewrite (Nat.mul_comm nf); apply idx_lt; assumption).
      destruct (Nat.eq_dec r 0) as [->|Hr0].
      * unfold cell. replace (0 + 1 * (n + q * (i + nf * 0)))%nat with (n + q * i)%nat by lia. rewrite I' by exact Hc. now apply H0.
      * destruct St as (_ & St & _). destruct (St (cell 1 q nf r n 0 i)) as (y & Ey & Hy); [exists r; split; [lia|]; exists (n + q * i)%nat; split; [exact Hc|unfold cell, m; nia]|]. rewrite Ey. f_equal. eapply Hy; eauto.
    + apply (after_intro _ _ _ _ _ St). intros c (r & Hr & p & Hp & ->). unfold m in *. nia.
Qed.

(** *** Values in terms of the barycentric coordinates l *)
Definition sval (s : fem) (l : nat -> R) (i : nat) : R :=
  match s with
  | P0 => 1
  | P1 => l i
  | P2 => if (i <? 4)%nat then l i * (2 * l i - 1) else let (a, b) := edge_of (i - 4) in 4 * l a * l b
  | P3 =>
      if (i <? 4)%nat then l i * (3 * l i - 1) * (3 * l i - 2) / 2
      else if (i <? 16)%nat then
        let (a, b) := edge_of ((i - 4) / 2) in
        if Nat.even i then 9 / 2 * l a * l b * (3 * l a - 1) else 9 / 2 * l a * l b * (3 * l b - 1)
      else 27 * l ((i - 16) mod 4)%nat * l ((i - 16 + 1) mod 4)%nat * l ((i - 16 + 2) mod 4)%nat
  | B2 => let (a, b) := edge_of i in 4 * l a * l b
  | B4 => 256 * l 0%nat * l 1%nat * l 2%nat * l 3%nat
  | CR1 => 1 - 3 * l (opp i)
  | _ => 0
  end.
Definition scalar (s : fem) : bool := (fdim s =? 1)%nat.
Lemma sval_ext : forall s l l' i, (i < nfa s)%nat -> (forall k, (k < 4)%nat -> l k = l' k) -> sval s l i = sval s l' i.
Proof.
  intros s l l' i Hi H. unfold sval. destruct s; cbn [nfa] in Hi; try reflexivity.
  - apply H. lia.
  - destruct (Nat.ltb_spec i 4); [now rewrite H|]. destruct (edge_of (i - 4)) as [a b] eqn:E. apply edge_of_lt in E as [Ha Hb]. now rewrite !H.
  - destruct (Nat.ltb_spec i 4); [now rewrite H|]. destruct (Nat.ltb_spec i 16).
    + destruct (edge_of ((i - 4) / 2)) as [a b] eqn:E. apply edge_of_lt in E as [Ha Hb]. now rewrite !H.
    + rewrite !H by (apply Nat.mod_upper_bound; lia). reflexivity.
  - destruct (edge_of i) as [a b] eqn:E. apply edge_of_lt in E as [Ha Hb]. now rewrite !H.
  - rewrite !H by lia. reflexivity.
  - unfold opp. rewrite H by (apply Nat.mod_upper_bound; lia). reflexivity.
Qed.
Lemma shape_sval : forall s x i c y, scalar s = true -> shape s x i c y = sval s (fun k => lam x k y) i.
Proof. intros s x i c y H. destruct s; try discriminate H; reflexivity. Qed.

Lemma edges_tab : forall e, (e < 6)%nat -> exists a b, rd eI e = Some a /\ rd eJ e = Some b /\ edge_of e = (a, b) /\ (a < 4)%nat /\ (b < 4)%nat.
Proof. intros e He. destruct e as [|[|[|[|[|[|e]]]]]]; [| | | | | |lia]; cbn; eexists _, _; repeat (split; [reflexivity|]); lia. Qed.
Lemma faces_tab : forall e, (e < 4)%nat -> exists a b c, rd IPF (0 + 4 * e) = Some a /\ rd IPF (1 + 4 * e) = Some b /\ rd IPF (2 + 4 * e) = Some c /\ (a < 4)%nat /\ (b < 4)%nat /\ (c < 4)%nat /\
  (forall h : nat -> R, h a * h b * h c = h (e mod 4)%nat * h ((e + 1) mod 4)%nat * h ((e + 2) mod 4)%nat) /\
  (forall h d : nat -> R, d a * h b * h c + h a * d b * h c + h a * h b * d c = d (e mod 4)%nat * h ((e + 1) mod 4)%nat * h ((e + 2) mod 4)%nat + h (e mod 4)%nat * d ((e + 1) mod 4)%nat * h ((e + 2) mod 4)%nat + h (e mod 4)%nat * h ((e + 1) mod 4)%nat * d ((e + 2) mod 4)%nat).
Proof.
  intros e He. four e; cbn; eexists _, _, _; split; [reflexivity| |reflexivity| |reflexivity| |reflexivity|]; (split; [reflexivity|]); (split; [reflexivity|]); (split; [lia|]); (split; [lia|]); (split; [lia|]); split; intros; ring.
Qed.

(** *** IDEN *)
Section Iden.
Variables (f q : nat) (g : geo) (L : nat -> nat -> R) (U : list R).
Hypothesis Hf : (1 <= f)%nat.
Hypothesis HL : forall n k, (n < q)%nat -> (k < 4)%nat -> rd (XYL g) (k + 4 * n) = Some (L n k).
Definition iv (s : fem) : nat -> nat -> nat -> nat -> R := fun _ n _ i => sval s (L n) i.
(* the first element *)
Lemma first_wr : forall s l c y i n, (1 * q * (nfa s * f) <= length l)%nat -> (i < nfa s)%nat -> (n < q)%nat -> c = (n + q * i)%nat -> y = sval s (L n) i ->
  exists l', wr l c y = Some l' /\ step (fun c' => c' = c) (good 1 q (nfa s) f (iv s)) l l'.
Proof. intros s l c y i n Hl Hi Hn Hc Hy. apply (good_wr 1 q (nfa s) f (iv s) l c y 0 i n 0); auto. unfold cell. lia. Qed.
Lemma first_tab : forall s (S : nat -> Prop) l l', step S (good 1 q (nfa s) f (iv s)) l l' -> (forall i n, (i < nfa s)%nat -> (n < q)%nat -> S (n + q * i)%nat) ->
  forall i n, (i < nfa s)%nat -> (n < q)%nat -> rd l' (n + q * i) = Some (sval s (L n) i).
Proof.
  intros s S l l' (_ & H & _) HS i n Hi Hn. destruct (H _ (HS i n Hi Hn)) as (y & E & Hy). rewrite E. f_equal. apply (Hy 0%nat i n 0%nat); auto. unfold cell. lia.
Qed.
Lemma tab_after : forall s l l' res, tabulates 1 q (nfa s) f (iv s) l' res -> same_after (1 * q * (nfa s * f)) l l' -> tabulates 1 q (nfa s) f (iv s) l res.
Proof. intros s l l' res (U' & E & T & A) H. exists U'. split; [exact E|]. split; [exact T|]. exact (after_trans _ _ _ _ H A). Qed.
Lemma first_after : forall s (S : nat -> Prop) l l', step S (good 1 q (nfa s) f (iv s)) l l' -> (forall c, S c -> (c < q * nfa s)%nat) -> same_after (1 * q * (nfa s * f)) l l'.
Proof. intros s S l l' St HS. apply (after_intro _ _ _ _ _ St). intros c Hc. apply HS in Hc. nia. Qed.
Lemma tab_copy : forall s l l' (cp : list R -> option (list R)),
  (forall U, (1 <= f)%nat -> (1 * q * (nfa s * f) <= length U)%nat -> (forall i n, (i < nfa s)%nat -> (n < q)%nat -> rd U (n + q * i) = Some (sval s (L n) i)) -> tabulates 1 q (nfa s) f (fun _ n _ i => sval s (L n) i) U (cp U)) ->
  (1 * q * (nfa s * f) <= length l)%nat -> forall S, step S (good 1 q (nfa s) f (iv s)) l l' -> (forall i n, (i < nfa s)%nat -> (n < q)%nat -> S (n + q * i)%nat) -> (forall c, S c -> (c < q * nfa s)%nat) ->
  tabulates 1 q (nfa s) f (iv s) l (cp l').
Proof.
  intros s l l' cp Hcp Hl S St H1 H2. apply (tab_after s l l'); [|now apply (first_after s S)]. apply Hcp; [exact Hf|destruct St; lia|]. now apply (first_tab s S l l').
Qed.
Lemma room_ok : forall d nf l, (d * q * (nf * f) <= length l)%nat -> room f q d nf l = Some tt.
Proof. intros d nf l H. unfold room. apply Nat.leb_le in H. now rewrite H. Qed.

Lemma iden_p0_ok : (1 * q * (1 * f) <= length U)%nat -> tabulates 1 q 1 f (iv P0) U (iden_p0 f q U).
Proof.
  intros H. unfold iden_p0. rewrite room_ok by exact H. cbn [obind]. replace (q * f)%nat with (1 * q * (1 * f))%nat by lia. exact (fill_n_ok 1 q 1 f 1 U H).
Qed.
Lemma iden_p1_ok : (1 * q * (4 * f) <= length U)%nat -> tabulates 1 q 4 f (iv P1) U (iden_p1 f q g U).
Proof.
  intros H. unfold iden_p1. rewrite room_ok by exact H. cbn [obind].
  destruct (step2 (fun i n c => c = (n + q * i)%nat) (good 1 q (nfa P1) f (iv P1)) 4 q (fun i n U => do l <- rd (XYL g) (i + 4 * n); wr U (n + q * i) l) U) as (U1 & E1 & S1).
  - intros i n l Hi Hn Hl. rewrite HL by assumption. cbn [obind]. apply (first_wr P1 l _ _ i n); auto. cbn [nfa]. lia.
  - rewrite E1. cbn [obind]. refine (tab_copy P1 U U1 _ _ H _ S1 _ _).
    + intros. now apply (copy_blocks_ok f q 4 (fun n i => sval P1 (L n) i)).
    + intros i n Hi Hn. exists i, n. auto.
    + intros c (i & n & Hi & Hn & ->). now apply idx_lt.
Qed.
Lemma iden_cr1_ok : (1 * q * (4 * f) <= length U)%nat -> tabulates 1 q 4 f (iv CR1) U (iden_cr1 f q g U).
Proof.
  intros H. unfold iden_cr1. rewrite room_ok by exact H. cbn [obind].
  destruct (step2 (fun i n c => c = (n + q * i)%nat) (good 1 q (nfa CR1) f (iv CR1)) 4 q (fun i n U => do a <- rd IPF3 i; do l <- rd (XYL g) (a + 4 * n); wr U (n + q * i) (1 - 3 * l)) U) as (U1 & E1 & S1).
  - intros i n l Hi Hn Hl. assert (Ei : rd IPF3 i = Some (opp i)) by (four i; reflexivity). rewrite Ei. cbn [obind]. rewrite HL by (unfold opp; try apply Nat.mod_upper_bound; lia). cbn [obind].
    apply (first_wr CR1 l _ _ i n); auto. cbn [nfa]. lia.
  - rewrite E1. cbn [obind]. refine (tab_copy CR1 U U1 _ _ H _ S1 _ _).
    + intros. now apply (copy_blocks_ok f q 4 (fun n i => sval CR1 (L n) i)).
    + intros i n Hi Hn. exists i, n. auto.
    + intros c (i & n & Hi & Hn & ->). now apply idx_lt.
Qed.
Lemma iden_b4_ok : (1 * q * (1 * f) <= length U)%nat -> tabulates 1 q 1 f (iv B4) U (iden_b4 f q g U).
Proof.
  intros H. unfold iden_b4. rewrite room_ok by exact H. cbn [obind].
  destruct (for_step_len (fun n c => c = n) (good 1 q (nfa B4) f (iv B4)) q (fun n U => do a <- rd (XYL g) (0 + 4 * n); do b <- rd (XYL g) (1 + 4 * n); do c <- rd (XYL g) (2 + 4 * n); do d <- rd (XYL g) (3 + 4 * n);
            wr U n (256 * a * b * c * d)) U) as (U1 & E1 & S1).
  - intros n l Hn Hl. rewrite !HL by lia. cbn [obind]. apply (first_wr B4 l _ _ 0 n); auto; cbn [nfa]; lia.
  - rewrite E1. cbn [obind]. refine (tab_copy B4 U U1 (copy_blocks f q) _ H _ S1 _ _).
    + intros V HV1 HV2 HV3. pose proof (copy_blocks_ok f q 1 (fun n i => sval B4 (L n) i) V HV1 HV2 HV3) as T. now replace (1 * q)%nat with q in T by lia.
    + intros i n Hi Hn. cbn [nfa] in Hi. exists n. split; [exact Hn|]. replace i with 0%nat by lia. lia.
    + intros c (n & Hn & ->). cbn [nfa]. lia.
Qed.
Lemma iden_b2_ok : (1 * q * (6 * f) <= length U)%nat -> tabulates 1 q 6 f (iv B2) U (iden_b2 f q g U).
Proof.
  intros H. unfold iden_b2. rewrite room_ok by exact H. cbn [obind].
  destruct (step2 (fun i n c => c = (n + q * i)%nat) (good 1 q (nfa B2) f (iv B2)) 6 q (fun i n U => do a <- rd eI i; do b <- rd eJ i; do s1 <- rd (XYL g) (a + 4 * n); do s2 <- rd (XYL g) (b + 4 * n);
            wr U (n + q * i) (4 * s1 * s2)) U) as (U1 & E1 & S1).
  - intros i n l Hi Hn Hl. destruct (edges_tab i Hi) as (a & b & Ea & Eb & Ee & Ha & Hb). rewrite Ea, Eb. cbn [obind]. rewrite !HL by assumption. cbn [obind].
    apply (first_wr B2 l _ _ i n); auto; [cbn [nfa]; lia|]. cbn [sval]. now rewrite Ee.
  - rewrite E1. cbn [obind]. refine (tab_copy B2 U U1 _ _ H _ S1 _ _).
    + intros. now apply (copy_cells_ok f q 6 (fun n i => sval B2 (L n) i)).
    + intros i n Hi Hn. exists i, n. auto.
    + intros c (i & n & Hi & Hn & ->). now apply idx_lt.
Qed.
Lemma iden_p2_ok : (1 * q * (10 * f) <= length U)%nat -> tabulates 1 q 10 f (iv P2) U (iden_p2 f q g U).
Proof.
  intros H. unfold iden_p2. rewrite room_ok by exact H. cbn [obind].
  destruct (step2 (fun i n c => c = (n + q * i)%nat) (good 1 q (nfa P2) f (iv P2)) 4 q (fun i n U => do l <- rd (XYL g) (i + 4 * n); wr U (n + q * i) (l * (2 * l - 1))) U) as (U1 & E1 & S1).
  - intros i n l Hi Hn Hl. rewrite HL by assumption. cbn [obind]. apply (first_wr P2 l _ _ i n); auto; [cbn [nfa]; lia|cbn [nfa]; lia|]. cbn [sval]. apply Nat.ltb_lt in Hi. now rewrite Hi.
  - rewrite E1. cbn [obind]. rewrite for_range_shift.
    assert (L1 : length U1 = length U) by (destruct S1; assumption).
    destruct (step2 (fun e n c => c = (n + q * (4 + e))%nat) (good 1 q (nfa P2) f (iv P2)) 6 q (fun e n U => do a <- rd eI (4 + e - 4); do b <- rd eJ (4 + e - 4); do s1 <- rd (XYL g) (a + 4 * n); do s2 <- rd (XYL g) (b + 4 * n);
            wr U (n + q * (4 + e)) (4 * s1 * s2)) U1) as (U2 & E2 & S2).
    + intros e n l He Hn Hl. replace (4 + e - 4)%nat with e by lia. destruct (edges_tab e He) as (a & b & Ea & Eb & Ee & Ha & Hb). rewrite Ea, Eb. cbn [obind]. rewrite !HL by assumption. cbn [obind].
      apply (first_wr P2 l _ _ (4 + e) n); auto; [cbn [nfa]; lia|cbn [nfa]; lia|]. cbn [sval]. destruct (Nat.ltb_spec (4 + e) 4); [lia|]. replace (4 + e - 4)%nat with e by lia. now rewrite Ee.
    + rewrite E2. cbn [obind]. refine (tab_copy P2 U U2 _ _ H _ (step_trans _ _ _ _ _ _ S1 S2) _ _).
      * intros. now apply (copy_cells_ok f q 10 (fun n i => sval P2 (L n) i)).
      * intros i n Hi Hn. cbn [nfa] in Hi. destruct (Nat.lt_ge_cases i 4); [left; exists i, n; auto|]. right. exists (i - 4)%nat, n. split; [lia|]. split; [exact Hn|]. f_equal. f_equal. lia.
      * intros c [(i & n & Hi & Hn & ->)|(i & n & Hi & Hn & ->)]; apply idx_lt; cbn [nfa]; lia.
Qed.
Lemma iden_p3_ok : (1 * q * (20 * f) <= length U)%nat -> tabulates 1 q 20 f (iv P3) U (iden_p3 f q g U).
Proof.
  intros H. unfold iden_p3. rewrite room_ok by exact H. cbn [obind].
  destruct (step2 (fun i n c => c = (n + q * i)%nat) (good 1 q (nfa P3) f (iv P3)) 4 q (fun i n U => do l <- rd (XYL g) (i + 4 * n); wr U (n + q * i) (l * (3 * l - 1) * (3 * l - 2) / 2)) U) as (U1 & E1 & S1).
  { intros i n l Hi Hn Hl. rewrite HL by assumption. cbn [obind]. apply (first_wr P3 l _ _ i n); auto; [cbn [nfa]; lia|cbn [nfa]; lia|]. cbn [sval]. apply Nat.ltb_lt in Hi. now rewrite Hi. }
  rewrite E1. cbn [obind]. rewrite for_range_shift. assert (L1 : length U1 = length U) by (destruct S1; assumption).
  destruct (step2 (fun e n c => c = (n + q * (4 + 2 * e))%nat \/ c = (n + q * (4 + 2 * e + 1))%nat) (good 1 q (nfa P3) f (iv P3)) 6 q
    (fun e n U => do a <- rd eI (4 + e - 4); do b <- rd eJ (4 + e - 4); do s1 <- rd (XYL g) (a + 4 * n); do s2 <- rd (XYL g) (b + 4 * n);
            do U <- wr U (n + q * (4 + (4 + e - 4) * 2)) (s1 * (3 * s1 - 1) * s2 * (9 / 2));
            wr U (n + q * (4 + (4 + e - 4) * 2 + 1)) (s1 * (3 * s2 - 1) * s2 * (9 / 2))) U1) as (U2 & E2 & S2).
  { intros e n l He Hn Hl. replace (4 + e - 4)%nat with e by lia. destruct (edges_tab e He) as (a & b & Ea & Eb & Ee & Ha & Hb). rewrite Ea, Eb. cbn [obind]. rewrite !HL by assumption. cbn [obind].
    destruct (first_wr P3 l (n + q * (4 + e * 2)) (L n a * (3 * L n a - 1) * L n b * (9 / 2)) (4 + 2 * e) n) as (l1 & W1 & T1); auto; try (cbn [nfa]; lia).
    { cbn [sval]. destruct (Nat.ltb_spec (4 + 2 * e) 4); [lia|]. destruct (Nat.ltb_spec (4 + 2 * e) 16); [|lia]. replace ((4 + 2 * e - 4) / 2)%nat with e by (replace (4 + 2 * e - 4)%nat with (e * 2)%nat by lia; now rewrite Nat.div_mul by lia). rewrite Ee.
      replace (Nat.even (4 + 2 * e)) with true by (symmetry; apply Nat.even_spec; exists (2 + e)%nat; lia). field. }
    rewrite W1. cbn [obind].
    destruct (first_wr P3 l1 (n + q * (4 + e * 2 + 1)) (L n a * (3 * L n b - 1) * L n b * (9 / 2)) (4 + 2 * e + 1) n) as (l2 & W2 & T2); auto; try (cbn [nfa]; destruct T1; lia).
    { cbn [sval]. destruct (Nat.ltb_spec (4 + 2 * e + 1) 4); [lia|]. destruct (Nat.ltb_spec (4 + 2 * e + 1) 16); [|lia]. replace ((4 + 2 * e + 1 - 4) / 2)%nat with e by (replace (4 + 2 * e + 1 - 4)%nat with (1 + e * 2)%nat by lia; rewrite Nat.div_add by lia; reflexivity). rewrite Ee.
      replace (Nat.even (4 + 2 * e + 1)) with false; [field|]. symmetry. rewrite <- Nat.negb_odd. replace (Nat.odd (4 + 2 * e + 1)) with true; [reflexivity|]. symmetry. apply Nat.odd_spec. exists (2 + e)%nat. lia. }
    exists l2. split; [exact W2|]. eapply step_ext; [exact (step_trans _ _ _ _ _ _ T1 T2)|]. intros c. split; (intros [E|E]; [left|right]; rewrite E; f_equal; f_equal; lia). }
  rewrite E2. cbn [obind]. rewrite for_range_shift. assert (L2 : length U2 = length U) by (destruct S2; congruence).
  destruct (step2 (fun e n c => c = (n + q * (16 + e))%nat) (good 1 q (nfa P3) f (iv P3)) 4 q
    (fun e n U => do a <- rd IPF (0 + 4 * (16 + e - 16)); do b <- rd IPF (1 + 4 * (16 + e - 16)); do c <- rd IPF (2 + 4 * (16 + e - 16));
            do s1 <- rd (XYL g) (a + 4 * n); do s2 <- rd (XYL g) (b + 4 * n); do s3 <- rd (XYL g) (c + 4 * n);
            wr U (n + q * (16 + e)) (27 * s1 * s2 * s3)) U2) as (U3 & E3 & S3).
  { intros e n l He Hn Hl. replace (16 + e - 16)%nat with e by lia.
    assert (W : forall y, y = sval P3 (L n) (16 + e) -> exists l', wr l (n + q * (16 + e)) y = Some l' /\ step (fun c => c = (n + q * (16 + e))%nat) (good 1 q (nfa P3) f (iv P3)) l l') by (intros y Hy; apply (first_wr P3 l _ _ (16 + e) n); auto; cbn [nfa]; lia).
    destruct (faces_tab e He) as (a & b & c & Ea & Eb & Ec & Ha & Hb & Hc & Hp & _). rewrite Ea, Eb, Ec. cbn [obind]. rewrite !HL by lia. cbn [obind]. apply W.
    cbn [sval]. destruct (Nat.ltb_spec (16 + e) 4); [lia|]. destruct (Nat.ltb_spec (16 + e) 16); [lia|]. replace (16 + e - 16)%nat with e by lia. transitivity (27 * (L n a * L n b * L n c)); [ring|]. rewrite Hp. ring. }
  rewrite E3. cbn [obind]. refine (tab_copy P3 U U3 _ _ H _ (step_trans _ _ _ _ _ _ (step_trans _ _ _ _ _ _ S1 S2) S3) _ _).
  - intros. now apply (copy_cells_ok f q 20 (fun n i => sval P3 (L n) i)).
  - intros i n Hi Hn. cbn [nfa] in Hi. destruct (Nat.lt_ge_cases i 4); [left; left; exists i, n; auto|]. destruct (Nat.lt_ge_cases i 16).
    + left. right. exists ((i - 4) / 2)%nat, n. assert (He : ((i - 4) / 2 < 6)%nat) by (apply Nat.div_lt_upper_bound; lia). split; [exact He|]. split; [exact Hn|].
      assert (Ei := Nat.div_mod (i - 4) 2 ltac:(lia)). assert (Hm := Nat.mod_upper_bound (i - 4) 2 ltac:(lia)). destruct ((i - 4) mod 2)%nat as [|[|?]] eqn:Em; [left|right|lia]; f_equal; f_equal; lia.
    + right. exists (i - 16)%nat, n. split; [lia|]. split; [exact Hn|]. f_equal. f_equal. lia.
  - intros c [[(i & n & Hi & Hn & ->)|(i & n & Hi & Hn & [->| ->])]|(i & n & Hi & Hn & ->)]; apply idx_lt; cbn [nfa]; lia.
Qed.
End Iden.
