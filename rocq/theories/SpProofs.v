(** Block-diagonal matrices in memory. *)
From Verif Require Import Prelude RSum DirProofs2 CoreProofs SpModel CoreModel CoreSpec SpSpec.
Local Open Scope R_scope.

Definition blk := (nat * nat * nat)%type.
Definition b_off (b : blk) : nat := fst (fst b).
Definition b_rw (b : blk) : nat := snd (fst b).
Definition b_cl (b : blk) : nat := snd b.
Definition rows (l : list blk) : nat := list_sum (map b_rw l).
Definition cols (l : list blk) : nat := list_sum (map b_cl l).
Lemma rows_app : forall a b, rows (a ++ b) = (rows a + rows b)%nat.
Proof. intros. unfold rows. now rewrite map_app, list_sum_app. Qed.
Lemma cols_app : forall a b, cols (a ++ b) = (cols a + cols b)%nat.
Proof. intros. unfold cols. now rewrite map_app, list_sum_app. Qed.
Lemma rows_cons : forall b l, rows (b :: l) = (b_rw b + rows l)%nat.
Proof. reflexivity. Qed.
Lemma cols_cons : forall b l, cols (b :: l) = (b_cl b + cols l)%nat.
Proof. reflexivity. Qed.
Lemma firstn_split : forall (l : list blk) p b, nth_error l p = Some b -> l = firstn p l ++ b :: skipn (S p) l.
Proof.
  induction l as [|x l IH]; intros [|p] b H; try discriminate; cbn [nth_error] in H.
  - apply Some_inj' in H. now subst.
  - cbn [firstn skipn app]. f_equal. now apply IH.
Qed.
Lemma rows_at : forall l p b, nth_error l p = Some b -> (rows (firstn p l) + b_rw b <= rows l)%nat.
Proof. intros l p b H. rewrite (firstn_split l p b H) at 2. rewrite rows_app, rows_cons. lia. Qed.
Lemma cols_at : forall l p b, nth_error l p = Some b -> (cols (firstn p l) + b_cl b <= cols l)%nat.
Proof. intros l p b H. rewrite (firstn_split l p b H) at 2. rewrite cols_app, cols_cons. lia. Qed.
Lemma rows_S : forall l p b, nth_error l p = Some b -> rows (firstn (S p) l) = (rows (firstn p l) + b_rw b)%nat.
Proof.
  induction l as [|x l IH]; intros [|p] b H; try discriminate; cbn [nth_error] in H.
  - apply Some_inj' in H. subst. cbn [firstn]. rewrite rows_cons. change (rows []) with 0%nat. lia.
  - cbn [firstn]. rewrite !rows_cons. cbn [firstn] in IH. rewrite (IH p b H). lia.
Qed.
Lemma cols_S : forall l p b, nth_error l p = Some b -> cols (firstn (S p) l) = (cols (firstn p l) + b_cl b)%nat.
Proof.
  induction l as [|x l IH]; intros [|p] b H; try discriminate; cbn [nth_error] in H.
  - apply Some_inj' in H. subst. cbn [firstn]. rewrite cols_cons. change (cols []) with 0%nat. lia.
  - cbn [firstn]. rewrite !cols_cons. cbn [firstn] in IH. rewrite (IH p b H). lia.
Qed.
Lemma firstn_app_l : forall (a b : list blk) p, (p <= length a)%nat -> firstn p (a ++ b) = firstn p a.
Proof. intros a b p H. rewrite firstn_app. replace (p - length a)%nat with 0%nat by lia. cbn. now rewrite app_nil_r. Qed.
Lemma firstn_app_r : forall (a b : list blk) p, (length a <= p)%nat -> firstn p (a ++ b) = a ++ firstn (p - length a) b.
Proof. intros a b p H. rewrite firstn_app. now rewrite firstn_all2. Qed.
(** the column block of a column *)
Lemma col_block : forall l i, (i < cols l)%nat -> exists p b, nth_error l p = Some b /\ (cols (firstn p l) <= i < cols (firstn p l) + b_cl b)%nat.
Proof.
  induction l as [|x l IH]; intros i H; [change (cols []) with 0%nat in H; lia|]. rewrite cols_cons in H. destruct (Nat.lt_ge_cases i (b_cl x)).
  - exists 0%nat, x. split; [reflexivity|]. cbn [firstn]. change (cols []) with 0%nat. lia.
  - destruct (IH (i - b_cl x)%nat) as (p & b & E & Hb); [lia|]. exists (S p), b. split; [exact E|]. cbn [firstn]. rewrite cols_cons. lia.
Qed.

(** *** The representation *)
Section Rep.
Variables f q : nat.
Definition cell (b : blk) (r n k i : nat) : nat := (b_off b + ((k + b_rw b * n) + q * b_rw b * (i + b_cl b * r)))%nat.
Definition vals (h : list R) (bl : list blk) (V : value) : Prop :=
  forall p b, nth_error bl p = Some b -> forall r n i, (r < f)%nat -> (n < q)%nat -> (i < b_cl b)%nat ->
    (forall k, (k < b_rw b)%nat -> rd h (cell b r n k i) = Some (V r n (rows (firstn p bl) + k)%nat (cols (firstn p bl) + i)%nat)) /\
    (forall k, (k < rows bl)%nat -> ~ (rows (firstn p bl) <= k < rows (firstn p bl) + b_rw b)%nat -> V r n k (cols (firstn p bl) + i)%nat = 0).
Definition inside (bl : list blk) (lo hi : nat) : Prop :=
  forall p b, nth_error bl p = Some b -> (lo <= b_off b)%nat /\ (b_off b + q * b_rw b * (b_cl b * f) <= hi)%nat.
Definition views (x : list (nat * nat)) (o : nat) (bl : list blk) : Prop :=
  forall p b, nth_error bl p = Some b -> rd x (o + p) = Some (b_off b, (q * b_rw b)%nat).
Definition idx (g : list blk -> nat) (l : list nat) (o : nat) (bl : list blk) : Prop :=
  forall p, (p <= length bl)%nat -> rd l (o + p) = Some (g (firstn p bl)).

Lemma cell_in : forall b r n k i, (r < f)%nat -> (n < q)%nat -> (k < b_rw b)%nat -> (i < b_cl b)%nat ->
  (b_off b <= cell b r n k i < b_off b + q * b_rw b * (b_cl b * f))%nat.
Proof.
  intros b r n k i Hr Hn Hk Hi. unfold cell. assert (H1 := cell_lt (b_rw b) q k n Hk Hn). assert (H2 := cell_lt (b_cl b) f i r Hi Hr).
  replace (q * b_rw b)%nat with (b_rw b * q)%nat by lia. assert (H3 := cell_lt (b_rw b * q) (b_cl b * f) _ _ H1 H2). lia.
Qed.
Lemma vals_frame : forall h h' bl V lo hi, vals h bl V -> inside bl lo hi -> (forall c, (lo <= c < hi)%nat -> rd h' c = rd h c) -> vals h' bl V.
Proof.
  intros h h' bl V lo hi Hv Hi Hf p b E r n i Hr Hn Hii. destruct (Hv p b E r n i Hr Hn Hii) as [A B]. split; [|exact B]. intros k Hk. rewrite <- A by exact Hk.
  apply Hf. destruct (Hi p b E). assert (Hc := cell_in b r n k i Hr Hn Hk Hii). lia.
Qed.
Lemma vals_ext : forall h bl V V', vals h bl V -> (forall r n k i, (r < f)%nat -> (n < q)%nat -> (k < rows bl)%nat -> (i < cols bl)%nat -> V r n k i = V' r n k i) -> vals h bl V'.
Proof.
  intros h bl V V' Hv He p b E r n i Hr Hn Hi. destruct (Hv p b E r n i Hr Hn Hi) as [A B]. assert (Hc := cols_at _ _ _ E). assert (Hw := rows_at _ _ _ E). split.
  - intros k Hk. rewrite A by exact Hk. f_equal. apply He; lia.
  - intros k Hk Hn'. rewrite <- He by lia. now apply B.
Qed.
Definition vjoin (d nf : nat) (A B : value) : value := fun r n k i =>
  if (k <? d)%nat then if (i <? nf)%nat then A r n k i else 0 else if (i <? nf)%nat then 0 else B r n (k - d)%nat (i - nf)%nat.
Ltac ltb := repeat match goal with |- context [(?x <? ?y)%nat] => destruct (Nat.ltb_spec x y); try lia end.
Lemma vals_app : forall h a b A B, vals h a A -> vals h b B -> vals h (a ++ b) (vjoin (rows a) (cols a) A B).
Proof.
  intros h a b A B Ha Hb p c E r n i Hr Hn Hi. rewrite rows_app. destruct (Nat.lt_ge_cases p (length a)) as [Hp|Hp].
  - rewrite nth_error_app1 in E by exact Hp. rewrite firstn_app_l by lia. destruct (Ha p c E r n i Hr Hn Hi) as [X Y].
    assert (Hc := cols_at _ _ _ E). assert (Hw := rows_at _ _ _ E). unfold vjoin. split.
    + intros k Hk. rewrite X by exact Hk. ltb. reflexivity.
    + intros k Hk Hn'. ltb; auto.
  - rewrite nth_error_app2 in E by exact Hp. rewrite firstn_app_r by lia. rewrite rows_app, cols_app. destruct (Hb _ c E r n i Hr Hn Hi) as [X Y].
    set (p' := (p - length a)%nat) in *. unfold vjoin. split.
    + intros k Hk. rewrite X by exact Hk. ltb. f_equal. f_equal; lia.
    + intros k Hk Hn'. ltb; auto. rewrite <- (Y (k - rows a)%nat) by lia. f_equal; lia.
Qed.
Lemma vals_one : forall h u d nf V,
  (forall r n k i, (r < f)%nat -> (n < q)%nat -> (k < d)%nat -> (i < nf)%nat -> rd h (u + ((k + d * n) + q * d * (i + nf * r))) = Some (V r n k i)) ->
  vals h [(u, d, nf)] V.
Proof.
  intros h u d nf V H [|[|p]] b E r n i Hr Hn Hi; try discriminate. apply Some_inj' in E. subst b. cbn [firstn]. unfold rows, cols, cell, b_off, b_rw, b_cl in *. cbn [map list_sum fst snd] in *.
  change (list_sum []) with 0%nat. cbn [Nat.add]. split; [intros k Hk; now apply H|]. intros k Hk Hk'. exfalso. apply Hk'. rewrite list_sum_cons, list_sum_nil in Hk. cbn [fst snd] in Hk. lia.
Qed.
Lemma inside_app : forall a b lo hi, inside a lo hi -> inside b lo hi -> inside (a ++ b) lo hi.
Proof.
  intros a b lo hi A B p c E. destruct (Nat.lt_ge_cases p (length a)) as [Hp|Hp]; [rewrite nth_error_app1 in E by exact Hp; now apply (A p)|].
  rewrite nth_error_app2 in E by exact Hp. now apply (B _ c E).
Qed.
Lemma inside_weak : forall a lo hi lo' hi', inside a lo hi -> (lo' <= lo)%nat -> (hi <= hi')%nat -> inside a lo' hi'.
Proof. intros a lo hi lo' hi' A H1 H2 p b E. destruct (A p b E). lia. Qed.
Lemma views_app : forall x o a b, views x o a -> views x (o + length a) b -> views x o (a ++ b).
Proof.
  intros x o a b A B p c E. destruct (Nat.lt_ge_cases p (length a)) as [Hp|Hp]; [rewrite nth_error_app1 in E by exact Hp; now apply A|].
  rewrite nth_error_app2 in E by exact Hp. rewrite <- (B _ c E). f_equal. lia.
Qed.
Lemma views_frame : forall x x' o a, views x o a -> (forall c, (o <= c < o + length a)%nat -> rd x' c = rd x c) -> views x' o a.
Proof. intros x x' o a A H p b E. rewrite <- (A p b E). apply H. assert (p < length a)%nat by (apply nth_error_Some; congruence). lia. Qed.
Lemma idx_frame : forall g l l' o a, idx g l o a -> (forall c, (o <= c <= o + length a)%nat -> rd l' c = rd l c) -> idx g l' o a.
Proof. intros g l l' o a A H p Hp. rewrite <- (A p Hp). apply H. lia. Qed.
Lemma idx_app : forall g l o a b, (forall x y, g (x ++ y) = (g x + g y)%nat) -> idx g l o a ->
  (forall p, (p <= length b)%nat -> rd l (o + length a + p) = Some (g a + g (firstn p b))%nat) -> idx g l o (a ++ b).
Proof.
  intros g l o a b Hg A B p Hp. rewrite app_length in Hp. destruct (Nat.le_gt_cases p (length a)) as [Hpa|Hpa]; [rewrite firstn_app_l by exact Hpa; now apply A|].
  rewrite firstn_app_r by lia. rewrite Hg. rewrite <- B by lia. f_equal. lia.
Qed.

(** [holds m b d nf V lo hi]: b is a d x nf matrix with values V whose data lie in [lo, hi) *)
Definition holds (m : mem) (b : bx) (d nf : nat) (V : value) (lo hi : nat) : Prop :=
  exists bl, length bl = np b /\ bl <> [] /\ rows bl = d /\ cols bl = nf /\ views (mtx m) (od b) bl /\
    idx rows (rowi m) (os b) bl /\ idx cols (coli m) (os b) bl /\ vals (hp m) bl V /\ inside bl lo hi.
Lemma holds_frame : forall m m' b d nf V lo hi, holds m b d nf V lo hi ->
  (forall c, (lo <= c < hi)%nat -> rd (hp m') c = rd (hp m) c) ->
  (forall c, (od b <= c < od b + np b)%nat -> rd (mtx m') c = rd (mtx m) c) ->
  (forall c, (os b <= c <= os b + np b)%nat -> rd (rowi m') c = rd (rowi m) c) ->
  (forall c, (os b <= c <= os b + np b)%nat -> rd (coli m') c = rd (coli m) c) -> holds m' b d nf V lo hi.
Proof.
  intros m m' b d nf V lo hi (bl & L & N & Er & Ec & Hv & Hr & Hc & Hh & Hi) H1 H2 H3 H4. exists bl.
  split; [exact L|]. split; [exact N|]. split; [exact Er|]. split; [exact Ec|]. split; [|split; [|split; [|split; [|exact Hi]]]].
  - apply (views_frame (mtx m)); [exact Hv|]. now rewrite L.
  - apply (idx_frame rows (rowi m)); [exact Hr|]. now rewrite L.
  - apply (idx_frame cols (coli m)); [exact Hc|]. now rewrite L.
  - now apply (vals_frame (hp m) _ _ _ lo hi).
Qed.

(** *** What an operator may assume and must guarantee *)
Definition sh (n : nat) : nat := if (0 <? n)%nat then 1%nat else 0%nat.
Definition pre (m : mem) (u : nat) (lr : req) : Prop :=
  (u + rU lr <= length (hp m))%nat /\ (edat m + esz m <= length (hp m))%nat /\ (rE lr <= esz m)%nat /\
  (u + rU lr <= edat m \/ edat m + esz m <= u)%nat /\
  (busy m + rP lr <= length (mtx m))%nat /\ (busy m + rP lr + 2 <= length (rowi m))%nat /\ (busy m + rP lr + 2 <= length (coli m))%nat.
Definition frame (m : mem) (u n : nat) (m' : mem) : Prop :=
  length (hp m') = length (hp m) /\ (forall c, ~ (u <= c < u + n)%nat -> ~ (edat m <= c < edat m + esz m)%nat -> rd (hp m') c = rd (hp m) c) /\
  length (mtx m') = length (mtx m) /\ (forall c, (c < busy m)%nat -> rd (mtx m') c = rd (mtx m) c) /\
  length (rowi m') = length (rowi m) /\ (forall c, (c < busy m + sh (busy m))%nat -> rd (rowi m') c = rd (rowi m) c) /\
  length (coli m') = length (coli m) /\ (forall c, (c < busy m + sh (busy m))%nat -> rd (coli m') c = rd (coli m) c) /\
  edat m' = edat m /\ esz m' = esz m.
Definition post (m : mem) (u : nat) (lr : req) (m' : mem) (b : bx) (d nf : nat) (V : value) : Prop :=
  frame m u (rU lr) m' /\ od b = busy m /\ os b = (busy m + sh (busy m))%nat /\ (np b <= rP lr)%nat /\
  (busy m <= busy m' <= busy m + np b)%nat /\ holds m' b d nf V u (u + rU lr).
Lemma holds_np : forall m b d nf V lo hi, holds m b d nf V lo hi -> (1 <= np b)%nat.
Proof. intros m b d nf V lo hi (bl & L & N & _). destruct bl; [congruence|]. cbn in L. lia. Qed.
End Rep.
