(** Lemmas for C13: invariants of the chunked pool over all histories. *)
From Coq Require Import Permutation.
From Verif Require Import Prelude MemModel MemSpec MemProofs.

Definition inch (c : nat) (live : list part) : list part := filter (fun x => pt_chunk x =? c) live.
Definition sumk (k : kind) (l : list part) : nat := list_sum (map (fun x => pt_size x k) l).

Lemma inch_cons : forall c x l, inch c (x :: l) = if pt_chunk x =? c then x :: inch c l else inch c l.
Proof. reflexivity. Qed.
Lemma sumk_cons : forall k x l, sumk k (x :: l) = pt_size x k + sumk k l.
Proof. intros. unfold sumk. cbn [map]. now rewrite list_sum_cons. Qed.
Lemma in_inch : forall c x l, In x (inch c l) <-> In x l /\ pt_chunk x = c.
Proof. intros. unfold inch. rewrite filter_In, Nat.eqb_eq. reflexivity. Qed.

(* every history *)
Definition Base (s : dynmem) (live : list part) : Prop :=
  (forall x, In x live -> pt_chunk x < length (dm_chunks s)) /\
  (forall c ck, nth_error (dm_chunks s) c = Some ck ->
     ck_parts ck = length (inch c live) /\ (forall k, sumk k (inch c live) <= p_busy (ck_pool ck k)) /\
     (ck_parts ck = 0 -> forall k, p_busy (ck_pool ck k) = 0)).
(* heap blocks of different vectors differ *)
Definition Heaps (s : dynmem) : Prop :=
  (forall c ck k, nth_error (dm_chunks s) c = Some ck -> 0 < p_size (ck_pool ck k) -> p_heap (ck_pool ck k) < dm_next s) /\
  (forall c c' ck ck' k, c <> c' -> nth_error (dm_chunks s) c = Some ck -> nth_error (dm_chunks s) c' = Some ck' ->
     0 < p_size (ck_pool ck k) -> 0 < p_size (ck_pool ck' k) -> p_heap (ck_pool ck k) <> p_heap (ck_pool ck' k)).
(* live blocks are where they were put *)
Definition Geo (s : dynmem) (live : list part) : Prop :=
  (forall x, In x live -> has_size x (pt_size x)) /\
  (forall x k p, In x live -> pt_piece x k = Some p -> exists ck, nth_error (dm_chunks s) (pt_chunk x) = Some ck /\
     pc_heap p = p_heap (ck_pool ck k) /\ pc_off p + pc_len p <= p_size (ck_pool ck k)) /\
  (forall i j x y k p q, nth_error live i = Some x -> nth_error live j = Some y -> i <> j -> pt_chunk x = pt_chunk y ->
     pt_piece x k = Some p -> pt_piece y k = Some q -> pc_off p + pc_len p <= pc_off q \/ pc_off q + pc_len q <= pc_off p).
(* only after in-order releases *)
Fixpoint stk (l : list part) : Prop :=
  match l with
  | [] => True
  | x :: r => pt_id x = length r /\ (forall k p, pt_piece x k = Some p -> pc_off p = sumk k r) /\ stk r
  end.
Definition Clean (s : dynmem) (live : list part) : Prop :=
  forall c ck, nth_error (dm_chunks s) c = Some ck ->
    stk (inch c live) /\ forall k, p_busy (ck_pool ck k) = sumk k (inch c live) /\ p_busy (ck_pool ck k) <= p_size (ck_pool ck k).

Lemma has_size_len : forall x k p, has_size x (pt_size x) -> pt_piece x k = Some p -> pc_len p = pt_size x k /\ 0 < pt_size x k.
Proof. intros x k p H E. specialize (H k). rewrite E in H. exact H. Qed.

(* in a stack every block ends below the sum of the sizes *)
Lemma stk_end : forall l x k p, stk l -> (forall y, In y l -> has_size y (pt_size y)) -> In x l -> pt_piece x k = Some p ->
  pc_off p + pc_len p <= sumk k l.
Proof.
  induction l as [|y l IH]; intros x k p Hs Hh Hx E; [contradiction|]. rewrite sumk_cons.
  destruct Hs as (_ & Ho & Hs). destruct Hx as [->|Hx].
  - rewrite (Ho k p E). destruct (has_size_len x k p (Hh x (or_introl eq_refl)) E) as [-> _]. lia.
  - specialize (IH x k p Hs (fun z Hz => Hh z (or_intror Hz)) Hx E). lia.
Qed.

(** *** Removing *)
Lemma drop_nth_perm : forall {A} k (l : list A) x, nth_error l k = Some x -> Permutation l (x :: drop_nth k l).
Proof.
  intros A k. induction k as [|k IH]; intros [|y l] x E; try discriminate E.
  - injection E as ->. reflexivity.
  - cbn [drop_nth]. rewrite (IH l x E) at 1. apply perm_swap.
Qed.
Lemma filter_perm : forall {A} (f : A -> bool) l l', Permutation l l' -> Permutation (filter f l) (filter f l').
Proof.
  intros A f l l' H. induction H; cbn [filter].
  - constructor.
  - destruct (f x); [now constructor|assumption].
  - destruct (f x), (f y); try reflexivity. constructor.
  - eapply Permutation_trans; eassumption.
Qed.
Lemma inch_drop : forall k live x c, nth_error live k = Some x ->
  length (inch c live) = (if pt_chunk x =? c then 1 else 0) + length (inch c (drop_nth k live)) /\
  forall kd, sumk kd (inch c live) = (if pt_chunk x =? c then pt_size x kd else 0) + sumk kd (inch c (drop_nth k live)).
Proof.
  intros k live x c E. pose proof (filter_perm (fun y => pt_chunk y =? c) _ _ (drop_nth_perm k live x E)) as P.
  fold (inch c live) in P. cbn [filter] in P. fold (inch c (drop_nth k live)) in P. split.
  - rewrite (Permutation_length P). destruct (pt_chunk x =? c); cbn [length]; lia.
  - intros kd. unfold sumk. rewrite (list_sum_perm _ _ (Permutation_map _ P)).
    destruct (pt_chunk x =? c); cbn [map]; [rewrite list_sum_cons|]; lia.
Qed.
Lemma drop_nth_in : forall {A} k (l : list A) y, In y (drop_nth k l) -> In y l.
Proof.
  intros A k. induction k as [|k IH]; intros [|x l] y H; cbn [drop_nth] in H; try contradiction; [now right|].
  destruct H as [->|H]; [now left|right; now apply IH].
Qed.
Lemma drop_nth_nth : forall {A} k (l : list A) i, nth_error (drop_nth k l) i = nth_error l (if i <? k then i else S i).
Proof.
  intros A k. induction k as [|k IH]; intros [|x l] i; cbn [drop_nth].
  - destruct (i <? 0); now destruct i.
  - reflexivity.
  - destruct (i <? S k); now destruct i.
  - destruct i as [|i]; [reflexivity|]. cbn [nth_error]. rewrite IH.
    change (S i <? S k) with (i <? k). destruct (i <? k); reflexivity.
Qed.
Lemma drop_nth_length : forall {A} k (l : list A), k < length l -> length (drop_nth k l) = length l - 1.
Proof.
  intros A k l H. destruct (nth_error l k) as [x|] eqn:E; [|apply nth_error_None in E; lia].
  pose proof (Permutation_length (drop_nth_perm k l x E)) as P. cbn [length] in P. lia.
Qed.

Lemma wr_nth : forall {A} (m m' : list A) i v, wr m i v = Some m' ->
  length m' = length m /\ i < length m /\ forall j, nth_error m' j = if j =? i then Some v else nth_error m j.
Proof.
  intros A m m' i v E. destruct (Nat.lt_ge_cases i (length m)) as [Hi|Hi].
  - destruct (wr_some m i v Hi) as (m1 & E1 & L & H). assert (m1 = m') by congruence. subst. auto.
  - rewrite wr_none in E by assumption. discriminate E.
Qed.

Lemma release_ok : forall s live k x, Base s live -> Heaps s -> Geo s live -> nth_error live k = Some x ->
  exists s', dm_release x s = Some s' /\ Base s' (drop_nth k live) /\ Heaps s' /\ Geo s' (drop_nth k live) /\
    (k = 0 -> Clean s live -> Clean s' (drop_nth k live)).
Proof.
  intros s live k x (B1 & B2) (H1 & H2) (G1 & G2 & G3) Ek.
  assert (Hx : In x live) by (eapply nth_error_In; eassumption).
  pose proof (B1 x Hx) as Hc. destruct (nth_error (dm_chunks s) (pt_chunk x)) as [ck|] eqn:Eck; [|apply nth_error_None in Eck; lia].
  destruct (B2 _ _ Eck) as (P1 & P2 & P3).
  destruct (inch_drop k live x (pt_chunk x) Ek) as [L S]. rewrite Nat.eqb_refl in L, S.
  unfold dm_release, rd. rewrite Eck. cbn [obind].
  destruct (Nat.ltb_spec 0 (ck_parts ck)) as [Hp|Hp]; [|lia]. cbn [guard obind].
  set (n := ck_parts ck - 1).
  assert (Hsz : forall kd, pt_size x kd <= p_busy (ck_pool ck kd)) by (intros kd; specialize (P2 kd); specialize (S kd); lia).
  assert (Hg : negb (n =? pt_id x) || ((pt_size x KR <=? p_busy (ck_pool ck KR)) && (pt_size x KI <=? p_busy (ck_pool ck KI)) && (pt_size x KM <=? p_busy (ck_pool ck KM))) = true).
  { rewrite !(proj2 (Nat.leb_le _ _)) by apply Hsz. apply Bool.orb_true_r. }
  rewrite Hg. cbn [guard obind].
  destruct (wr_some (dm_chunks s) (pt_chunk x)
     (Chunk (fun kd => Pool (p_size (ck_pool ck kd)) (if n =? 0 then 0 else if n =? pt_id x then p_busy (ck_pool ck kd) - pt_size x kd else p_busy (ck_pool ck kd)) (p_heap (ck_pool ck kd))) n) Hc)
     as (cs' & Ew & Lw & Hw).
  rewrite Ew. cbn [obind]. eexists. split; [reflexivity|]. unfold rd in Hw.
  assert (Hnew : forall c ck', nth_error cs' c = Some ck' -> exists ck0, nth_error (dm_chunks s) c = Some ck0 /\
            forall kd, p_size (ck_pool ck' kd) = p_size (ck_pool ck0 kd) /\ p_heap (ck_pool ck' kd) = p_heap (ck_pool ck0 kd)).
  { intros c ck' E. rewrite Hw in E. destruct (Nat.eqb_spec c (pt_chunk x)) as [->|Hne].
    - injection E as <-. exists ck. split; [exact Eck|]. intros kd. split; reflexivity.
    - exists ck'. split; [exact E|]. auto. }
  split; [|split; [|split]].
  - (* Base *) split; cbn [dm_chunks].
    + intros y Hy. rewrite Lw. apply B1. eapply drop_nth_in; eassumption.
    + intros c ck' E. rewrite Hw in E. destruct (inch_drop k live x c Ek) as [L' S'].
      destruct (Nat.eqb_spec c (pt_chunk x)) as [->|Hne].
      * injection E as <-. cbn [ck_parts ck_pool p_busy]. rewrite Nat.eqb_refl in L', S'. split; [unfold n; lia|]. split.
        -- intros kd. specialize (P2 kd). specialize (S' kd). destruct (Nat.eqb_spec n 0) as [En|En].
           ++ assert (inch (pt_chunk x) (drop_nth k live) = []) as -> by (apply length_zero_iff_nil; unfold n in En; lia). reflexivity.
           ++ destruct (n =? pt_id x); lia.
        -- intros -> kd. reflexivity.
      * destruct (B2 c ck' E) as (Q1 & Q2 & Q3). destruct (Nat.eqb_spec (pt_chunk x) c); [congruence|].
        split; [lia|]. split; [intros kd; specialize (Q2 kd); specialize (S' kd); lia|exact Q3].
  - (* Heaps *) split; cbn [dm_chunks dm_next].
    + intros c ck' kd E Hs. destruct (Hnew c ck' E) as (ck0 & E0 & Hk). destruct (Hk kd) as [Hk1 Hk2]. rewrite Hk2. apply (H1 c ck0 kd E0). lia.
    + intros c c' ck1 ck2 kd Hne E1 E2 S1 S2. destruct (Hnew c ck1 E1) as (a & Ea & Ha). destruct (Hnew c' ck2 E2) as (b & Eb & Hb).
      destruct (Ha kd) as [Ha1 Ha2], (Hb kd) as [Hb1 Hb2]. rewrite Ha2, Hb2. apply (H2 c c' a b kd Hne Ea Eb); lia.
  - (* Geo *) split; [|split]; cbn [dm_chunks].
    + intros y Hy. apply G1. eapply drop_nth_in; eassumption.
    + intros y kd p Hy Ep. apply drop_nth_in in Hy. destruct (G2 y kd p Hy Ep) as (ck0 & E0 & K1 & K2).
      destruct (nth_error cs' (pt_chunk y)) as [ck1|] eqn:E1.
      * exists ck1. split; [reflexivity|]. destruct (Hnew _ _ E1) as (ck2 & E2 & Hk). assert (ck2 = ck0) by congruence. subst.
        destruct (Hk kd) as [-> ->]. auto.
      * apply nth_error_None in E1. specialize (B1 y Hy). lia.
    + intros i j y z kd p q Ey Ez Hij Hyz Ep Eq. rewrite drop_nth_nth in Ey, Ez.
      eapply (G3 (if i <? k then i else Datatypes.S i) (if j <? k then j else Datatypes.S j) y z kd p q); try eassumption.
      destruct (Nat.ltb_spec i k), (Nat.ltb_spec j k); lia.
  - (* Clean *) intros -> HC c ck' E. cbn [dm_chunks] in E. destruct live as [|x0 live]; [discriminate Ek|]. cbn in Ek. injection Ek as ->.
    cbn [drop_nth] in *. rewrite Hw in E. destruct (Nat.eqb_spec c (pt_chunk x)) as [->|Hne].
    + injection E as <-. cbn [ck_pool p_busy p_size]. destruct (HC _ _ Eck) as (C1 & C2). rewrite inch_cons, Nat.eqb_refl in C1.
      cbn [stk] in C1. destruct C1 as (I1 & I2 & I3). split; [exact I3|]. intros kd. destruct (C2 kd) as [C3 C4]. specialize (S kd).
      rewrite inch_cons, Nat.eqb_refl in C3. rewrite sumk_cons in C3.
      destruct (Nat.eqb_spec n 0) as [En|En].
      * assert (inch (pt_chunk x) live = []) as -> by (apply length_zero_iff_nil; unfold n in En; lia). unfold sumk. cbn. rewrite list_sum_nil. lia.
      * assert (n = pt_id x) as <- by (unfold n; rewrite I1; lia). rewrite Nat.eqb_refl. lia.
    + destruct (HC c ck' E) as (C1 & C2). rewrite inch_cons in C1, C2. destruct (Nat.eqb_spec (pt_chunk x) c); [congruence|]. auto.
Qed.

(** *** Allocating *)
Definition Inv (s : dynmem) (live : list part) : Prop := Base s live /\ Heaps s /\ Geo s live.

Lemma nth_error_snoc : forall {A} (l : list A) x i y, nth_error (l ++ [x]) i = Some y ->
  nth_error l i = Some y \/ (i = length l /\ y = x).
Proof.
  intros A l x i y E. destruct (Nat.lt_ge_cases i (length l)) as [H|H].
  - rewrite nth_error_app1 in E by assumption. now left.
  - rewrite nth_error_app2 in E by assumption. destruct (i - length l) as [|m] eqn:Em.
    + injection E as <-. right. split; [lia|reflexivity].
    + destruct m; discriminate E.
Qed.

Lemma inch_out : forall s live c, Base s live -> length (dm_chunks s) <= c -> inch c live = [].
Proof.
  intros s live c (B1 & _) Hc. destruct (inch c live) as [|y l] eqn:E; [reflexivity|].
  assert (Hy : In y (inch c live)) by (rewrite E; now left). apply in_inch in Hy. destruct Hy as [Hy <-]. specialize (B1 y Hy). lia.
Qed.

Lemma grow_ok : forall s live, Inv s live -> Clean s live ->
  Inv (DynMem (dm_chunks s ++ [empty_chunk]) (dm_next s)) live /\ Clean (DynMem (dm_chunks s ++ [empty_chunk]) (dm_next s)) live.
Proof.
  intros s live (HB & (H1 & H2) & (G1 & G2 & G3)) HC. pose proof (inch_out s live (length (dm_chunks s)) HB (le_n _)) as Ho.
  destruct HB as (B1 & B2). split; [split; [|split]|].
  - split; cbn [dm_chunks].
    + intros x Hx. rewrite app_length. specialize (B1 x Hx). lia.
    + intros c ck E. apply nth_error_snoc in E. destruct E as [E|[-> ->]]; [now apply B2|].
      rewrite Ho. cbn. split; [reflexivity|]. split; [intros; unfold sumk; cbn; rewrite list_sum_nil; lia|reflexivity].
  - split; cbn [dm_chunks dm_next].
    + intros c ck k E Hs. apply nth_error_snoc in E. destruct E as [E|[-> ->]]; [now apply (H1 c)|cbn in Hs; lia].
    + intros c c' a b k Hne Ea Eb Sa Sb. apply nth_error_snoc in Ea, Eb. destruct Ea as [Ea|[-> ->]]; [|cbn in Sa; lia].
      destruct Eb as [Eb|[-> ->]]; [|cbn in Sb; lia]. now apply (H2 c c').
  - split; [exact G1|]. split; [|exact G3]. intros x k p Hx Ep. destruct (G2 x k p Hx Ep) as (ck & E & K).
    exists ck. split; [|exact K]. cbn [dm_chunks]. rewrite nth_error_app1; [exact E|]. apply nth_error_Some. congruence.
  - intros c ck E. cbn [dm_chunks] in E. apply nth_error_snoc in E. destruct E as [E|[-> ->]]; [now apply HC|].
    rewrite Ho. cbn. split; [exact I|]. intros k. unfold sumk. cbn. rewrite list_sum_nil. auto.
Qed.

Lemma find_chunk_some : forall want cs i, find_chunk want cs = Some i -> exists c, nth_error cs i = Some c /\ chunk_fits want c = true.
Proof.
  intros want cs. induction cs as [|c cs IH]; intros i E; [discriminate E|]. cbn [find_chunk] in E.
  destruct (chunk_fits want c) eqn:Ef; [injection E as <-; now exists c|].
  destruct (find_chunk want cs) as [j|] eqn:Ej; [|discriminate E]. cbn [obind] in E. injection E as <-. now apply IH.
Qed.

Lemma fits_k : forall want c k, chunk_fits want c = true -> p_busy (ck_pool c k) = 0 \/ p_busy (ck_pool c k) + want k <= p_size (ck_pool c k).
Proof.
  intros want c k H. unfold chunk_fits, pool_fits in H. apply Bool.andb_true_iff in H. destruct H as [H HM]. apply Bool.andb_true_iff in H.
  destruct H as [HR HI]. destruct k; [rename HR into K|rename HI into K|rename HM into K];
    apply Bool.orb_true_iff in K; destruct K as [K|K];
    first [left; now apply Nat.eqb_eq|right; now apply Nat.leb_le].
Qed.

(* one pool *)
Lemma pool_take_ok : forall fresh p n, (p_busy p = 0 \/ p_busy p + n <= p_size p) -> p_busy p <= p_size p ->
  let '(q, p') := pool_take fresh p n in
  p_busy p' = p_busy p + n /\ p_busy p' <= p_size p' /\ p_size p <= p_size p' /\
  ((p_size p' = p_size p /\ p_heap p' = p_heap p) \/ (p_busy p = 0 /\ p_heap p' = fresh)) /\
  match q with Some q => 0 < n /\ pc_off q = p_busy p /\ pc_len q = n /\ pc_heap q = p_heap p' | None => n = 0 end.
Proof.
  intros fresh p n Hf Hb. unfold pool_take. destruct (Nat.ltb_spec 0 n) as [Hn|Hn]; [|repeat split; lia].
  destruct (Nat.eqb_spec (p_busy p) 0) as [E|E]; cbn [andb].
  - destruct (Nat.ltb_spec (p_size p) n) as [Hs|Hs]; cbn; repeat split; lia.
  - cbn. repeat split; lia.
Qed.

Lemma alloc_into : forall cs next live want c ck cs', let s := DynMem cs next in
  Inv s live -> Clean s live -> nth_error cs c = Some ck -> chunk_fits want ck = true ->
  let take k := pool_take next (ck_pool ck k) (want k) in
  wr cs c (Chunk (fun k => snd (take k)) (S (ck_parts ck))) = Some cs' ->
  let x := Part c (ck_parts ck) (fun k => fst (take k)) want in
  Inv (DynMem cs' (S next)) (x :: live) /\ Clean (DynMem cs' (S next)) (x :: live).
Proof.
  intros cs next live want c ck cs' s (HB & (H1 & H2) & (G1 & G2 & G3)) HC Ec Hf take Ew x.
  destruct HB as (B1 & B2). apply wr_nth in Ew. destruct Ew as (Lw & Hcl & Hw).
  destruct (HC c ck Ec) as (C1 & C2). destruct (B2 c ck Ec) as (P1 & P2 & P3).
  assert (Ht : forall k, let '(q, p') := take k in
     p_busy p' = p_busy (ck_pool ck k) + want k /\ p_busy p' <= p_size p' /\ p_size (ck_pool ck k) <= p_size p' /\
     ((p_size p' = p_size (ck_pool ck k) /\ p_heap p' = p_heap (ck_pool ck k)) \/ (p_busy (ck_pool ck k) = 0 /\ p_heap p' = next)) /\
     match q with Some q => 0 < want k /\ pc_off q = p_busy (ck_pool ck k) /\ pc_len q = want k /\ pc_heap q = p_heap p' | None => want k = 0 end).
  { intros k. unfold take. apply pool_take_ok; [now apply fits_k|apply C2]. }
  assert (Hsx : has_size x (pt_size x)).
  { intros k. cbn [x pt_piece pt_size]. specialize (Ht k). destruct (take k) as [[q|] p']; cbn [fst].
    - destruct Ht as (_ & _ & _ & _ & T1 & _ & T2 & _). auto.
    - now destruct Ht as (_ & _ & _ & _ & T1). }
  assert (Hix : inch c (x :: live) = x :: inch c live) by (rewrite inch_cons; cbn [x pt_chunk]; now rewrite Nat.eqb_refl).
  assert (Hin : forall c', c' <> c -> inch c' (x :: live) = inch c' live).
  { intros c' Hne. rewrite inch_cons. cbn [x pt_chunk]. destruct (Nat.eqb_spec c c'); [congruence|reflexivity]. }
  (* old blocks of this chunk end below the old busy mark *)
  assert (Hold : forall y k p, In y live -> pt_chunk y = c -> pt_piece y k = Some p -> pc_off p + pc_len p <= p_busy (ck_pool ck k) /\ 0 < pc_len p).
  { intros y k p Hy Hyc Ep. destruct (C2 k) as [-> _]. split.
    - eapply stk_end; [exact C1|intros z Hz; apply in_inch in Hz; now apply G1|apply in_inch; eauto|exact Ep].
    - destruct (has_size_len y k p (G1 y Hy) Ep). lia. }
  split; [split; [|split]|].
  - (* Base *) split; cbn [dm_chunks].
    + intros y [<-|Hy]; rewrite Lw; [exact Hcl|now apply B1].
    + intros c' ck' E. rewrite Hw in E. destruct (Nat.eqb_spec c' c) as [->|Hne].
      * injection E as <-. cbn [ck_parts ck_pool]. rewrite Hix. cbn [length]. split; [lia|]. split; [|discriminate].
        intros k. rewrite sumk_cons. cbn [x pt_size]. specialize (Ht k). specialize (P2 k). destruct (take k) as [q p']. cbn [snd]. lia.
      * rewrite Hin by assumption. now apply B2.
  - (* Heaps *) split; cbn [dm_chunks dm_next].
    + intros c' ck' k E Hs. rewrite Hw in E. destruct (Nat.eqb_spec c' c) as [->|Hne].
      * injection E as <-. cbn [ck_pool] in *. specialize (Ht k). destruct (take k) as [q p']. cbn [snd] in *.
        destruct Ht as (_ & _ & _ & [[T1 T2]|[T1 T2]] & _); [|lia]. rewrite T2. specialize (H1 c ck k Ec). cbn [dm_next s] in H1. lia.
      * specialize (H1 c' ck' k E Hs). cbn [dm_next s] in H1. lia.
    + assert (Hn : forall c' ck' k, c' <> c -> nth_error cs c' = Some ck' -> 0 < p_size (ck_pool ck' k) -> 0 < p_size (snd (take k)) ->
                 p_heap (ck_pool ck' k) <> p_heap (snd (take k))).
      { intros c' ck' k Hne E S1 S2. specialize (Ht k). destruct (take k) as [q p']. cbn [snd] in *.
        destruct Ht as (_ & _ & _ & [[T1 T2]|[T1 T2]] & _); rewrite T2.
        - apply (H2 c' c ck' ck k Hne E Ec); lia.
        - specialize (H1 c' ck' k E S1). cbn [dm_next s] in H1. lia. }
      intros c1 c2 k1 k2 k Hne E1 E2 S1 S2. rewrite Hw in E1, E2.
      destruct (Nat.eqb_spec c1 c) as [->|N1], (Nat.eqb_spec c2 c) as [->|N2].
      * congruence.
      * injection E1 as <-. cbn [ck_pool] in *. intros Eq. symmetry in Eq. revert Eq. now apply (Hn c2).
      * injection E2 as <-. cbn [ck_pool] in *. now apply (Hn c1).
      * now apply (H2 c1 c2 k1 k2 k).
  - (* Geo *) split; [|split]; cbn [dm_chunks].
    + intros y [<-|Hy]; [exact Hsx|now apply G1].
    + intros y k p [<-|Hy] Ep.
      * cbn [x pt_chunk pt_piece] in *. exists (Chunk (fun k => snd (take k)) (S (ck_parts ck))). rewrite Hw, Nat.eqb_refl.
        split; [reflexivity|]. cbn [ck_pool]. specialize (Ht k). destruct (take k) as [q p']. cbn [fst snd] in *. subst q.
        destruct Ht as (T1 & T2 & T3 & T4 & T5 & T6 & T7 & T8). split; [exact T8|lia].
      * destruct (G2 y k p Hy Ep) as (ck0 & E0 & K1 & K2). cbn [dm_chunks s] in E0. rewrite Hw.
        destruct (Nat.eqb_spec (pt_chunk y) c) as [Hyc|Hne].
        -- eexists. split; [reflexivity|]. cbn [ck_pool]. assert (ck0 = ck) by congruence. subst ck0.
           destruct (Hold y k p Hy Hyc Ep) as [O1 O2]. specialize (Ht k). destruct (take k) as [q p']. cbn [snd].
           destruct Ht as (T1 & T2 & T3 & [[T4 T5]|[T4 T5]] & _); [|lia]. rewrite T5, T4. auto.
        -- exists ck0. auto.
    + assert (Hxy : forall y k p q, In y live -> pt_chunk y = c -> pt_piece x k = Some p -> pt_piece y k = Some q -> pc_off q + pc_len q <= pc_off p).
      { intros y k p q Hy Hyc Ep Eq. destruct (Hold y k q Hy Hyc Eq) as [O1 _]. cbn [x pt_piece] in Ep.
        specialize (Ht k). destruct (take k) as [q' p']. cbn [fst] in Ep. subst q'. destruct Ht as (_ & _ & _ & _ & _ & T6 & _). lia. }
      intros [|i] [|j] y z k p q Ey Ez Hij Hyz Ep Eq; cbn [nth_error] in Ey, Ez.
      * lia.
      * injection Ey as <-. right. apply nth_error_In in Ez. apply (Hxy z k p q Ez); [now rewrite <- Hyz|assumption|assumption].
      * injection Ez as <-. left. apply nth_error_In in Ey. apply (Hxy y k q p Ey); [now rewrite Hyz|assumption|assumption].
      * eapply (G3 i j y z k p q); try eassumption. lia.
  - (* Clean *) intros c' ck' E. cbn [dm_chunks] in E. rewrite Hw in E. destruct (Nat.eqb_spec c' c) as [->|Hne].
    + injection E as <-. cbn [ck_pool]. rewrite Hix. split.
      * cbn [stk]. split; [cbn [x pt_id]; exact P1|]. split; [|exact C1]. intros k p Ep. cbn [x pt_piece] in Ep.
        specialize (Ht k). destruct (take k) as [q' p']. cbn [fst] in Ep. subst q'. destruct Ht as (_ & _ & _ & _ & _ & T6 & _).
        destruct (C2 k) as [C3 _]. lia.
      * intros k. rewrite sumk_cons. cbn [x pt_size]. destruct (C2 k) as [C3 _]. specialize (Ht k). destruct (take k) as [q p']. cbn [snd]. lia.
    + rewrite Hin by assumption. now apply HC.
Qed.

Lemma alloc_ok : forall s live want, Inv s live -> Clean s live ->
  exists x s', dm_alloc want s = Some (x, s') /\ pt_size x = want /\ Inv s' (x :: live) /\ Clean s' (x :: live).
Proof.
  intros [cs next] live want HI HC. unfold dm_alloc. cbn [dm_chunks dm_next].
  destruct (find_chunk want cs) as [c|] eqn:Ef.
  - destruct (find_chunk_some _ _ _ Ef) as (ck & Ec & Hf). unfold rd. rewrite Ec. cbn [obind].
    destruct (wr_some cs c (Chunk (fun k => snd (pool_take next (ck_pool ck k) (want k))) (S (ck_parts ck)))) as (cs' & Ew & _).
    { apply nth_error_Some. congruence. }
    rewrite Ew. cbn [obind]. eexists _, _. split; [reflexivity|]. split; [reflexivity|].
    apply (alloc_into cs next live want c ck cs' HI HC Ec Hf Ew).
  - destruct (grow_ok _ _ HI HC) as [HI' HC']. cbn [dm_chunks dm_next] in HI', HC'.
    assert (Ec : nth_error (cs ++ [empty_chunk]) (length cs) = Some empty_chunk) by (rewrite nth_error_app2, Nat.sub_diag by lia; reflexivity).
    unfold rd. rewrite Ec. cbn [obind].
    destruct (wr_some (cs ++ [empty_chunk]) (length cs) (Chunk (fun k => snd (pool_take next (ck_pool empty_chunk k) (want k))) (S (ck_parts empty_chunk)))) as (cs' & Ew & _).
    { rewrite app_length. cbn. lia. }
    rewrite Ew. cbn [obind]. eexists _, _. split; [reflexivity|]. split; [reflexivity|].
    apply (alloc_into (cs ++ [empty_chunk]) next live want (length cs) empty_chunk cs' HI' HC' Ec eq_refl Ew).
Qed.

Lemma clean_empty : forall s, Base s [] -> (forall c ck k, nth_error (dm_chunks s) c = Some ck -> p_busy (ck_pool ck k) = 0) /\ Clean s [].
Proof.
  intros s (_ & B2). assert (H : forall c ck k, nth_error (dm_chunks s) c = Some ck -> p_busy (ck_pool ck k) = 0).
  { intros c ck k E. destruct (B2 c ck E) as (P1 & _ & P3). apply P3. exact P1. }
  split; [exact H|]. intros c ck E. cbn. split; [exact I|]. intros k. rewrite (H c ck k E). split; [reflexivity|lia].
Qed.

Lemma defrag_ok : forall s live, Inv s live -> Inv (fst (dm_defragment s)) live /\ (Clean s live -> Clean (fst (dm_defragment s)) live).
Proof.
  intros s live HI. unfold dm_defragment. destruct (length (dm_chunks s) <=? 1); [auto|].
  destruct (existsb _ _) eqn:Ex; [auto|]. cbn [fst].
  assert (live = []) as ->.
  { destruct live as [|x live]; [reflexivity|]. exfalso. destruct HI as ((B1 & B2) & _).
    specialize (B1 x (or_introl eq_refl)). destruct (nth_error (dm_chunks s) (pt_chunk x)) as [ck|] eqn:E; [|apply nth_error_None in E; lia].
    destruct (B2 _ _ E) as (P1 & _). rewrite inch_cons, Nat.eqb_refl in P1. cbn [length] in P1.
    assert (existsb (fun c => negb (ck_parts c =? 0)) (dm_chunks s) = true); [|congruence].
    apply existsb_exists. exists ck. split; [eapply nth_error_In; eassumption|]. rewrite P1. reflexivity. }
  assert (HB : Base (DynMem [Chunk (fun k => Pool (list_sum (map (fun c => p_size (ck_pool c k)) (dm_chunks s))) 0 (dm_next s)) 0] (S (dm_next s))) []).
  { split; [intros x []|]. intros [|c] ck E; [|destruct c; discriminate E]. cbn in E. injection E as <-. cbn.
    split; [reflexivity|]. split; [intros; unfold sumk; cbn; rewrite list_sum_nil; lia|reflexivity]. }
  split; [split; [exact HB|split]|intros _; now apply clean_empty].
  - split; cbn [dm_chunks dm_next].
    + intros [|c] ck k E Hs; [|destruct c; discriminate E]. cbn in E. injection E as <-. cbn. lia.
    + intros [|c] [|c'] a b k Hne Ea Eb; try (destruct c; discriminate Ea); try (destruct c'; discriminate Eb). congruence.
  - split; [intros x []|]. split; [intros x k p []|]. intros [|i] j x y k p q E; discriminate E.
Qed.

(** *** Histories *)
Lemma drun_scoped : forall h s live ws disorder, Inv s live -> (disorder = false -> Clean s live) ->
  ws = map pt_size live -> scoped (length live) disorder h ->
  exists s' live', drun (s, live) h = Some (s', live') /\ Inv s' live' /\ fold_left wants_step h ws = map pt_size live'.
Proof.
  induction h as [|o h IH]; intros s live ws disorder HI HC Hw Hs.
  - exists s, live. auto.
  - destruct o as [want|k|]; cbn [scoped] in Hs; cbn [drun dstep fold_left wants_step].
    + destruct Hs as [-> Hs]. destruct (alloc_ok s live want HI (HC eq_refl)) as (x & s' & E & Ex & HI' & HC').
      rewrite E. cbn [obind fst snd]. apply (IH s' (x :: live) (want :: ws) false HI' (fun _ => HC')); [cbn [map]; congruence|exact Hs].
    + destruct Hs as [Hk Hs]. destruct (nth_error live k) as [x|] eqn:Ex; [|apply nth_error_None in Ex; lia]. cbn [obind].
      destruct HI as (HB & HH & HG). destruct (release_ok s live k x HB HH HG Ex) as (s' & E & HB' & HH' & HG' & HC').
      rewrite E. cbn [obind]. apply (IH s' (drop_nth k live) (drop_nth k ws) (if length live - 1 =? 0 then false else disorder || negb (k =? 0))).
      * split; [exact HB'|split; assumption].
      * intros Hd. destruct (Nat.eqb_spec (length live - 1) 0) as [Hz|Hz].
        -- assert (drop_nth k live = []) as -> by (apply length_zero_iff_nil; rewrite drop_nth_length; lia).
           rewrite (proj1 (length_zero_iff_nil (drop_nth k live))) in HB' by (rewrite drop_nth_length; lia). now apply clean_empty.
        -- apply Bool.orb_false_iff in Hd. destruct Hd as [-> Hd]. apply Bool.negb_false_iff, Nat.eqb_eq in Hd. apply HC'; [exact Hd|now apply HC].
      * subst ws. clear. revert k. induction live as [|y l IH]; intros [|k]; cbn [drop_nth map]; try reflexivity. now rewrite IH.
      * rewrite drop_nth_length by assumption. exact Hs.
    + destruct (defrag_ok s live HI) as [HI' HC']. cbn [obind]. eapply (IH _ live ws disorder); try eassumption. intros Hd. apply HC'. now apply HC.
Qed.

Lemma inv_init : Inv dm_init [] /\ Clean dm_init [].
Proof.
  assert (HB : Base dm_init []). { split; [intros x []|]. intros [|c] ck E; discriminate E. }
  split; [|now apply clean_empty]. split; [exact HB|]. split.
  - split; [intros [|c] ck k E|intros [|c] c' a b k _ E]; discriminate E.
  - split; [intros x []|]. split; [intros x k p []|]. intros [|i] j x y k p q E; discriminate E.
Qed.

Lemma inv_good : forall s live, Inv s live -> good_pool s live (map pt_size live).
Proof.
  intros s live (HB & (H1 & H2) & (G1 & G2 & G3)). split; [|split].
  - clear - G1. induction live as [|x l IH]; cbn [map]; [constructor|]. constructor; [now apply G1; left|]. apply IH. intros y Hy. apply G1. now right.
  - intros x [[k h] i] Hx (p & Ep & Eh & Hi). destruct (G2 x k p Hx Ep) as (ck & E & K1 & K2).
    exists ck. split; [eapply nth_error_In; eassumption|]. split; [congruence|lia].
  - intros i j x y [[k h] c] Ex Ey Hij [(p & Ep & Eh & Hp) (q & Eq & Eh' & Hq)].
    assert (Hx : In x live) by (eapply nth_error_In; eassumption). assert (Hy : In y live) by (eapply nth_error_In; eassumption).
    destruct (G2 x k p Hx Ep) as (a & Ea & A1 & A2). destruct (G2 y k q Hy Eq) as (b & Eb & B1 & B2).
    destruct (Nat.eq_dec (pt_chunk x) (pt_chunk y)) as [Exy|Nxy].
    + destruct (G3 i j x y k p q Ex Ey Hij Exy Ep Eq); lia.
    + apply (H2 (pt_chunk x) (pt_chunk y) a b k Nxy Ea Eb); lia || congruence.
Qed.

(** *** Every legal history *)
Definition LInv (s : dynmem) (live : list part) : Prop :=
  Base s live /\
  (forall c ck k, nth_error (dm_chunks s) c = Some ck -> p_busy (ck_pool ck k) <= p_size (ck_pool ck k)) /\
  (forall x, In x live -> has_size x (pt_size x)) /\
  (forall x k p, In x live -> pt_piece x k = Some p -> exists ck, nth_error (dm_chunks s) (pt_chunk x) = Some ck /\
     pc_heap p = p_heap (ck_pool ck k) /\ pc_off p + pc_len p <= p_size (ck_pool ck k)).

Lemma release_legal : forall s live k x, LInv s live -> nth_error live k = Some x ->
  exists s', dm_release x s = Some s' /\ LInv s' (drop_nth k live).
Proof.
  intros s live k x ((B1 & B2) & BS & G1 & G2) Ek.
  assert (Hx : In x live) by (eapply nth_error_In; eassumption).
  pose proof (B1 x Hx) as Hc. destruct (nth_error (dm_chunks s) (pt_chunk x)) as [ck|] eqn:Eck; [|apply nth_error_None in Eck; lia].
  destruct (B2 _ _ Eck) as (P1 & P2 & P3).
  destruct (inch_drop k live x (pt_chunk x) Ek) as [L S]. rewrite Nat.eqb_refl in L, S.
  unfold dm_release, rd. rewrite Eck. cbn [obind].
  destruct (Nat.ltb_spec 0 (ck_parts ck)) as [Hp|Hp]; [|lia]. cbn [guard obind].
  set (n := ck_parts ck - 1).
  assert (Hsz : forall kd, pt_size x kd <= p_busy (ck_pool ck kd)) by (intros kd; specialize (P2 kd); specialize (S kd); lia).
  rewrite !(proj2 (Nat.leb_le _ _)) by apply Hsz. rewrite Bool.orb_true_r. cbn [guard obind].
  destruct (wr_some (dm_chunks s) (pt_chunk x)
     (Chunk (fun kd => Pool (p_size (ck_pool ck kd)) (if n =? 0 then 0 else if n =? pt_id x then p_busy (ck_pool ck kd) - pt_size x kd else p_busy (ck_pool ck kd)) (p_heap (ck_pool ck kd))) n) Hc)
     as (cs' & Ew & Lw & Hw).
  rewrite Ew. cbn [obind]. eexists. split; [reflexivity|]. unfold rd in Hw.
  assert (Hnew : forall c ck', nth_error cs' c = Some ck' -> exists ck0, nth_error (dm_chunks s) c = Some ck0 /\
            forall kd, p_size (ck_pool ck' kd) = p_size (ck_pool ck0 kd) /\ p_heap (ck_pool ck' kd) = p_heap (ck_pool ck0 kd) /\
              p_busy (ck_pool ck' kd) <= p_busy (ck_pool ck0 kd)).
  { intros c ck' E. rewrite Hw in E. destruct (Nat.eqb_spec c (pt_chunk x)) as [->|Hne].
    - injection E as <-. exists ck. split; [exact Eck|]. intros kd. split; [reflexivity|split; [reflexivity|]]. cbn.
      destruct (n =? 0); [lia|]. destruct (n =? pt_id x); lia.
    - exists ck'. split; [exact E|]. auto. }
  split; [|split; [|split]].
  - split; cbn [dm_chunks].
    + intros y Hy. rewrite Lw. apply B1. eapply drop_nth_in; eassumption.
    + intros c ck' E. rewrite Hw in E. destruct (inch_drop k live x c Ek) as [L' S'].
      destruct (Nat.eqb_spec c (pt_chunk x)) as [->|Hne].
      * injection E as <-. cbn [ck_parts ck_pool p_busy]. rewrite Nat.eqb_refl in L', S'. split; [unfold n; lia|]. split.
        -- intros kd. specialize (P2 kd). specialize (S' kd). destruct (Nat.eqb_spec n 0) as [En|En].
           ++ assert (inch (pt_chunk x) (drop_nth k live) = []) as -> by (apply length_zero_iff_nil; unfold n in En; lia). reflexivity.
           ++ destruct (n =? pt_id x); lia.
        -- intros -> kd. reflexivity.
      * destruct (B2 c ck' E) as (Q1 & Q2 & Q3). destruct (Nat.eqb_spec (pt_chunk x) c); [congruence|].
        split; [lia|]. split; [intros kd; specialize (Q2 kd); specialize (S' kd); lia|exact Q3].
  - intros c ck' kd E. cbn [dm_chunks] in E. destruct (Hnew c ck' E) as (ck0 & E0 & Hk). destruct (Hk kd) as (K1 & K2 & K3).
    specialize (BS c ck0 kd E0). lia.
  - intros y Hy. apply G1. eapply drop_nth_in; eassumption.
  - intros y kd p Hy Ep. apply drop_nth_in in Hy. destruct (G2 y kd p Hy Ep) as (ck0 & E0 & K1 & K2). cbn [dm_chunks].
    destruct (nth_error cs' (pt_chunk y)) as [ck1|] eqn:E1.
    * exists ck1. split; [reflexivity|]. destruct (Hnew _ _ E1) as (ck2 & E2 & Hk). assert (ck2 = ck0) by congruence. subst.
      destruct (Hk kd) as (-> & -> & _). auto.
    * apply nth_error_None in E1. specialize (B1 y Hy). lia.
Qed.

Lemma sumk_in : forall l x k, In x l -> pt_size x k <= sumk k l.
Proof. induction l as [|y l IH]; intros x k H; [contradiction|]. rewrite sumk_cons. destruct H as [->|H]; [lia|]. specialize (IH x k H). lia. Qed.

Lemma alloc_legal : forall s live want, LInv s live ->
  exists x s', dm_alloc want s = Some (x, s') /\ pt_size x = want /\ LInv s' (x :: live).
Proof.
  intros [cs next] live want (HB & BS & G1 & G2). unfold dm_alloc. cbn [dm_chunks dm_next] in *.
  assert (Hgo : forall cs0 c ck, LInv (DynMem cs0 next) live -> nth_error cs0 c = Some ck -> chunk_fits want ck = true ->
     exists x s', (do ck <- rd cs0 c; do cs' <- wr cs0 c (Chunk (fun k => snd (pool_take next (ck_pool ck k) (want k))) (S (ck_parts ck)));
        Some (Part c (ck_parts ck) (fun k => fst (pool_take next (ck_pool ck k) (want k))) want, DynMem cs' (S next))) = Some (x, s')
        /\ pt_size x = want /\ LInv s' (x :: live)).
  { clear. intros cs0 c ck ((B1 & B2) & BS & G1 & G2) Ec Hf. cbn [dm_chunks] in *. unfold rd. rewrite Ec. cbn [obind].
    set (take := fun k => pool_take next (ck_pool ck k) (want k)).
    destruct (wr_some cs0 c (Chunk (fun k => snd (take k)) (S (ck_parts ck)))) as (cs' & Ew & Lw & Hw).
    { apply nth_error_Some. congruence. }
    change (fun k => snd (pool_take next (ck_pool ck k) (want k))) with (fun k => snd (take k)).
    rewrite Ew. cbn [obind]. eexists _, _. split; [reflexivity|]. split; [reflexivity|]. unfold rd in Hw.
    destruct (B2 c ck Ec) as (P1 & P2 & P3).
    assert (Ht : forall k, let '(q, p') := take k in
       p_busy p' = p_busy (ck_pool ck k) + want k /\ p_busy p' <= p_size p' /\ p_size (ck_pool ck k) <= p_size p' /\
       ((p_size p' = p_size (ck_pool ck k) /\ p_heap p' = p_heap (ck_pool ck k)) \/ (p_busy (ck_pool ck k) = 0 /\ p_heap p' = next)) /\
       match q with Some q => 0 < want k /\ pc_off q = p_busy (ck_pool ck k) /\ pc_len q = want k /\ pc_heap q = p_heap p' | None => want k = 0 end).
    { intros k. unfold take. apply pool_take_ok; [now apply fits_k|now apply (BS c)]. }
    split; [|split; [|split]]; cbn [dm_chunks].
    - split; cbn [dm_chunks].
      + intros y [<-|Hy]; rewrite Lw; [cbn [pt_chunk]; apply nth_error_Some; congruence|now apply B1].
      + intros c' ck' E. rewrite Hw in E. rewrite inch_cons. cbn [pt_chunk]. destruct (Nat.eqb_spec c' c) as [->|Hne].
        * injection E as <-. rewrite Nat.eqb_refl. cbn [ck_parts ck_pool length].
          split; [lia|]. split; [|discriminate]. intros k. rewrite sumk_cons. cbn [pt_size]. specialize (P2 k).
          specialize (Ht k). destruct (take k) as [q p']. cbn [snd]. lia.
        * destruct (Nat.eqb_spec c c'); [congruence|]. now apply B2.
    - intros c' ck' k E. rewrite Hw in E. destruct (Nat.eqb_spec c' c) as [->|Hne]; [|now apply (BS c')].
      injection E as <-. cbn [ck_pool]. specialize (Ht k). destruct (take k) as [q p']. cbn [snd]. lia.
    - intros y [<-|Hy]; [|now apply G1]. intros k. cbn [pt_piece pt_size]. specialize (Ht k).
      change (fst (pool_take next (ck_pool ck k) (want k))) with (fst (take k)). destruct (take k) as [[q|] p']; cbn [fst].
      + destruct Ht as (_ & _ & _ & _ & T1 & _ & T2 & _). auto.
      + now destruct Ht as (_ & _ & _ & _ & T1).
    - intros y k p [<-|Hy] Ep.
      + cbn [pt_chunk pt_piece] in *. rewrite Hw, Nat.eqb_refl. eexists. split; [reflexivity|]. cbn [ck_pool].
        change (fst (take k) = Some p) in Ep. specialize (Ht k). destruct (take k) as [q p']. cbn [fst snd] in *. subst q.
        destruct Ht as (T1 & T2 & T3 & T4 & T5 & T6 & T7 & T8). split; [exact T8|lia].
      + destruct (G2 y k p Hy Ep) as (ck0 & E0 & K1 & K2). rewrite Hw.
        destruct (Nat.eqb_spec (pt_chunk y) c) as [Hyc|Hne]; [|exists ck0; auto].
        eexists. split; [reflexivity|]. cbn [ck_pool]. assert (ck0 = ck) by congruence. subst ck0.
        destruct (has_size_len y k p (G1 y Hy) Ep) as [L1 L2].
        assert (pt_size y k <= sumk k (inch c live)) by (apply sumk_in, in_inch; auto).
        specialize (P2 k). specialize (Ht k). destruct (take k) as [q p']. cbn [snd].
        destruct Ht as (T1 & T2 & T3 & [[T4 T5]|[T4 T5]] & _); [|lia]. rewrite T5, T4. auto. }
  destruct (find_chunk want cs) as [c|] eqn:Ef.
  - destruct (find_chunk_some _ _ _ Ef) as (ck & Ec & Hf). eapply Hgo; try eassumption. split; [exact HB|]. auto.
  - apply (Hgo (cs ++ [empty_chunk]) (length cs) empty_chunk); [|rewrite nth_error_app2, Nat.sub_diag by lia; reflexivity|reflexivity].
    pose proof (inch_out _ live (length cs) HB (le_n _)) as Ho. destruct HB as (B1 & B2). split; [split|split; [|split]]; cbn [dm_chunks] in *.
    + intros x Hx. rewrite app_length. specialize (B1 x Hx). lia.
    + intros c ck E. apply nth_error_snoc in E. destruct E as [E|[-> ->]]; [now apply B2|].
      rewrite Ho. cbn. split; [reflexivity|]. split; [intros; unfold sumk; cbn; rewrite list_sum_nil; lia|reflexivity].
    + intros c ck k E. apply nth_error_snoc in E. destruct E as [E|[-> ->]]; [now apply (BS c)|cbn; lia].
    + exact G1.
    + intros x k p Hx Ep. destruct (G2 x k p Hx Ep) as (ck & E & K).
      exists ck. split; [|exact K]. rewrite nth_error_app1; [exact E|]. apply nth_error_Some. congruence.
Qed.

Lemma defrag_live : forall s live, Base s live -> snd (dm_defragment s) = false ->
  fst (dm_defragment s) = s \/ live = [].
Proof.
  intros s live (B1 & B2) Hd. unfold dm_defragment in *. destruct (length (dm_chunks s) <=? 1); [auto|].
  destruct (existsb _ _) eqn:Ex; [discriminate Hd|]. right.
  destruct live as [|x live]; [reflexivity|]. exfalso.
  specialize (B1 x (or_introl eq_refl)). destruct (nth_error (dm_chunks s) (pt_chunk x)) as [ck|] eqn:E; [|apply nth_error_None in E; lia].
  destruct (B2 _ _ E) as (P1 & _). rewrite inch_cons, Nat.eqb_refl in P1. cbn [length] in P1.
  assert (existsb (fun c => negb (ck_parts c =? 0)) (dm_chunks s) = true); [|congruence].
  apply existsb_exists. exists ck. split; [eapply nth_error_In; eassumption|]. rewrite P1. reflexivity.
Qed.
Lemma defrag_throw : forall s, snd (dm_defragment s) = true -> fst (dm_defragment s) = s.
Proof.
  intros s. unfold dm_defragment. destruct (length (dm_chunks s) <=? 1); [auto|]. destruct (existsb _ _); [auto|]. discriminate.
Qed.

Lemma defrag_legal : forall s live, LInv s live -> LInv (fst (dm_defragment s)) live.
Proof.
  intros s live HI. destruct (snd (dm_defragment s)) eqn:Ed; [now rewrite defrag_throw|].
  destruct (defrag_live s live (proj1 HI) Ed) as [->| ->]; [exact HI|].
  unfold dm_defragment in *. destruct (length (dm_chunks s) <=? 1); [exact HI|]. destruct (existsb _ _); [discriminate Ed|]. cbn [fst].
  split; [|split; [|split]].
  - split; [intros x []|]. intros [|c] ck E; [|destruct c; discriminate E]. cbn in E. injection E as <-. cbn.
    split; [reflexivity|]. split; [intros; unfold sumk; cbn; rewrite list_sum_nil; lia|reflexivity].
  - intros [|c] ck k E; [|destruct c; discriminate E]. cbn in E. injection E as <-. cbn. lia.
  - intros x [].
  - intros x k p [].
Qed.

Lemma drun_legal : forall h s live ws, LInv s live -> ws = map pt_size live -> legal (length live) h ->
  exists s' live', drun (s, live) h = Some (s', live') /\ LInv s' live' /\ fold_left wants_step h ws = map pt_size live'.
Proof.
  induction h as [|o h IH]; intros s live ws HI Hw Hs.
  - exists s, live. auto.
  - destruct o as [want|k|]; cbn [legal] in Hs; cbn [drun dstep fold_left wants_step].
    + destruct (alloc_legal s live want HI) as (x & s' & E & Ex & HI').
      rewrite E. cbn [obind fst snd]. apply (IH s' (x :: live) (want :: ws) HI'); [cbn [map]; congruence|exact Hs].
    + destruct Hs as [Hk Hs]. destruct (nth_error live k) as [x|] eqn:Ex; [|apply nth_error_None in Ex; lia]. cbn [obind].
      destruct (release_legal s live k x HI Ex) as (s' & E & HI'). rewrite E. cbn [obind].
      apply (IH s' (drop_nth k live) (drop_nth k ws) HI').
      * subst ws. clear. revert k. induction live as [|y l IH]; intros [|k]; cbn [drop_nth map]; try reflexivity. now rewrite IH.
      * rewrite drop_nth_length by assumption. exact Hs.
    + cbn [obind]. apply (IH _ live ws (defrag_legal s live HI) Hw Hs).
Qed.

Lemma linv_init : LInv dm_init [].
Proof.
  split; [|split; [|split]].
  - split; [intros x []|]. intros [|c] ck E; discriminate E.
  - intros [|c] ck k E; discriminate E.
  - intros x [].
  - intros x k p [].
Qed.

(** *** The shared pool (C14) *)
Definition PInv (st : pstate) : Prop :=
  let '(s, own) := st in
  NoDup (map snd own ++ pr_unused s) /\
  (forall id, In id (map snd own ++ pr_unused s) <-> id < length (pr_mem s)) /\
  exists objs, pr_mem s = map Some objs /\ NoDup objs /\ Forall (fun o => o < pr_next s) objs.

Lemma removelast_last : forall (l : list nat) x r, rev l = x :: r -> l = removelast l ++ [x] /\ removelast l = rev r.
Proof.
  intros l x r E. assert (l = rev r ++ [x]) by (rewrite <- (rev_involutive l), E; reflexivity). subst l.
  rewrite removelast_last. auto.
Qed.

Lemma wr_mid : forall {A} (l r : list A) x v, wr (l ++ x :: r) (length l) v = Some (l ++ v :: r).
Proof. intros A l r x v. induction l as [|y l IH]; cbn [app length wr]; [reflexivity|]. rewrite IH. reflexivity. Qed.

Lemma par_fill_eq : forall n st o r next, st <= length o -> length o + r = st + n ->
  par_fill st n (map Some o ++ repeat None r) next = Some (map Some (o ++ seq next r), next + r).
Proof.
  unfold par_fill. induction n as [|n IH]; intros st o r next Hs Hl.
  - assert (r = 0) by lia. subst r. cbn [for_range repeat seq]. now rewrite !app_nil_r, Nat.add_0_r.
  - cbn [for_range]. destruct (Nat.lt_ge_cases st (length o)) as [Hlt|Hge].
    + unfold rd at 1. rewrite nth_error_app1 by (rewrite map_length; exact Hlt). rewrite nth_error_map.
      destruct (nth_error o st) as [v|] eqn:Ev; [|apply nth_error_None in Ev; lia]. cbn [option_map obind].
      apply IH; lia.
    + assert (st = length o) by lia. subst st. destruct r as [|r]; [lia|]. cbn [repeat].
      unfold rd at 1. rewrite nth_error_app2 by (rewrite map_length; lia). rewrite map_length, Nat.sub_diag. cbn [nth_error obind].
      rewrite <- (map_length Some o) at 1. rewrite wr_mid. cbn [obind].
      replace (map Some o ++ Some next :: repeat None r) with (map Some (o ++ [next]) ++ repeat None r) by (rewrite map_app, <- app_assoc; reflexivity).
      rewrite IH by (rewrite app_length; cbn [length]; lia). rewrite <- app_assoc. cbn [app seq]. do 2 f_equal. lia.
Qed.

Lemma resize_eq : forall o n, resize_ptrs (map Some o) n = map Some (firstn n o) ++ repeat None (n - length o).
Proof. intros. unfold resize_ptrs. now rewrite firstn_map, map_length. Qed.

Lemma rev_range : forall lo hi id, In id (map (fun i => hi - i - 1) (seq 0 (hi - lo))) <-> lo <= id < hi.
Proof.
  intros lo hi id. rewrite in_map_iff. split.
  - intros (i & <- & Hi). apply in_seq in Hi. lia.
  - intros H. exists (hi - id - 1). rewrite in_seq. lia.
Qed.
Lemma rev_range_nodup : forall lo hi, NoDup (map (fun i => hi - i - 1) (seq 0 (hi - lo))).
Proof.
  intros lo hi. apply NoDup_nth with (d := 0). intros i j Hi Hj E. rewrite map_length, seq_length in Hi, Hj.
  rewrite !(nth_indep _ 0 (hi - 0 - 1)) in E by (rewrite map_length, seq_length; assumption).
  rewrite !(map_nth (fun i => hi - i - 1) _ 0), !seq_nth in E by assumption. lia.
Qed.

Lemma nodup_app_iff : forall {A} (l r : list A), NoDup (l ++ r) <-> NoDup l /\ NoDup r /\ forall x, In x l -> ~ In x r.
Proof.
  intros A l r. induction l as [|x l IH]; cbn [app].
  - split; [intros H; split; [constructor|split; [exact H|intros x []]]|tauto].
  - rewrite !NoDup_cons_iff, IH, in_app_iff. split.
    + intros (H1 & H2 & H3 & H4). split; [split; [intros C; apply H1; now left|exact H2]|]. split; [exact H3|].
      intros y [<-|Hy]; [intros C; apply H1; now right|now apply H4].
    + intros ((H1 & H2) & H3 & H4). split; [intros [H|H]; [auto|apply (H4 x); [now left|exact H]]|]. split; [exact H2|]. split; [exact H3|].
      intros y Hy. apply H4. now right.
Qed.

(* what a filter leaves of the owned slots *)
Lemma filter_slots : forall (f : nat * nat -> bool) own, NoDup (map snd own) ->
  NoDup (map snd (filter f own)).
Proof.
  intros f own. induction own as [|o own IH]; intros H; cbn [filter map]; [constructor|]. cbn [map] in H.
  apply NoDup_cons_iff in H. destruct H as [H1 H2]. destruct (f o); [|auto]. cbn [map]. constructor; [|auto].
  intros C. apply H1. apply in_map_iff in C. destruct C as (o' & E & C). apply filter_In in C. rewrite <- E. now apply in_map.
Qed.
Lemma slot_owner : forall (own : list (nat * nat)) t t' id, NoDup (map snd own) -> In (t, id) own -> In (t', id) own -> t = t'.
Proof.
  intros own t t' id. induction own as [|o own IH]; intros H H1 H2; [contradiction|]. cbn [map] in H. apply NoDup_cons_iff in H. destruct H as [Hn H].
  destruct H1 as [->|H1], H2 as [E|H2].
  - congruence.
  - exfalso. apply Hn. cbn. change id with (snd (t', id)). now apply in_map.
  - subst o. exfalso. apply Hn. cbn. change id with (snd (t, id)). now apply in_map.
  - auto.
Qed.

Lemma seq_slots : forall (t lo n : nat), map snd (map (fun id => (t, id)) (seq lo n)) = seq lo n.
Proof. intros. rewrite map_map. cbn. apply map_id. Qed.

Lemma nodup_le : forall (l : list nat) n, NoDup l -> (forall x, In x l -> x < n) -> length l <= n.
Proof.
  intros l n H H1. rewrite <- (seq_length n 0). apply NoDup_incl_length; [exact H|]. intros x Hx. apply in_seq. specialize (H1 x Hx). lia.
Qed.

Lemma removed_slots : forall own (gone : nat -> bool) t (rel : list nat),
  NoDup (map snd own) -> (forall id, In id rel <-> gone id = true) -> (forall id, In id rel -> In (t, id) own) ->
  forall id, In id (map snd own) <-> In id (map snd (filter (fun o => negb ((fst o =? t) && gone (snd o))) own)) \/ In id rel.
Proof.
  intros own gone t rel Hn Hr Ho id. rewrite !in_map_iff. split.
  - intros ([t' id'] & E & H). cbn in E. subst id'. destruct (gone id) eqn:Eg; [right; now apply Hr|left].
    exists (t', id). split; [reflexivity|]. apply filter_In. split; [exact H|]. cbn. rewrite Eg, Bool.andb_false_r. reflexivity.
  - intros [(o & E & H)|H].
    + apply filter_In in H. exists o. tauto.
    + exists (t, id). split; [reflexivity|auto].
Qed.
Lemma removed_disjoint : forall own (gone : nat -> bool) t (rel : list nat),
  NoDup (map snd own) -> (forall id, In id rel <-> gone id = true) -> (forall id, In id rel -> In (t, id) own) ->
  forall id, In id (map snd (filter (fun o => negb ((fst o =? t) && gone (snd o))) own)) -> ~ In id rel.
Proof.
  intros own gone t rel Hn Hr Ho id H C. apply in_map_iff in H. destruct H as ([t' id'] & E & H). cbn in E. subst id'.
  apply filter_In in H. destruct H as [H1 H2]. cbn in H2. rewrite (proj1 (Hr id) C), Bool.andb_true_r in H2.
  assert (t' = t) by (eapply slot_owner; eauto). subst. now rewrite Nat.eqb_refl in H2.
Qed.

Lemma pinv_release : forall s own (gone : nat -> bool) t (rel : list nat), PInv (s, own) -> NoDup rel ->
  (forall id, In id rel <-> gone id = true) -> (forall id, In id rel -> In (t, id) own) ->
  PInv (ParMem (pr_mem s) (pr_unused s ++ rel) (pr_next s), filter (fun o => negb ((fst o =? t) && gone (snd o))) own).
Proof.
  intros s own gone t rel (H1 & H2 & H3) Hn Hr Ho. apply nodup_app_iff in H1. destruct H1 as (N1 & N2 & N3).
  cbn [PInv pr_mem pr_unused pr_next]. split; [|split; [|exact H3]].
  - apply nodup_app_iff. split; [now apply filter_slots|]. split.
    + apply nodup_app_iff. split; [exact N2|]. split; [exact Hn|]. intros x Hx C. apply (N3 x); [|exact Hx].
      change x with (snd (t, x)). apply in_map. now apply Ho.
    + intros x Hx C. apply in_app_iff in C. destruct C as [C|C].
      * apply (N3 x); [|exact C]. apply in_map_iff in Hx. destruct Hx as (o & E & Hx). apply filter_In in Hx. rewrite <- E. apply in_map. tauto.
      * revert C. eapply removed_disjoint; eassumption.
  - intros id. rewrite <- H2, !in_app_iff. rewrite (removed_slots own gone t rel N1 Hr Ho id). tauto.
Qed.

Lemma filter_ext_bool : forall {A} (f g : A -> bool) l, (forall x, f x = g x) -> filter f l = filter g l.
Proof. intros A f g l H. induction l as [|x l IH]; cbn [filter]; [reflexivity|]. now rewrite H, IH. Qed.

Lemma pstep_ok : forall st o, PInv st -> pallowed (snd st) o -> exists st', pstep st o = Some st' /\ PInv st' /\
  (* objects of slots that stay owned are untouched *)
  (forall t id, In (t, id) (snd st) -> In (t, id) (snd st') -> par_get id (fst st') = par_get id (fst st)) /\
  match o with
  | PAlloc t => exists id, snd st' = (t, id) :: snd st /\ ~ In id (map snd (snd st))
  | PRange t n => exists lo, snd st' = map (fun id => (t, id)) (seq lo n) ++ snd st /\ forall id, lo <= id < lo + n -> ~ In id (map snd (snd st))
  | PRelease t id => forall t' id', In (t', id') (snd st') <-> In (t', id') (snd st) /\ (t', id') <> (t, id)
  | PReleaseRange t lo hi => forall t' id', In (t', id') (snd st') <-> In (t', id') (snd st) /\ ~ (lo <= id' < hi)
  | PReleaseAll | PClear => snd st' = []
  end.
Proof.
  intros [s own] o HI Ha. pose proof HI as (H1 & H2 & objs & E3 & N3 & F3). cbn [fst snd] in *.
  pose proof H1 as H1'. apply nodup_app_iff in H1'. destruct H1' as (N1 & N2 & D).
  destruct o as [t|t n|t id|t lo hi| |]; cbn [pstep pallowed] in *.
  - unfold par_alloc. destruct (rev (pr_unused s)) as [|id r] eqn:Er.
    + assert (Eu : pr_unused s = []) by (rewrite <- (rev_involutive (pr_unused s)), Er; reflexivity).
      eexists. split; [reflexivity|]. rewrite Eu, app_nil_r in *. cbn [PInv pr_mem pr_unused pr_next fst snd]. repeat split.
      * cbn [map snd app]. rewrite app_nil_r. constructor; [|exact N1]. intros C. apply H2 in C. lia.
      * rewrite app_nil_r. cbn [map snd]. rewrite app_length. cbn [length]. intros [<-|H]; [lia|]. apply H2 in H. lia.
      * rewrite app_nil_r. cbn [map snd]. rewrite app_length. cbn [length]. intros H.
        destruct (Nat.eq_dec (length (pr_mem s)) id); [now left|right; apply H2; lia].
      * exists (objs ++ [pr_next s]). rewrite E3, map_app. split; [reflexivity|]. split.
        -- apply nodup_app_iff. split; [exact N3|]. split; [constructor; [intros []|constructor]|]. intros x Hx [<-|[]].
           rewrite Forall_forall in F3. specialize (F3 _ Hx). lia.
        -- apply Forall_app. split; [eapply Forall_impl; [|exact F3]; cbn; lia|]. constructor; [lia|constructor].
      * intros t' id' Hi _. unfold par_get, rd. cbn [pr_mem]. rewrite nth_error_app1; [reflexivity|]. apply H2. change id' with (snd (t', id')). now apply in_map.
      * exists (length (pr_mem s)). split; [reflexivity|]. intros C. apply H2 in C. lia.
    + destruct (removelast_last (pr_unused s) id r Er) as [Eu Eu'].
      eexists. split; [reflexivity|]. cbn [PInv pr_mem pr_unused pr_next fst snd].
      assert (P : Permutation (map snd own ++ pr_unused s) (id :: map snd own ++ removelast (pr_unused s))).
      { rewrite Eu at 1. rewrite app_assoc. symmetry. apply Permutation_cons_append. }
      split; [split; [|split]|split].
      * cbn [map snd app]. eapply Permutation_NoDup; [exact P|exact H1].
      * intros id'. rewrite <- H2. cbn [map snd app]. split; intros H; [eapply Permutation_in; [symmetry; exact P|exact H]|eapply Permutation_in; [exact P|exact H]].
      * exists objs. auto.
      * reflexivity.
      * exists id. split; [reflexivity|]. intros C. apply (D id C). rewrite Eu. apply in_app_iff. right. now left.
  - unfold par_alloc_range. set (reuse := length (pr_unused s) =? length (pr_mem s)).
    assert (Hcnt : length (map snd own) + length (pr_unused s) = length (pr_mem s)).
    { rewrite <- app_length. apply Nat.le_antisymm.
      - apply nodup_le; [exact H1|]. intros x. apply H2.
      - rewrite <- (seq_length (length (pr_mem s)) 0) at 1. apply NoDup_incl_length; [apply seq_NoDup|]. intros x Hx. apply in_seq in Hx. apply H2. lia. }
    assert (Hre : reuse = true -> own = []).
    { unfold reuse. intros Hr. apply Nat.eqb_eq in Hr. rewrite map_length in Hcnt. apply length_zero_iff_nil. lia. }
    set (st := if reuse then 0 else length (pr_mem s)).
    rewrite E3, resize_eq. rewrite par_fill_eq.
    2: { unfold st. destruct reuse; [lia|]. rewrite firstn_length, E3, map_length. lia. }
    2: { rewrite firstn_length. lia. }
    cbn [obind fst snd]. eexists. split; [reflexivity|].
    replace (st + n - st) with n by lia.
    assert (Hst : reuse = false -> firstn (st + n) objs = objs).
    { intros Hr. unfold st. rewrite Hr. apply firstn_all2. rewrite E3, map_length. lia. }
    assert (Hlen : length (firstn (st + n) objs ++ seq (pr_next s) (st + n - length objs)) = st + n).
    { rewrite app_length, firstn_length, seq_length. lia. }
    assert (Hnot : forall id, st <= id < st + n -> ~ In id (map snd own)).
    { intros id Hi C. destruct reuse eqn:Er; [rewrite Hre in C by reflexivity; destruct C|]. assert (id < length (pr_mem s)) by (apply H2, in_app_iff; now left). unfold st in Hi. lia. }
    split; [|split].
    + cbn [PInv pr_mem pr_unused pr_next]. rewrite map_length, Hlen. rewrite map_app, seq_slots. split; [|split].
      * rewrite <- app_assoc. apply nodup_app_iff. split; [apply seq_NoDup|]. destruct reuse eqn:Er.
        -- rewrite Hre by reflexivity. cbn. split; [constructor|]. intros x _ [].
        -- split; [exact H1|]. intros x Hx C. apply in_seq in Hx. apply H2 in C. unfold st in Hx. lia.
      * intros id. rewrite <- app_assoc, in_app_iff, in_seq. destruct reuse eqn:Er.
        -- rewrite Hre by reflexivity. cbn. unfold st. lia.
        -- rewrite H2. unfold st. lia.
      * exists (firstn (st + n) objs ++ seq (pr_next s) (st + n - length objs)). split; [reflexivity|]. rewrite Forall_forall in F3.
        assert (Hfn : forall x, In x (firstn (st + n) objs) -> In x objs).
        { intros x Hx. rewrite <- (firstn_skipn (st + n) objs). apply in_app_iff. now left. }
        split.
        -- apply nodup_app_iff. split; [|split; [apply seq_NoDup|]].
           ++ rewrite <- (firstn_skipn (st + n) objs) in N3. apply nodup_app_iff in N3. tauto.
           ++ intros x Hx C. apply in_seq in C. specialize (F3 x (Hfn x Hx)). lia.
        -- apply Forall_forall. intros x Hx. apply in_app_iff in Hx. destruct Hx as [Hx|Hx].
           ++ specialize (F3 x (Hfn x Hx)). lia.
           ++ apply in_seq in Hx. lia.
    + intros t' id' Hi _. destruct reuse eqn:Er; [rewrite Hre in Hi by reflexivity; destruct Hi|]. rewrite Hst by reflexivity.
      unfold par_get, rd. cbn [fst pr_mem]. rewrite E3, map_app, nth_error_app1; [reflexivity|]. rewrite <- E3. apply H2, in_app_iff. left. change id' with (snd (t', id')). now apply in_map.
    + exists st. cbn [snd]. split; [reflexivity|]. intros id Hi. apply Hnot. exact Hi.
  - eexists. split; [reflexivity|]. cbn [fst snd]. split; [|split].
    + assert (Hf : filter (other t id) own = filter (fun o => negb ((fst o =? t) && (fun i => i =? id) (snd o))) own) by reflexivity.
      rewrite Hf. apply (pinv_release s own (fun i => i =? id) t [id]); [exact HI|constructor; [intros []|constructor]| |].
      * intros i. rewrite Nat.eqb_eq. cbn. intuition.
      * intros i [<-|[]]. exact Ha.
    + reflexivity.
    + intros t' id'. rewrite filter_In. unfold other. cbn [fst snd]. rewrite Bool.negb_true_iff, Bool.andb_false_iff, !Nat.eqb_neq.
      assert ((t', id') <> (t, id) <-> t' <> t \/ id' <> id); [|tauto].
      split; [intros H; destruct (Nat.eq_dec t' t), (Nat.eq_dec id' id); subst; tauto|intros H E; injection E as -> ->; tauto].
  - destruct Ha as [Hlo Ha]. eexists. split; [reflexivity|]. cbn [fst snd]. split; [|split].
    + assert (Hf : filter (fun o => negb ((fst o =? t) && (lo <=? snd o) && (snd o <? hi))) own
                   = filter (fun o => negb ((fst o =? t) && (fun i => (lo <=? i) && (i <? hi)) (snd o))) own)
        by (apply filter_ext_bool; intros x; now rewrite Bool.andb_assoc).
      rewrite Hf. apply (pinv_release s own (fun i => (lo <=? i) && (i <? hi)) t (map (fun i => hi - i - 1) (seq 0 (hi - lo)))); [exact HI|apply rev_range_nodup| |].
      * intros i. rewrite rev_range, Bool.andb_true_iff, Nat.leb_le, Nat.ltb_lt. reflexivity.
      * intros i Hi. apply rev_range in Hi. now apply Ha.
    + reflexivity.
    + intros t' id'. rewrite filter_In. cbn [fst snd]. split.
      * intros [Hi Hb]. split; [exact Hi|]. intros C. specialize (Ha id' C).
        assert (t' = t) by (eapply slot_owner; eauto). subst. rewrite Nat.eqb_refl in Hb. cbn [andb] in Hb.
        rewrite (proj2 (Nat.leb_le lo id')), (proj2 (Nat.ltb_lt id' hi)) in Hb by lia. discriminate Hb.
      * intros [Hi Hc]. split; [exact Hi|]. apply Bool.negb_true_iff. rewrite <- Bool.andb_assoc. apply Bool.andb_false_iff. right.
        apply Bool.andb_false_iff. rewrite Nat.leb_gt, Nat.ltb_ge. lia.
  - eexists. split; [reflexivity|]. cbn [fst snd]. split; [|split; [intros ? ? _ []|reflexivity]].
    cbn [PInv par_release_all pr_mem pr_unused pr_next map app].
    assert (Hm : map (fun i => length (pr_mem s) - 1 - i) (seq 0 (length (pr_mem s))) = map (fun i => length (pr_mem s) - i - 1) (seq 0 (length (pr_mem s) - 0))).
    { rewrite Nat.sub_0_r. apply map_ext. intros. lia. }
    rewrite Hm. split; [apply rev_range_nodup|]. split; [intros id; rewrite rev_range; lia|]. exists objs. auto.
  - eexists. split; [reflexivity|]. cbn [fst snd]. split; [|split; [intros ? ? _ []|reflexivity]].
    cbn. split; [constructor|]. split; [intros; lia|]. exists []. split; [reflexivity|]. split; constructor.
Qed.

Lemma reach_inv : forall st, reach st -> PInv st.
Proof.
  intros st H. induction H as [|st o st' H IH Ha E].
  - cbn. split; [constructor|]. split; [intros; lia|]. exists []. split; [reflexivity|]. split; constructor.
  - destruct (pstep_ok st o IH Ha) as (st1 & E1 & HI & _). congruence.
Qed.
