(** Proofs for C56: element by element operations and reductions. *)
From Coq Require Import Reals String Ascii Permutation Lra.
From Verif Require Import Prelude RSum KinModel KinSpec.
Open Scope R_scope.

Lemma part_rd : forall x h l, rd h x = Some l -> part x h = l.
Proof. intros x h l E. unfold part. now apply nth_error_nth. Qed.
Lemma has_rd : forall x h, has x h -> rd h x = Some (part x h).
Proof. intros x h L. unfold part, rd. now apply nth_error_nth'. Qed.
Lemma vsize_part : forall x h, has x h -> vsize h x = length (part x h).
Proof. intros x h L. unfold vsize. now rewrite (has_rd _ _ L). Qed.

Lemma wr_nth : forall {A} (l : list A) i v, (i < length l)%nat ->
  exists l', wr l i v = Some l' /\ length l' = length l /\ nth_error l' i = Some v /\
    (forall j, j <> i -> nth_error l' j = nth_error l j).
Proof.
  induction l as [|a l IH]; intros i v L; cbn in L; [lia|].
  destruct i as [|i]; cbn [wr].
  - exists (v :: l). repeat split; auto. intros j D. destruct j; [congruence|reflexivity].
  - destruct (IH i v) as (l' & E & Len & E1 & E2); [lia|]. rewrite E. exists (a :: l'). cbn.
    repeat split; auto. intros j D. destruct j; [reflexivity|]. cbn. apply E2. congruence.
Qed.

Lemma nth_nth_error : forall {A} (l l' : list A) j d, nth_error l j = nth_error l' j -> nth j l d = nth j l' d.
Proof.
  intros A l l' j d E. destruct (nth_error l j) as [a|] eqn:F.
  - rewrite (nth_error_nth _ _ _ F). symmetry. apply nth_error_nth. now rewrite <- E.
  - rewrite nth_overflow by (now apply nth_error_None). symmetry.
    apply nth_overflow. apply nth_error_None. now rewrite <- E.
Qed.

Lemma setv_spec : forall h z i v, has z h -> (i < length (part z h))%nat ->
  exists h' l', setv h z i v = Some h' /\ assigned z l' h h' /\ length l' = length (part z h) /\
    nth_error l' i = Some v /\ (forall j, j <> i -> nth_error l' j = nth_error (part z h) j).
Proof.
  intros h z i v Z L. unfold setv. rewrite (has_rd _ _ Z). cbn [obind].
  destruct (wr_nth (part z h) i v L) as (l' & E & Len & E1 & E2). rewrite E. cbn [obind].
  destruct (wr_nth h z l' Z) as (h' & F & Lenh & F1 & F2). rewrite F.
  exists h', l'. repeat split; auto.
  - now apply part_rd.
  - intros w D. unfold part. apply nth_nth_error. now apply F2.
Qed.

(** The loop over the entries of [z]: the body stores [g i] into entry [i]. *)
Lemma loop_gen : forall n (g : nat -> R) z h body, has z h -> (n <= length (part z h))%nat ->
  (forall i h' l', (i < n)%nat -> assigned z l' h h' -> length l' = length (part z h) ->
     (forall j, (i <= j)%nat -> nth_error l' j = nth_error (part z h) j) -> body i h' = setv h' z i (g i)) ->
  exists h' l', for_ n body h = Some h' /\ assigned z l' h h' /\ length l' = length (part z h) /\
    (forall j, (j < n)%nat -> nth_error l' j = Some (g j)) /\
    (forall j, (n <= j)%nat -> nth_error l' j = nth_error (part z h) j).
Proof.
  intros n g z h body Z L B.
  destruct (for_inv (fun i h' => exists l', assigned z l' h h' /\ length l' = length (part z h) /\
    (forall j, (j < i)%nat -> nth_error l' j = Some (g j)) /\
    (forall j, (i <= j)%nat -> nth_error l' j = nth_error (part z h) j)) n body h) as (h' & E & l' & P).
  - exists (part z h). repeat split; auto. intros j Hj; lia.
  - intros i h' Hi (l' & A & Len & P1 & P2). rewrite (B i h' l' Hi A Len P2).
    destruct A as (A1 & A2 & A3). assert (Z' : has z h') by (unfold has in *; lia).
    destruct (setv_spec h' z i (g i) Z') as (h2 & l2 & E & (C1 & C2 & C3) & Len2 & Q1 & Q2).
    { rewrite A2, Len. lia. }
    exists h2. split; [exact E|]. exists l2. rewrite A2 in Len2, Q2. repeat split; auto; try congruence.
    + intros w D. rewrite C3, A3 by exact D. reflexivity.
    + intros j Hj. destruct (Nat.eq_dec j i) as [->|D]; [exact Q1|]. rewrite Q2 by exact D. apply P1. lia.
    + intros j Hj. rewrite Q2 by lia. apply P2. lia.
  - exists h', l'. tauto.
Qed.

Lemma getv_part : forall h x i, has x h -> getv h x i = nth_error (part x h) i.
Proof. intros h x i L. unfold getv. now rewrite (has_rd _ _ L). Qed.

(** reading vector [x] at entry [i] inside the loop gives its initial entry *)
Lemma getv_in_loop : forall h h' l' x z i, assigned z l' h h' -> has x h ->
  (forall j, (i <= j)%nat -> nth_error l' j = nth_error (part z h) j) -> (i < length (part x h))%nat ->
  getv h' x i = Some (nth i (part x h) 0).
Proof.
  intros h h' l' x z i (A1 & A2 & A3) L P Hi. rewrite getv_part by (unfold has in *; lia).
  destruct (Nat.eq_dec x z) as [->|D].
  - rewrite A2, P by lia. now apply nth_error_nth'.
  - rewrite (A3 x D). now apply nth_error_nth'.
Qed.

Lemma list_ext : forall {A} (l l' : list A), (forall j, nth_error l j = nth_error l' j) -> l = l'.
Proof.
  induction l as [|a l IH]; intros [|b l'] E; [reflexivity|specialize (E 0%nat); discriminate..|].
  f_equal; [specialize (E 0%nat); cbn in E; congruence|]. apply IH. intros j. exact (E (S j)).
Qed.

Lemma map2_nth : forall f a b j, length a = length b -> (j < length a)%nat ->
  nth_error (map2 f a b) j = Some (f (nth j a 0) (nth j b 0)).
Proof.
  intros f a. induction a as [|u a IH]; intros [|v b] j L Hj; cbn in *; try lia.
  destruct j as [|j]; [reflexivity|]. apply IH; lia.
Qed.
Lemma map2_length : forall f a b, length a = length b -> length (map2 f a b) = length a.
Proof. intros f a b L. unfold map2. rewrite map_length, combine_length, <- L. apply Nat.min_id. Qed.

Lemma map_nth' : forall (f : R -> R) (a : list R) j, (j < length a)%nat -> nth_error (map f a) j = Some (f (nth j a 0)).
Proof.
  intros f a. induction a as [|u a IH]; intros j Hj; cbn in *; [lia|].
  destruct j as [|j]; [reflexivity|]. apply IH. lia.
Qed.

Lemma assigned_full : forall z h h' l' l, assigned z l' h h' -> length l' = length l ->
  (forall j, (j < length l)%nat -> nth_error l' j = nth_error l j) -> assigned z l h h'.
Proof.
  intros z h h' l' l A L E. replace l with l'; [exact A|]. apply list_ext. intros j.
  destruct (Nat.lt_ge_cases j (length l)) as [Hj|Hj]; [now apply E|].
  transitivity (@None R); [|symmetry]; apply nth_error_None; lia.
Qed.

Theorem loop2_ok : forall f x y z h, alike x y h -> alike x z h ->
  exists h', loop2 f x y z h = Some h' /\ assigned z (map2 f (part x h) (part y h)) h h'.
Proof.
  intros f x y z h (Hx & Hy & Lxy) (_ & Hz & Lxz). unfold loop2.
  rewrite !vsize_part by assumption. rewrite <- Lxy, <- Lxz, !Nat.min_id.
  destruct (loop_gen (length (part x h)) (fun i => f (nth i (part x h) 0) (nth i (part y h) 0)) z h
    (fun i h => do a <- getv h x i; do b <- getv h y i; setv h z i (f a b))) as (h' & l' & E & A & Len & P & _);
    [assumption|lia| |].
  - intros i h' l' Hi A Len P. rewrite (getv_in_loop h h' l' x z i A Hx P Hi). cbn [obind].
    rewrite (getv_in_loop h h' l' y z i A Hy P) by lia. reflexivity.
  - exists h'. split; [exact E|]. apply (assigned_full z h h' l' _ A).
    + rewrite map2_length by exact Lxy. lia.
    + intros j Hj. rewrite map2_length in Hj by exact Lxy. rewrite map2_nth by assumption. now apply P.
Qed.

Theorem loop1_ok : forall f x z h, alike x z h ->
  exists h', loop1 f x z h = Some h' /\ assigned z (map f (part x h)) h h'.
Proof.
  intros f x z h (Hx & Hz & Lxz). unfold loop1.
  rewrite !vsize_part by assumption. rewrite <- Lxz, !Nat.min_id.
  destruct (loop_gen (length (part x h)) (fun i => f (nth i (part x h) 0)) z h
    (fun i h => do a <- getv h x i; setv h z i (f a))) as (h' & l' & E & A & Len & P & _);
    [assumption|lia| |].
  - intros i h' l' Hi A Len P. rewrite (getv_in_loop h h' l' x z i A Hx P Hi). reflexivity.
  - exists h'. split; [exact E|]. apply (assigned_full z h h' l' _ A).
    + rewrite map_length. lia.
    + intros j Hj. rewrite map_length in Hj. rewrite map_nth' by assumption. now apply P.
Qed.

Lemma scale_in_place_ok : forall c x h, has x h ->
  exists h', scale_in_place c x h = Some h' /\ assigned x (map (fun u => c * u) (part x h)) h h'.
Proof.
  intros c x h Hx. unfold scale_in_place. rewrite vsize_part by assumption.
  destruct (loop_gen (length (part x h)) (fun i => c * nth i (part x h) 0) x h
    (fun i h => do a <- getv h x i; setv h x i (a * c))) as (h' & l' & E & A & Len & P & _);
    [assumption|lia| |].
  - intros i h' l' Hi A Len P. rewrite (getv_in_loop h h' l' x x i A Hx P Hi). cbn [obind].
    now rewrite Rmult_comm.
  - exists h'. split; [exact E|]. apply (assigned_full x h h' l' _ A).
    + rewrite map_length. lia.
    + intros j Hj. rewrite map_length in Hj. rewrite map_nth' by assumption. now apply P.
Qed.

Theorem vscale_ok : forall c x z h, alike x z h ->
  exists h', vscale c x z h = Some h' /\ assigned z (map (fun u => c * u) (part x h)) h h'.
Proof.
  intros c x z h A. unfold vscale. destruct (Nat.eqb_spec z x) as [->|D].
  - apply scale_in_place_ok. apply A.
  - destruct (Req_EM_T c 1) as [->|N].
    + destruct (loop1_ok (fun u => u) x z h A) as (h' & E & B). exists h'. split; [exact E|].
      rewrite (map_ext (fun u => 1 * u) (fun u => u)) by (intros; ring). exact B.
    + now apply loop1_ok.
Qed.

Theorem vconst_ok : forall c z h, has z h ->
  exists h', vconst c z h = Some h' /\ assigned z (map (fun _ => c) (part z h)) h h'.
Proof.
  intros c z h Hz. unfold vconst. rewrite vsize_part by assumption.
  destruct (loop_gen (length (part z h)) (fun i => c) z h (fun i h => setv h z i c))
    as (h' & l' & E & A & Len & P & _); [assumption|lia|reflexivity|].
  exists h'. split; [exact E|]. apply (assigned_full z h h' l' _ A).
  + rewrite map_length. lia.
  + intros j Hj. rewrite map_length in Hj. rewrite map_nth' by assumption. now apply P.
Qed.

(** ** Sums over the processes *)
Lemma total_app : forall a b, total (a ++ b) = total a + total b.
Proof. unfold total. induction a as [|u a IH]; intros b; cbn [app fold_right]; [ring|]. rewrite IH. ring. Qed.
Lemma total_perm : forall a b, Permutation a b -> total a = total b.
Proof. intros a b P. induction P; cbn; unfold total in *; try lra. Qed.
Lemma red_sum : forall l r, reduced Rplus l r -> r = total l.
Proof.
  intros l r H. induction H as [a|l l1 l2 a b P _ IH1 _ IH2]; [cbn; ring|].
  rewrite (total_perm _ _ P), total_app. congruence.
Qed.

(** an operation that selects one of its arguments, the better one for [rel] *)
Lemma red_sel : forall {A} (op : A -> A -> A) (rel : A -> A -> Prop),
  (forall a b, op a b = a \/ op a b = b) -> (forall a, rel a a) -> (forall a b c, rel a b -> rel b c -> rel a c) ->
  (forall a b, rel a (op a b)) -> (forall a b, rel b (op a b)) ->
  forall l r, reduced op l r -> In r l /\ forall v, In v l -> rel v r.
Proof.
  intros A op rel S Rf Tr L1 L2 l r H. induction H as [a|l l1 l2 a b P _ (I1 & M1) _ (I2 & M2)].
  - split; [left; reflexivity|]. intros v [<-|[]]. apply Rf.
  - split.
    + apply (Permutation_in _ (Permutation_sym P)). apply in_or_app.
      destruct (S a b) as [E|E]; rewrite E; auto.
    + intros v Iv. apply (Permutation_in _ P) in Iv. apply in_app_or in Iv. destruct Iv as [Iv|Iv]; eauto.
Qed.

Lemma for_fold : forall {A} n (op : A -> nat -> A) body (s : A),
  (forall i t, (i < n)%nat -> body i t = Some (op t i)) -> for_ n body s = Some (fold_left op (seq 0 n) s).
Proof.
  intros A n op body s B. unfold for_.
  cut (forall lo s, (forall i t, (lo <= i < lo + n)%nat -> body i t = Some (op t i)) ->
    for_range lo n body s = Some (fold_left op (seq lo n) s)).
  { intros C. apply C. intros i t Hi. apply B. lia. }
  clear B s. induction n as [|n IH]; intros lo s B; [reflexivity|].
  cbn [for_range seq fold_left]. rewrite B by lia. cbn [obind]. apply IH. intros i t Hi. apply B. lia.
Qed.

Lemma fold_seq2 : forall {A} (op : A -> R -> R -> A) (a b : list R) s, length a = length b ->
  fold_left (fun t i => op t (nth i a 0) (nth i b 0)) (seq 0 (length a)) s =
  fold_left (fun t p => op t (fst p) (snd p)) (List.combine a b) s.
Proof.
  intros A op a. induction a as [|u a IH]; intros [|v b] s L; cbn in L; try lia; [reflexivity|].
  cbn [length seq fold_left List.combine fst snd nth]. rewrite <- IH by lia.
  rewrite <- seq_shift. generalize (op s u v), (seq 0 (length a)). clear.
  intros s l. revert s. induction l as [|j l IH]; intros s; [reflexivity|]. cbn [map fold_left nth]. apply IH.
Qed.
Lemma fold_seq1 : forall {A} (op : A -> R -> A) (a : list R) s,
  fold_left (fun t i => op t (nth i a 0)) (seq 0 (length a)) s = fold_left op a s.
Proof.
  intros A op a. induction a as [|u a IH]; intros s; [reflexivity|].
  cbn [length seq fold_left nth]. rewrite <- IH.
  rewrite <- seq_shift. generalize (op s u), (seq 0 (length a)). clear.
  intros s l. revert s. induction l as [|j l IH]; intros s; [reflexivity|]. cbn [map fold_left nth]. apply IH.
Qed.
Lemma fold_total : forall {A} (f : A -> R) l s, fold_left (fun t p => t + f p) l s = s + total (map f l).
Proof.
  intros A f l. induction l as [|p l IH]; intros s; cbn [fold_left map]; [cbn; ring|].
  rewrite IH. change (total (f p :: map f l)) with (f p + total (map f l)). ring.
Qed.

Lemma dot_local_ok : forall x y h, alike x y h ->
  dot_local x y h = Some (total (map2 Rmult (part x h) (part y h))).
Proof.
  intros x y h (Hx & Hy & L). unfold dot_local. rewrite !vsize_part, <- L, Nat.min_id by assumption.
  rewrite (for_fold _ (fun s i => s + nth i (part x h) 0 * nth i (part y h) 0)).
  - f_equal. rewrite (fold_seq2 (fun s u v => s + u * v)) by exact L.
    rewrite (fold_total (fun p => fst p * snd p)). unfold map2. apply Rplus_0_l.
  - intros i t Hi. rewrite !getv_part, (nth_error_nth' _ 0 Hi), (nth_error_nth' (part y h) 0) by (assumption || lia).
    reflexivity.
Qed.
Lemma dot_multi_local_ok : forall x y h, alike x y h -> dot_multi_local x y h = dot_local x y h.
Proof.
  intros x y h (Hx & Hy & L). unfold dot_local, dot_multi_local. now rewrite !vsize_part, <- L, Nat.min_id by assumption.
Qed.
Lemma wsqr_local_ok : forall x y h, alike x y h ->
  wsqr_local x y h = Some (total (map2 (fun u w => (u * w) ^ 2) (part x h) (part y h))).
Proof.
  intros x y h (Hx & Hy & L). unfold wsqr_local. rewrite !vsize_part, <- L, Nat.min_id by assumption.
  rewrite (for_fold _ (fun s i => s + (nth i (part x h) 0 * nth i (part y h) 0) ^ 2)).
  - f_equal. rewrite (fold_seq2 (fun s u v => s + (u * v) ^ 2)) by exact L.
    rewrite (fold_total (fun p => (fst p * snd p) ^ 2)). unfold map2. apply Rplus_0_l.
  - intros i t Hi. rewrite !getv_part, (nth_error_nth' _ 0 Hi), (nth_error_nth' (part y h) 0) by (assumption || lia).
    cbn [obind]. f_equal. ring.
Qed.
Lemma l1_local_ok : forall x h, has x h -> l1_local x h = Some (total (map Rabs (part x h))).
Proof.
  intros x h Hx. unfold l1_local. rewrite !vsize_part by assumption.
  rewrite (for_fold _ (fun s i => s + Rabs (nth i (part x h) 0))).
  - f_equal. rewrite (fold_seq1 (fun s u => s + Rabs u)). rewrite (fold_total Rabs). apply Rplus_0_l.
  - intros i t Hi. rewrite getv_part, (nth_error_nth' _ 0 Hi) by assumption. reflexivity.
Qed.

(** concatenation of the local parts *)
Lemma combine_app : forall {A B} (a a' : list A) (b b' : list B), length a = length b ->
  List.combine (a ++ a') (b ++ b') = List.combine a b ++ List.combine a' b'.
Proof.
  intros A B a. induction a as [|u a IH]; intros a' [|v b] b' L; cbn in *; try lia; [reflexivity|].
  f_equal. apply IH. lia.
Qed.
Lemma whole_cons : forall x h procs, whole x (h :: procs) = part x h ++ whole x procs.
Proof. reflexivity. Qed.
Lemma pairs_cons : forall x y h procs, length (part x h) = length (part y h) ->
  List.combine (whole x (h :: procs)) (whole y (h :: procs)) =
  List.combine (part x h) (part y h) ++ List.combine (whole x procs) (whole y procs).
Proof. intros. rewrite !whole_cons. now apply combine_app. Qed.
Lemma map2_cons : forall f x y h procs, length (part x h) = length (part y h) ->
  map2 f (whole x (h :: procs)) (whole y (h :: procs)) =
  map2 f (part x h) (part y h) ++ map2 f (whole x procs) (whole y procs).
Proof. intros. unfold map2. rewrite pairs_cons by assumption. apply map_app. Qed.

Lemma sum_contributions : forall (f : vmem -> option R) (g : vmem -> list R) (gw : list vmem -> list R) procs ls,
  (forall h, In h procs -> f h = Some (total (g h))) -> (gw [] = []) ->
  (forall h r, In h procs -> gw (h :: r) = g h ++ gw r) ->
  contributions f procs ls -> total ls = total (gw procs).
Proof.
  intros f g gw procs ls F G0 G C. induction C as [|h v procs ls E C IH]; [now rewrite G0|].
  rewrite F in E by (left; reflexivity). injection E as <-. rewrite G, total_app by (left; reflexivity).
  cbn [total fold_right]. fold (total ls). rewrite IH; [reflexivity| |].
  - intros h' I. apply F. now right.
  - intros h' r I. apply G. now right.
Qed.

Lemma alike_in : forall x y procs h, Forall (alike x y) procs -> In h procs -> alike x y h.
Proof. intros x y procs h F I. rewrite Forall_forall in F. now apply F. Qed.

Theorem dot_prod_ok : forall x y procs r, Forall (alike x y) procs -> dot_prod x y procs r ->
  r = total (map2 Rmult (whole x procs) (whole y procs)).
Proof.
  intros x y procs r F (ls & C & Rd). rewrite (red_sum _ _ Rd).
  apply (sum_contributions _ (fun h => map2 Rmult (part x h) (part y h))
           (fun ps => map2 Rmult (whole x ps) (whole y ps)) _ _) in C; [exact C| |reflexivity|].
  - intros h I. apply dot_local_ok. now apply (alike_in x y procs).
  - intros h q I. apply map2_cons. now apply (alike_in x y procs).
Qed.
Theorem dot_multi_local_whole : forall x y procs r, Forall (alike x y) procs ->
  allreduce Rplus (dot_multi_local x y) procs r ->
  r = total (map2 Rmult (whole x procs) (whole y procs)).
Proof.
  intros x y procs r F (ls & C & Rd). apply dot_prod_ok; [exact F|]. exists ls. split; [|exact Rd].
  clear Rd. induction C as [|h v procs ls E C IH]; constructor; inversion F; subst.
  - now rewrite <- dot_multi_local_ok.
  - now apply IH.
Qed.
Theorem wsqr_ok : forall x y procs r, Forall (alike x y) procs -> allreduce Rplus (wsqr_local x y) procs r ->
  r = total (map2 (fun u w => (u * w) ^ 2) (whole x procs) (whole y procs)).
Proof.
  intros x y procs r F (ls & C & Rd). rewrite (red_sum _ _ Rd).
  apply (sum_contributions _ (fun h => map2 (fun u w => (u * w) ^ 2) (part x h) (part y h))
           (fun ps => map2 (fun u w => (u * w) ^ 2) (whole x ps) (whole y ps)) _ _) in C; [exact C| |reflexivity|].
  - intros h I. apply wsqr_local_ok. now apply (alike_in x y procs).
  - intros h q I. apply map2_cons. now apply (alike_in x y procs).
Qed.
Theorem l1_ok : forall x procs r, Forall (has x) procs -> l1_norm x procs r ->
  r = total (map Rabs (whole x procs)).
Proof.
  intros x procs r F (ls & C & Rd). rewrite (red_sum _ _ Rd). rewrite Forall_forall in F.
  apply (sum_contributions _ (fun h => map Rabs (part x h))
           (fun ps => map Rabs (whole x ps)) _ _) in C; [exact C| |reflexivity|].
  - intros h I. apply l1_local_ok. now apply F.
  - intros h q I. rewrite whole_cons. apply map_app.
Qed.
