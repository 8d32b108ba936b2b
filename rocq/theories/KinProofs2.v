(** Proofs for C56: maxima, minima, masks, tests and linear combinations. *)
From Coq Require Import Reals String Ascii Permutation Lra.
From Verif Require Import Prelude RSum KinModel KinSpec KinProofs.
Open Scope R_scope.

(** ** Largest absolute value *)
Lemma fold_max : forall l s, let r := fold_left (fun s a => Rmax (Rabs a) s) l s in
  s <= r /\ (forall v, In v l -> Rabs v <= r) /\ (r = s \/ exists v, In v l /\ r = Rabs v).
Proof.
  induction l as [|a l IH]; intros s r.
  - subst r; cbn. repeat split; [lra|tauto|now left].
  - subst r; cbn [fold_left]. destruct (IH (Rmax (Rabs a) s)) as (I1 & I2 & I3).
    set (r := fold_left _ l _) in *. pose proof (Rmax_l (Rabs a) s). pose proof (Rmax_r (Rabs a) s).
    repeat split; [lra| |].
    + intros v [<-|I]; [lra|now apply I2].
    + destruct I3 as [E|(v & I & E)]; [|right; exists v; split; [now right|exact E]].
      destruct (Rle_dec (Rabs a) s) as [L|L].
      * left. rewrite E. now apply Rmax_right.
      * right. exists a. split; [now left|]. rewrite E. apply Rmax_left. lra.
Qed.
Lemma max_local_ok : forall x h, has x h -> exists r, max_local x h = Some r /\ is_max_abs (part x h) r.
Proof.
  intros x h Hx. unfold max_local. rewrite !vsize_part by assumption.
  rewrite (for_fold _ (fun s i => Rmax (Rabs (nth i (part x h) 0)) s)).
  - rewrite (fold_seq1 (fun s u => Rmax (Rabs u) s)). eexists. split; [reflexivity|].
    destruct (fold_max (part x h) 0) as (M1 & M2 & M3). repeat split; [exact M2| |].
    + intros ->. reflexivity.
    + intros N. destruct M3 as [E|E]; [|exact E].
      destruct (part x h) as [|v l] eqn:P; [congruence|]. exists v. split; [now left|].
      pose proof (M2 v (or_introl eq_refl)) as L. rewrite E in *. pose proof (Rabs_pos v). lra.
  - intros i t Hi. rewrite getv_part, (nth_error_nth' _ 0 Hi) by assumption. reflexivity.
Qed.

Lemma Forall2_in : forall {A B} (P : A -> B -> Prop) l l' a, Forall2 P l l' -> In a l -> exists b, In b l' /\ P a b.
Proof.
  intros A B P l l' a F. induction F as [|u v l l' Q F IH]; intros I; [destruct I|].
  destruct I as [<-|I]; [exists v; split; [now left|exact Q]|]. destruct (IH I) as (b & I' & Q'). exists b. split; [now right|exact Q'].
Qed.
Lemma Forall2_in' : forall {A B} (P : A -> B -> Prop) l l' b, Forall2 P l l' -> In b l' -> exists a, In a l /\ P a b.
Proof.
  intros A B P l l' b F. induction F as [|u v l l' Q F IH]; intros I; [destruct I|].
  destruct I as [<-|I]; [exists u; split; [now left|exact Q]|]. destruct (IH I) as (a & I' & Q'). exists a. split; [now right|exact Q'].
Qed.
Lemma in_whole : forall x procs v, In v (whole x procs) <-> exists h, In h procs /\ In v (part x h).
Proof.
  intros x procs v. unfold whole. rewrite in_concat. split.
  - intros (l & I & Iv). apply in_map_iff in I. destruct I as (h & <- & I). eauto.
  - intros (h & I & Iv). exists (part x h). split; [now apply in_map|exact Iv].
Qed.

Theorem max_norm_ok : forall x procs r, Forall (has x) procs -> max_norm x procs r -> is_max_abs (whole x procs) r.
Proof.
  intros x procs r F (ls & C & Rd). rewrite Forall_forall in F.
  destruct (red_sel Rmax Rle) with (l := ls) (r := r) as (I & M).
  - intros a b. unfold Rmax. destruct (Rle_dec a b); auto.
  - intros; lra.
  - intros; lra.
  - apply Rmax_l.
  - apply Rmax_r.
  - exact Rd.
  - assert (Loc : forall h v, In h procs -> max_local x h = Some v -> is_max_abs (part x h) v).
    { intros h v Ih E. destruct (max_local_ok x h (F h Ih)) as (q & E' & P). rewrite E in E'. now injection E' as <-. }
    destruct (Forall2_in' _ _ _ _ C I) as (h0 & I0 & E0). pose proof (Loc _ _ I0 E0) as (A1 & A2 & A3).
    assert (B : forall v, In v (whole x procs) -> Rabs v <= r).
    { intros v Iv. apply in_whole in Iv. destruct Iv as (h & Ih & Iv).
      destruct (Forall2_in _ _ _ _ C Ih) as (q & Iq & Eq). pose proof (Loc _ _ Ih Eq) as (B1 & _).
      pose proof (M q Iq). pose proof (B1 v Iv). lra. }
    repeat split; [exact B| |].
    + intros N. apply A2. destruct (part x h0) as [|v l] eqn:P; [reflexivity|].
      exfalso. assert (In v (whole x procs)) as K by (apply in_whole; exists h0; rewrite P; split; [exact I0|now left]).
      rewrite N in K. destruct K.
    + intros N. destruct (part x h0) as [|v l] eqn:P.
      * rewrite (A2 eq_refl). destruct (whole x procs) as [|w lw]; [congruence|].
        exists w. split; [now left|]. pose proof (B w (or_introl eq_refl)) as Bw. rewrite (A2 eq_refl) in Bw.
        pose proof (Rabs_pos w). lra.
      * destruct A3 as (u & Iu & ->); [discriminate|]. exists u. split; [|reflexivity].
        apply in_whole. exists h0. rewrite P. auto.
Qed.

(** ** Smallest value *)
Lemma fold_min : forall l s, let r := fold_left Rmin l s in
  r <= s /\ (forall v, In v l -> r <= v) /\ (r = s \/ In r l).
Proof.
  induction l as [|a l IH]; intros s r.
  - subst r; cbn. repeat split; [lra|tauto|now left].
  - subst r; cbn [fold_left]. destruct (IH (Rmin s a)) as (I1 & I2 & I3).
    set (r := fold_left _ l _) in *. pose proof (Rmin_l s a). pose proof (Rmin_r s a).
    repeat split; [lra| |].
    + intros v [<-|I]; [lra|now apply I2].
    + destruct I3 as [E|E]; [|right; now right].
      destruct (Rle_dec s a) as [L|L].
      * left. rewrite E. now apply Rmin_left.
      * right. left. rewrite E. symmetry. apply Rmin_right. lra.
Qed.
Lemma fold_is_min : forall big l, Forall (fun v => v <= big) l -> is_min big l (fold_left Rmin l big).
Proof.
  intros big l F. rewrite Forall_forall in F. destruct (fold_min l big) as (M1 & M2 & M3).
  repeat split; [exact M2|intros ->; reflexivity|].
  intros N. destruct M3 as [E|E]; [|exact E]. destruct l as [|v l]; [congruence|].
  left. pose proof (M2 v (or_introl eq_refl)). pose proof (F v (or_introl eq_refl)). lra.
Qed.

Lemma min_procs : forall big (f : vmem -> option R) (g : vmem -> list R) procs r,
  (forall h, In h procs -> f h = Some (fold_left Rmin (g h) big)) ->
  Forall (fun v => v <= big) (concat (map g procs)) ->
  allreduce Rmin f procs r -> is_min big (concat (map g procs)) r.
Proof.
  intros big f g procs r F B (ls & C & Rd). rewrite Forall_forall in B.
  assert (W : forall v, In v (concat (map g procs)) <-> exists h, In h procs /\ In v (g h)).
  { intros v. rewrite in_concat. split.
    - intros (l & I & Iv). apply in_map_iff in I. destruct I as (h & <- & I). eauto.
    - intros (h & I & Iv). exists (g h). split; [now apply in_map|exact Iv]. }
  destruct (red_sel Rmin (fun a b => b <= a)) with (l := ls) (r := r) as (I & M).
  - intros a b. unfold Rmin. destruct (Rle_dec a b); auto.
  - intros; lra.
  - intros; lra.
  - apply Rmin_l.
  - apply Rmin_r.
  - exact Rd.
  - assert (Loc : forall h v, In h procs -> f h = Some v -> is_min big (g h) v).
    { intros h v Ih E. rewrite (F h Ih) in E. injection E as <-. apply fold_is_min. apply Forall_forall.
      intros v Iv. apply B. apply W. eauto. }
    destruct (Forall2_in' _ _ _ _ C I) as (h0 & I0 & E0). pose proof (Loc _ _ I0 E0) as (A1 & A2 & A3).
    assert (Q : forall v, In v (concat (map g procs)) -> r <= v).
    { intros v Iv. apply W in Iv. destruct Iv as (h & Ih & Iv).
      destruct (Forall2_in _ _ _ _ C Ih) as (q & Iq & Eq). pose proof (Loc _ _ Ih Eq) as (B1 & _).
      pose proof (M q Iq). pose proof (B1 v Iv). lra. }
    repeat split; [exact Q| |].
    + intros N. apply A2. destruct (g h0) as [|v l] eqn:P; [reflexivity|].
      exfalso. assert (In v (concat (map g procs))) as K by (apply W; exists h0; rewrite P; split; [exact I0|now left]).
      rewrite N in K. destruct K.
    + intros N. destruct (g h0) as [|v l] eqn:P.
      * destruct (concat (map g procs)) as [|w lw]; [congruence|].
        left. pose proof (Q w (or_introl eq_refl)). pose proof (B w (or_introl eq_refl)). rewrite (A2 eq_refl) in *. lra.
      * apply W. exists h0. split; [exact I0|]. rewrite P. apply A3. discriminate.
Qed.

Lemma min_local_ok : forall big x h, has x h -> min_local big x h = Some (fold_left Rmin (part x h) big).
Proof.
  intros big x h Hx. unfold min_local. rewrite !vsize_part by assumption.
  rewrite (for_fold _ (fun s i => Rmin s (nth i (part x h) 0))).
  - now rewrite (fold_seq1 Rmin).
  - intros i t Hi. rewrite getv_part, (nth_error_nth' _ 0 Hi) by assumption. cbn [obind]. now rewrite Rmin_comm.
Qed.
Theorem vmin_ok : forall big x procs r, Forall (has x) procs -> Forall (fun v => v <= big) (whole x procs) ->
  vmin big x procs r -> is_min big (whole x procs) r.
Proof.
  intros big x procs r F B Rd. rewrite Forall_forall in F.
  apply (min_procs big (min_local big x) (part x) procs r); [|exact B|exact Rd].
  intros h I. apply min_local_ok. now apply F.
Qed.

Lemma fold_quot : forall l big,
  fold_left (fun s p => if Req_EM_T (snd p) 0 then s else Rmin s (fst p / snd p)) l big =
  fold_left Rmin (map (fun p => fst p / snd p) (filter (fun p => if Req_EM_T (snd p) 0 then false else true) l)) big.
Proof.
  induction l as [|p l IH]; intros big; [reflexivity|]. cbn [fold_left filter].
  destruct (Req_EM_T (snd p) 0); cbn [map fold_left]; apply IH.
Qed.
Lemma minq_local_ok : forall big x y h, alike x y h ->
  minq_local big x y h = Some (fold_left Rmin (quotients (part x h) (part y h)) big).
Proof.
  intros big x y h (Hx & Hy & L). unfold minq_local. rewrite !vsize_part, <- L, Nat.min_id by assumption.
  rewrite (for_fold _ (fun s i => (fun s u v => if Req_EM_T v 0 then s else Rmin s (u / v)) s (nth i (part x h) 0) (nth i (part y h) 0))).
  - f_equal. rewrite (fold_seq2 (fun s u v => if Req_EM_T v 0 then s else Rmin s (u / v))) by exact L.
    apply fold_quot.
  - intros i t Hi. rewrite !getv_part, (nth_error_nth' _ 0 Hi), (nth_error_nth' (part y h) 0) by (assumption || lia).
    cbn [obind]. destruct (Req_EM_T _ 0); reflexivity.
Qed.
Lemma quotients_whole : forall x y procs, Forall (alike x y) procs ->
  quotients (whole x procs) (whole y procs) = concat (map (fun h => quotients (part x h) (part y h)) procs).
Proof.
  intros x y procs F. induction F as [|h procs (_ & _ & L) F IH]; [reflexivity|].
  cbn [map concat]. rewrite <- IH. unfold quotients. rewrite pairs_cons by exact L.
  now rewrite filter_app, map_app.
Qed.
Theorem min_quotient_ok : forall big x y procs r, Forall (alike x y) procs ->
  Forall (fun v => v <= big) (quotients (whole x procs) (whole y procs)) ->
  min_quotient big x y procs r -> is_min big (quotients (whole x procs) (whole y procs)) r.
Proof.
  intros big x y procs r F B Rd. rewrite (quotients_whole x y procs F) in *.
  apply (min_procs big (minq_local big x y) _ procs r); [|exact B|exact Rd].
  intros h I. apply minq_local_ok. now apply (alike_in x y procs).
Qed.

(** ** Loops with a second result *)
Lemma wr_same : forall {A} (l : list A) i v, nth_error l i = Some v -> wr l i v = Some l.
Proof.
  induction l as [|a l IH]; intros [|i] v E; cbn in *; try discriminate; [congruence|]. now rewrite (IH i v E).
Qed.
Lemma setv_same : forall h z i v, has z h -> nth_error (part z h) i = Some v -> setv h z i v = Some h.
Proof.
  intros h z i v Z E. unfold setv. rewrite (has_rd _ _ Z). cbn [obind]. rewrite (wr_same _ _ _ E). cbn [obind].
  apply wr_same. now apply has_rd.
Qed.
Lemma wr_twice : forall {A} (l l' : list A) i v w, wr l i v = Some l' -> wr l' i w = wr l i w.
Proof.
  induction l as [|a l IH]; intros l' [|i] v w E; cbn in E; try discriminate.
  - injection E as <-. reflexivity.
  - destruct (wr l i v) as [l1|] eqn:F; [|discriminate]. injection E as <-. cbn. now rewrite (IH l1 i v w F).
Qed.

Lemma loop_gen2 : forall {T} n (g : nat -> R) (u : T -> nat -> T) z t h (body : nat -> T * vmem -> option (T * vmem)),
  has z h -> (n <= length (part z h))%nat ->
  (forall i t' h' l', (i < n)%nat -> assigned z l' h h' -> length l' = length (part z h) ->
     (forall j, (i <= j)%nat -> nth_error l' j = nth_error (part z h) j) ->
     body i (t', h') = do h2 <- setv h' z i (g i); Some (u t' i, h2)) ->
  exists h' l', for_ n body (t, h) = Some (fold_left u (seq 0 n) t, h') /\ assigned z l' h h' /\ length l' = length (part z h) /\
    (forall j, (j < n)%nat -> nth_error l' j = Some (g j)) /\
    (forall j, (n <= j)%nat -> nth_error l' j = nth_error (part z h) j).
Proof.
  intros T n g u z t h body Z L B.
  destruct (for_inv (fun i (s : T * vmem) => fst s = fold_left u (seq 0 i) t /\ exists l', assigned z l' h (snd s) /\ length l' = length (part z h) /\
    (forall j, (j < i)%nat -> nth_error l' j = Some (g j)) /\
    (forall j, (i <= j)%nat -> nth_error l' j = nth_error (part z h) j)) n body (t, h)) as ((t', h') & E & Et & l' & P).
  - split; [reflexivity|]. exists (part z h). repeat split; auto. intros j Hj; lia.
  - intros i (t', h') Hi (Et & l' & A & Len & P1 & P2). cbn [fst snd] in *. rewrite (B i t' h' l' Hi A Len P2).
    destruct A as (A1 & A2 & A3). assert (Z' : has z h') by (unfold has in *; lia).
    destruct (setv_spec h' z i (g i) Z') as (h2 & l2 & E & (C1 & C2 & C3) & Len2 & Q1 & Q2).
    { rewrite A2, Len. lia. }
    rewrite E. cbn [obind]. exists (u t' i, h2). split; [reflexivity|]. cbn [fst snd]. split.
    { rewrite seq_S, fold_left_app. cbn [fold_left]. now rewrite Et. }
    exists l2. rewrite A2 in Len2, Q2. repeat split; auto; try congruence.
    + intros w D. rewrite C3, A3 by exact D. reflexivity.
    + intros j Hj. destruct (Nat.eq_dec j i) as [->|D]; [exact Q1|]. rewrite Q2 by exact D. apply P1. lia.
    + intros j Hj. rewrite Q2 by lia. apply P2. lia.
  - cbn [fst snd] in Et. subst t'. exists h', l'. cbn [snd] in P. tauto.
Qed.

(** *** Inverses with a test *)
Definition inv_entry (xi zi : R) : R := if Req_EM_T xi 0 then zi else 1 / xi.
Lemma fold_flag : forall (P : nat -> bool) (bad : nat) l s, fold_left (fun t i => if P i then bad else t) l s =
  (if existsb P l then bad else s).
Proof.
  intros P bad l. induction l as [|i l IH]; intros s; [reflexivity|]. cbn [fold_left existsb]. rewrite IH.
  destruct (P i); cbn; [|reflexivity]. now destruct (existsb P l).
Qed.
Lemma invtest_local_ok : forall x z h, alike x z h -> exists v h', invtest_local x z h = Some (v, h') /\
  assigned z (map2 inv_entry (part x h) (part z h)) h h' /\
  ((v = 1%nat /\ forall u, In u (part x h) -> u <> 0) \/ (v = 0%nat /\ In 0 (part x h))).
Proof.
  intros x z h (Hx & Hz & L). unfold invtest_local. rewrite !vsize_part, <- L, Nat.min_id by assumption.
  set (bad := fun i => if Req_EM_T (nth i (part x h) 0) 0 then true else false).
  edestruct (loop_gen2 (length (part x h)) (fun i => inv_entry (nth i (part x h) 0) (nth i (part z h) 0))
    (fun (t : nat) i => if bad i then 0%nat else t) z 1%nat h) as (h' & l' & E & A & Len & P & _);
    [assumption|lia| |].
  2:{ rewrite E. eexists _, h'. split; [reflexivity|]. split.
      - apply (assigned_full z h h' l' _ A).
        + rewrite map2_length by exact L. lia.
        + intros j Hj. rewrite map2_length in Hj by exact L. rewrite map2_nth by assumption. now apply P.
      - rewrite (fold_flag bad 0%nat). destruct (existsb bad (seq 0 (length (part x h)))) eqn:X.
        + right. split; [reflexivity|]. apply existsb_exists in X. destruct X as (i & Ii & Bi). apply in_seq in Ii.
          unfold bad in Bi. destruct (Req_EM_T _ 0) as [Z|Z]; [|discriminate]. rewrite <- Z. apply nth_In. lia.
        + left. split; [reflexivity|]. intros u Iu ->. apply (In_nth _ _ 0) in Iu. destruct Iu as (i & Hi & Ei).
          assert (existsb bad (seq 0 (length (part x h))) = true) as K; [|congruence].
          apply existsb_exists. exists i. split; [apply in_seq; lia|]. unfold bad. rewrite Ei. destruct (Req_EM_T 0 0); [reflexivity|lra]. }
  intros i t' h' l' Hi A Len P. cbv beta iota. rewrite (getv_in_loop h h' l' x z i A Hx P Hi). cbn [obind].
  unfold inv_entry, bad. destruct (Req_EM_T (nth i (part x h) 0) 0) as [Z|Z]; [|reflexivity].
  rewrite setv_same; [reflexivity| |].
  - destruct A as (A1 & _). unfold has in *. lia.
  - destruct A as (_ & -> & _). rewrite P by lia. apply nth_error_nth'. lia.
Qed.

Lemma Forall2_combine : forall {A B C} (f : A -> option (B * C)) (procs : list A) (ls : list B) (ps : list C),
  length ls = length ps -> Forall2 (fun h v => f h = Some v) procs (List.combine ls ps) ->
  Forall2 (fun h v => exists c, f h = Some (v, c)) procs ls /\ Forall2 (fun h c => exists v, f h = Some (v, c)) procs ps.
Proof.
  intros A B C f procs. induction procs as [|h procs IH]; intros [|v ls] [|c ps] L F; cbn in *; try lia; inversion F; subst.
  - split; constructor.
  - destruct (IH ls ps) as (F1 & F2); [lia|assumption|]. split; constructor; eauto.
Qed.

Theorem inv_test_ok : forall x z procs procs' r, Forall (alike x z) procs -> inv_test x z procs procs' r ->
  Forall2 (fun h h' => assigned z (map2 inv_entry (part x h) (part z h)) h h') procs procs' /\
  (r = true <-> forall u, In u (whole x procs) -> u <> 0).
Proof.
  intros x z procs procs' r F (ls & g & C & Len & Rd & ->). destruct (Forall2_combine _ _ _ _ Len C) as (C1 & C2).
  rewrite Forall_forall in F. split.
  - clear - F C2. induction C2 as [|h h' procs procs' (v & E) C2 IH]; constructor.
    + destruct (invtest_local_ok x z h) as (v' & h2 & E' & A & _); [apply F; now left|].
      rewrite E in E'. injection E' as _ <-. exact A.
    + apply IH. intros h2 I. apply F. now right.
  - destruct (red_sel Nat.min (fun a b => (b <= a)%nat)) with (l := ls) (r := g) as (I & M); try (intros; lia); [exact Rd|].
    assert (Loc : forall h v, In h procs -> (exists c, invtest_local x z h = Some (v, c)) ->
      (v = 1%nat /\ forall u, In u (part x h) -> u <> 0) \/ (v = 0%nat /\ In 0 (part x h))).
    { intros h v Ih (c & E). destruct (invtest_local_ok x z h (F h Ih)) as (v' & h2 & E' & _ & A).
      rewrite E in E'. injection E' as <- _. exact A. }
    split.
    + intros G u Iu. apply in_whole in Iu. destruct Iu as (h & Ih & Iu).
      destruct (Forall2_in _ _ _ _ C1 Ih) as (v & Iv & Ev). destruct (Loc h v Ih Ev) as [(_ & N)|(-> & _)]; [now apply N|].
      pose proof (M _ Iv). assert (g = 0%nat) as -> by lia. discriminate.
    + intros N. destruct (Forall2_in' _ _ _ _ C1 I) as (h & Ih & Ev). destruct (Loc h g Ih Ev) as [(-> & _)|(_ & Z)]; [reflexivity|].
      exfalso. apply (N 0); [|reflexivity]. apply in_whole. eauto.
Qed.

(** *** Constraints *)
Definition violatedb (c x : R) : bool :=
  if Req_EM_T c 0 then false
  else ((Rltb (3 / 2) (Rabs c) && Rleb (x * c) 0) || (Rltb (1 / 2) (Rabs c) && Rltb (x * c) 0))%bool.
Lemma Rltb_true : forall a b, Rltb a b = true <-> a < b.
Proof. intros a b. unfold Rltb. destruct (Rlt_dec a b); split; auto; discriminate. Qed.
Lemma Rleb_true : forall a b, Rleb a b = true <-> a <= b.
Proof. intros a b. unfold Rleb. destruct (Rle_dec a b); split; auto; discriminate. Qed.
Lemma violated_ok : forall c x, constraint c -> (violatedb c x = true <-> ~ satisfied c x).
Proof.
  intros c x K. unfold violatedb, satisfied.
  destruct (Req_EM_T c 0) as [Z|Z].
  - split; [discriminate|]. intros N. exfalso. apply N. subst c. repeat split; intros; lra.
  - rewrite Bool.orb_true_iff, !Bool.andb_true_iff, !Rltb_true, Rleb_true.
    assert (Rabs 1 = 1) as R1 by (apply Rabs_pos_eq; lra). assert (Rabs 2 = 2) as R2 by (apply Rabs_pos_eq; lra).
    assert (Rabs (-1) = 1) as R3 by (rewrite Rabs_left; lra). assert (Rabs (-2) = 2) as R4 by (rewrite Rabs_left; lra).
    destruct K as [->|[->|[->|[->| ->]]]]; [lra| | | |].
    + rewrite R1. split; [intros [(A & _)|(_ & A)] (S & _); [lra|specialize (S eq_refl); lra]|].
      intros N. right. split; [lra|]. apply Rnot_le_lt. intros L. apply N. repeat split; intros; lra.
    + rewrite R3. split; [intros [(A & _)|(_ & A)] (_ & S & _); [lra|specialize (S eq_refl); lra]|].
      intros N. right. split; [lra|]. apply Rnot_le_lt. intros L. apply N. repeat split; intros; lra.
    + rewrite R2. split; [intros [(_ & A)|(_ & A)] (_ & _ & S & _); specialize (S eq_refl); lra|].
      intros N. left. split; [lra|]. apply Rnot_lt_le. intros L. apply N. repeat split; intros; lra.
    + rewrite R4. split; [intros [(_ & A)|(_ & A)] (_ & _ & _ & S); specialize (S eq_refl); lra|].
      intros N. left. split; [lra|]. apply Rnot_lt_le. intros L. apply N. repeat split; intros; lra.
Qed.

Definition mask_entry (c x : R) : R := if violatedb c x then 1 else 0.
Lemma constr_local_ok : forall c x m h, alike x c h -> alike x m h -> m <> c -> m <> x ->
  exists v h', constr_local c x m h = Some (v, h') /\
  assigned m (map2 mask_entry (part c h) (part x h)) h h' /\
  ((v = 0%nat /\ forall i, (i < length (part x h))%nat -> violatedb (nth i (part c h) 0) (nth i (part x h) 0) = false) \/
   (v = 1%nat /\ exists i, (i < length (part x h))%nat /\ violatedb (nth i (part c h) 0) (nth i (part x h) 0) = true)).
Proof.
  intros c x m h (Hx & Hc & Lc) (_ & Hm & Lm) Dc Dx. unfold constr_local.
  rewrite !vsize_part, <- Lc, <- Lm, !Nat.min_id by assumption.
  set (bad := fun i => violatedb (nth i (part c h) 0) (nth i (part x h) 0)).
  edestruct (loop_gen2 (length (part x h)) (fun i => mask_entry (nth i (part c h) 0) (nth i (part x h) 0))
    (fun (t : nat) i => if bad i then 1%nat else t) m 0%nat h) as (h' & l' & E & A & Len & P & _);
    [assumption|lia| |].
  2:{ rewrite E. eexists _, h'. split; [reflexivity|]. split.
      - apply (assigned_full m h h' l' _ A).
        + rewrite map2_length by (symmetry; exact Lc). lia.
        + intros j Hj. rewrite map2_length in Hj by (symmetry; exact Lc). rewrite map2_nth by (assumption || lia). apply P. lia.
      - rewrite (fold_flag bad 1%nat). destruct (existsb bad (seq 0 (length (part x h)))) eqn:X.
        + right. split; [reflexivity|]. apply existsb_exists in X. destruct X as (i & Ii & Bi). apply in_seq in Ii.
          exists i. split; [lia|exact Bi].
        + left. split; [reflexivity|]. intros i Hi. destruct (violatedb (nth i (part c h) 0) (nth i (part x h) 0)) eqn:V; [|reflexivity].
          assert (existsb bad (seq 0 (length (part x h))) = true) as K; [|congruence].
          apply existsb_exists. exists i. split; [apply in_seq; lia|exact V]. }
  intros i t' h' l' Hi A Len P. cbv beta iota.
  destruct A as (A1 & A2 & A3). assert (Hm' : has m h') by (unfold has in *; lia).
  destruct (setv_spec h' m i 0 Hm') as (h1 & l1 & E1 & (B1 & B2 & B3) & _); [rewrite A2; lia|].
  rewrite E1. cbn [obind].
  assert (G : forall w, w <> m -> has w h -> length (part w h) = length (part x h) -> getv h1 w i = Some (nth i (part w h) 0)).
  { intros w Dw Hw Lw. rewrite getv_part by (unfold has in *; lia). rewrite B3, A3 by exact Dw. apply nth_error_nth'. lia. }
  rewrite (G c) by (auto; lia). cbn [obind].
  assert (Tw : forall v, setv h1 m i v = setv h' m i v).
  { intros v. unfold setv in *. rewrite (has_rd _ _ Hm') in *. cbn [obind] in *.
    destruct (wr (part m h') i 0) as [q|] eqn:W; [|discriminate]. cbn [obind] in E1.
    assert (F : rd h1 m = Some q).
    { destruct (wr_nth h' m q Hm') as (h3 & F & _ & F1 & _). rewrite E1 in F. injection F as <-. exact F1. }
    rewrite F. cbn [obind]. rewrite (wr_twice _ _ _ _ v W).
    destruct (wr (part m h') i v) as [q2|]; cbn [obind]; [|reflexivity]. apply (wr_twice _ _ _ _ q2 E1). }
  unfold mask_entry, bad, violatedb.
  destruct (Req_EM_T (nth i (part c h) 0) 0) as [Z|Z]; [rewrite E1; reflexivity|].
  rewrite (G x) by auto. cbn [obind]. cbv zeta.
  set (test := (_ || _)%bool). destruct test; [rewrite Tw; reflexivity|rewrite E1; reflexivity].
Qed.

Theorem constr_mask_ok : forall c x m procs procs' r, Forall (alike x c) procs -> Forall (alike x m) procs ->
  m <> c -> m <> x -> constr_mask c x m procs procs' r ->
  Forall2 (fun h h' => assigned m (map2 mask_entry (part c h) (part x h)) h h') procs procs' /\
  (r = true <-> forall p, In p (List.combine (whole c procs) (whole x procs)) -> violatedb (fst p) (snd p) = false).
Proof.
  intros c x m procs procs' r Fc Fm Dc Dx (ls & g & C & Len & Rd & ->).
  destruct (Forall2_combine _ _ _ _ Len C) as (C1 & C2).
  assert (W : forall p, In p (List.combine (whole c procs) (whole x procs)) <->
            exists h i, In h procs /\ (i < length (part x h))%nat /\ p = (nth i (part c h) 0, nth i (part x h) 0)).
  { intros p. clear - Fc. induction Fc as [|h procs (_ & _ & L) F IH].
    - cbn. split; [tauto|]. intros (h & i & [] & _).
    - rewrite pairs_cons by (symmetry; exact L). rewrite in_app_iff, IH. split.
      + intros [I|(h' & i & I & Hi & E)]; [|exists h', i; split; [now right|auto]].
        apply (In_nth _ _ (0, 0)) in I. destruct I as (i & Hi & E). rewrite combine_length in Hi.
        exists h, i. split; [now left|]. split; [lia|]. rewrite <- E. rewrite combine_nth by (symmetry; exact L). reflexivity.
      + intros (h' & i & [<-|I] & Hi & ->); [left|right; eauto].
        rewrite <- combine_nth by (symmetry; exact L). apply nth_In. rewrite combine_length. lia. }
  rewrite Forall_forall in Fc, Fm. split.
  - clear - Fc Fm C2 Dc Dx. induction C2 as [|h h' procs procs' (v & E) C2 IH]; constructor.
    + destruct (constr_local_ok c x m h) as (v' & h2 & E' & A & _); auto; [apply Fc; now left|apply Fm; now left|].
      rewrite E in E'. injection E' as _ <-. exact A.
    + apply IH; intros h2 I; [apply Fc|apply Fm]; now right.
  - destruct (red_sel Nat.max (fun a b => (a <= b)%nat)) with (l := ls) (r := g) as (I & M); try (intros; lia); [exact Rd|].
    assert (Loc : forall h v, In h procs -> (exists q, constr_local c x m h = Some (v, q)) ->
      (v = 0%nat /\ forall i, (i < length (part x h))%nat -> violatedb (nth i (part c h) 0) (nth i (part x h) 0) = false) \/
      (v = 1%nat /\ exists i, (i < length (part x h))%nat /\ violatedb (nth i (part c h) 0) (nth i (part x h) 0) = true)).
    { intros h v Ih (q & E). destruct (constr_local_ok c x m h (Fc h Ih) (Fm h Ih) Dc Dx) as (v' & h2 & E' & _ & A).
      rewrite E in E'. injection E' as <- _. exact A. }
    split.
    + intros G p Ip. apply W in Ip. destruct Ip as (h & i & Ih & Hi & ->). cbn [fst snd].
      destruct (Forall2_in _ _ _ _ C1 Ih) as (v & Iv & Ev). destruct (Loc h v Ih Ev) as [(_ & N)|(-> & _)]; [now apply N|].
      pose proof (M _ Iv). destruct (Forall2_in' _ _ _ _ C1 I) as (h2 & Ih2 & Ev2).
      destruct (Loc h2 g Ih2 Ev2) as [(-> & _)|(-> & _)]; [lia|discriminate].
    + intros N. destruct (Forall2_in' _ _ _ _ C1 I) as (h & Ih & Ev). destruct (Loc h g Ih Ev) as [(-> & _)|(_ & i & Hi & V)]; [reflexivity|].
      exfalso. assert (K : violatedb (nth i (part c h) 0) (nth i (part x h) 0) = false); [|congruence].
      apply (N (nth i (part c h) 0, nth i (part x h) 0)). apply W. exists h, i. auto.
Qed.

(** ** Linear combinations *)
Lemma total_one : forall v, total [v] = v.
Proof. intros v. cbn. ring. Qed.
Lemma map2_app : forall f a b a' b', length a = length b -> map2 f (a ++ a') (b ++ b') = map2 f a b ++ map2 f a' b'.
Proof. intros. unfold map2. now rewrite combine_app, map_app. Qed.
Lemma combination_snoc : forall c X c1 x1 j, length c = length X ->
  combination (c ++ [c1]) (X ++ [x1]) j = combination c X j + c1 * nth j x1 0.
Proof.
  intros c X c1 x1 j L. unfold combination. rewrite map_app. cbn [map]. rewrite map2_app by (now rewrite map_length).
  rewrite total_app. f_equal. apply total_one.
Qed.

Lemma firstn_snoc : forall {A} (l : list A) i d, (i < length l)%nat -> firstn (S i) l = firstn i l ++ [nth i l d].
Proof.
  intros A l. induction l as [|a l IH]; intros i d L; cbn in L; [lia|]. destruct i as [|i]; [reflexivity|].
  cbn [firstn app nth]. f_equal. apply IH. lia.
Qed.

Lemma add_loop_ok : forall ci z w h, alike z w h -> w <> z ->
  exists h', for_ (length (part z h)) (fun j h => do a <- getv h z j; do b <- getv h w j; setv h z j (a + ci * b)) h = Some h' /\
    assigned z (map2 (fun a b => a + ci * b) (part z h) (part w h)) h h'.
Proof.
  intros ci z w h (Hz & Hw & L) D.
  destruct (loop_gen (length (part z h)) (fun i => nth i (part z h) 0 + ci * nth i (part w h) 0) z h
    (fun j h => do a <- getv h z j; do b <- getv h w j; setv h z j (a + ci * b))) as (h' & l' & E & A & Len & P & _);
    [assumption|lia| |].
  - intros i h' l' Hi A Len P. rewrite (getv_in_loop h h' l' z z i A Hz P Hi). cbn [obind].
    rewrite (getv_in_loop h h' l' w z i A Hw P) by lia. reflexivity.
  - exists h'. split; [exact E|]. apply (assigned_full z h h' l' _ A).
    + rewrite map2_length by exact L. lia.
    + intros j Hj. rewrite map2_length in Hj by exact L. rewrite map2_nth by assumption. now apply P.
Qed.

Lemma combination_le2 : forall c0 c1 (a b : list R) j, combination [c0; c1] [a; b] j = c0 * nth j a 0 + c1 * nth j b 0.
Proof. intros. unfold combination, map2, total. cbn. ring. Qed.

Theorem lin_comb_ok : forall c X z h, length c = length X -> (0 < length X)%nat ->
  (forall x, In x X -> alike z x h) -> ~ In z (tl X) ->
  exists h', lin_comb c X z h = Some (0%Z, h') /\
    assigned z (map (combination c (map (fun x => part x h) X)) (seq 0 (length (part z h)))) h h'.
Proof.
  intros c X z h L N Al Nz.
  assert (K : forall l h', length l = length (part z h) ->
     (forall j, (j < length (part z h))%nat -> nth j l 0 = combination c (map (fun x => part x h) X) j) ->
     assigned z l h h' -> assigned z (map (combination c (map (fun x => part x h) X)) (seq 0 (length (part z h)))) h h').
  { intros l h' Ll E A. apply (assigned_full z h h' l _ A).
    - now rewrite map_length, seq_length.
    - intros j Hj. rewrite map_length, seq_length in Hj. rewrite nth_error_map.
      rewrite (nth_error_nth' (seq 0 _) 0%nat) by (now rewrite seq_length). rewrite seq_nth by exact Hj. cbn [option_map Nat.add].
      rewrite <- E by exact Hj. apply nth_error_nth'. lia. }
  assert (As : forall x y, alike x y h -> alike y x h) by (intros x y (a1 & a2 & a3); repeat split; auto).
  destruct X as [|x0 X]; [cbn in N; lia|]. destruct c as [|c0 c]; [discriminate|].
  assert (Z0 : alike z x0 h) by (apply Al; now left).
  destruct X as [|x1 X]; [destruct c; [|discriminate]|].
  { destruct (vscale_ok c0 x0 z h (As _ _ Z0)) as (h' & E & A). exists h'. split; [cbn [lin_comb]; now rewrite E|].
    apply K with (l := map (fun u => c0 * u) (part x0 h)); [|intros j Hj|exact A].
    - rewrite map_length. symmetry. apply Z0.
    - destruct Z0 as (_ & _ & Lz). rewrite (nth_error_nth _ _ 0 (map_nth' (fun u => c0 * u) (part x0 h) j ltac:(lia))).
      unfold combination, map2, total. cbn. ring. }
  destruct c as [|c1 c]; [discriminate|].
  assert (Z1 : alike z x1 h) by (apply Al; right; now left).
  destruct X as [|x2 X]; [destruct c; [|discriminate]|].
  { destruct Z0 as (Hz & H0 & L0), Z1 as (_ & H1 & L1).
    destruct (loop2_ok (fun u v => c0 * u + c1 * v) x0 x1 z h) as (h' & E & A); [repeat split; auto; congruence..|].
    exists h'. split; [cbn [lin_comb]; unfold linear_sum; now rewrite E|].
    apply K with (l := map2 (fun u v => c0 * u + c1 * v) (part x0 h) (part x1 h)); [|intros j Hj|exact A].
    - rewrite map2_length; congruence.
    - rewrite (nth_error_nth _ _ 0 (map2_nth (fun u v => c0 * u + c1 * v) (part x0 h) (part x1 h) j ltac:(congruence) ltac:(lia))).
      cbn [map]. now rewrite combination_le2. }
  destruct c as [|c2 c]; [discriminate|].
  set (X' := x0 :: x1 :: x2 :: X) in *. set (c' := c0 :: c1 :: c2 :: c) in *.
  assert (Dz : forall i, (1 <= i < length X')%nat -> nth i X' 0%nat <> z).
  { intros i Hi E. apply Nz. rewrite <- E. destruct i as [|i]; [lia|]. 
    change (In (nth i (x1 :: x2 :: X) 0%nat) (x1 :: x2 :: X)). apply nth_In. cbn in Hi |- *. lia. }
  assert (First : exists h1, (if (z =? x0)%nat then scale_in_place c0 x0 h else loop1 (fun u => c0 * u) x0 z h) = Some h1 /\
            assigned z (map (fun u => c0 * u) (part x0 h)) h h1).
  { destruct (Nat.eqb_spec z x0) as [->|D]; [apply scale_in_place_ok; apply Z0|apply loop1_ok; now apply As]. }
  destruct First as (h1 & E1 & A1).
  assert (Vs : vsize h x0 = length (part z h)).
  { destruct Z0 as (_ & H0 & L0). rewrite vsize_part by exact H0. now symmetry. }
  destruct (for_range_inv (fun i h' => exists l, assigned z l h h' /\ length l = length (part z h) /\
     forall j, (j < length (part z h))%nat -> nth j l 0 = combination (firstn i c') (firstn i (map (fun x => part x h) X')) j)
     (length X' - 1) 1 (fun i h' => do ci <- rd c' i; do xi <- rd X' i;
       for_ (vsize h x0) (fun j h => do a <- getv h z j; do b <- getv h xi j; setv h z j (a + ci * b)) h') h1) as (h2 & E2 & l & A2 & Ll & P).
  - exists (map (fun u => c0 * u) (part x0 h)). split; [exact A1|]. split.
    + rewrite map_length. symmetry. apply Z0.
    + intros j Hj. destruct Z0 as (_ & _ & Lz). rewrite (nth_error_nth _ _ 0 (map_nth' (fun u => c0 * u) (part x0 h) j ltac:(lia))).
      unfold combination, map2, total. cbn. ring.
  - intros i h' Hi (l & (B1 & B2 & B3) & Ll & P).
    assert (Hc : (i < length c')%nat) by lia. assert (HX : (i < length X')%nat) by lia.
    unfold rd. rewrite (nth_error_nth' c' 0 Hc), (nth_error_nth' X' 0%nat HX). cbn [obind].
    set (xi := nth i X' 0%nat). set (ci := nth i c' 0).
    assert (D : xi <> z) by (apply Dz; lia).
    assert (Zi : alike z xi h) by (apply Al; now apply nth_In). destruct Zi as (Hz & Hi' & Li).
    destruct (add_loop_ok ci z xi h') as (h2 & E2 & (C1 & C2 & C3)).
    { split; [unfold has in *; lia|]. split; [unfold has in *; lia|]. rewrite B2, B3 by exact D. congruence. }
    { exact D. }
    rewrite Vs. rewrite B2, Ll in E2. rewrite E2. exists h2. split; [reflexivity|].
    exists (map2 (fun a b => a + ci * b) l (part xi h)). rewrite B2, (B3 xi D) in C2. split; [|split].
    + repeat split; [congruence|exact C2|]. intros w Dw. now rewrite C3, B3.
    + rewrite map2_length; congruence.
    + intros j Hj. rewrite (nth_error_nth _ _ 0 (map2_nth _ l (part xi h) j ltac:(congruence) ltac:(lia))).
      rewrite (firstn_snoc c' i 0 Hc), (firstn_snoc (map (fun x => part x h) X') i []) by (now rewrite map_length).
      rewrite combination_snoc by (rewrite !firstn_length, map_length; lia). rewrite P by exact Hj.
      f_equal. f_equal. unfold xi. rewrite (nth_indep _ [] (part 0%nat h)) by (now rewrite map_length).
      now rewrite (map_nth (fun x => part x h)).
  - exists h2. split.
    + unfold lin_comb, c', X'. cbv zeta. rewrite E1. cbn [obind].
      fold X' c'. rewrite E2. reflexivity.
    + apply K with (l := l); [exact Ll| |exact A2]. intros j Hj. rewrite P by exact Hj.
      replace (1 + (length X' - 1))%nat with (length X') by (cbn; lia).
      rewrite !firstn_all2; [reflexivity|rewrite map_length; lia|lia].
Qed.

(** ** Masked weighted norm *)
Definition masked (x w d : list R) : list R :=
  map (fun p => if Rlt_dec 0 (snd p) then (fst (fst p) * snd (fst p)) ^ 2 else 0) (List.combine (List.combine x w) d).
Lemma fold_seq3 : forall (op : R -> R -> R -> R -> R) (a b e : list R) s, length a = length b -> length a = length e ->
  fold_left (fun t i => op t (nth i a 0) (nth i b 0) (nth i e 0)) (seq 0 (length a)) s =
  fold_left (fun t p => op t (fst (fst p)) (snd (fst p)) (snd p)) (List.combine (List.combine a b) e) s.
Proof.
  intros op a. induction a as [|u a IH]; intros [|v b] [|w e] s L L'; cbn in L, L'; try lia; [reflexivity|].
  cbn [length seq fold_left List.combine fst snd nth]. rewrite <- IH by lia.
  rewrite <- seq_shift. generalize (op s u v w), (seq 0 (length a)). clear.
  intros s l. revert s. induction l as [|j l IH]; intros s; [reflexivity|]. cbn [map fold_left nth]. apply IH.
Qed.
Lemma wsqr_mask_local_ok : forall x w d h, alike x w h -> alike x d h ->
  wsqr_mask_local x w d h = Some (total (masked (part x h) (part w h) (part d h))).
Proof.
  intros x w d h (Hx & Hw & Lw) (_ & Hd & Ld). unfold wsqr_mask_local.
  rewrite !vsize_part, <- Lw, <- Ld, !Nat.min_id by assumption.
  rewrite (for_fold _ (fun s i => (fun s u v m => s + if Rlt_dec 0 m then (u * v) ^ 2 else 0) s
     (nth i (part x h) 0) (nth i (part w h) 0) (nth i (part d h) 0))).
  - f_equal. rewrite (fold_seq3 (fun s u v m => s + if Rlt_dec 0 m then (u * v) ^ 2 else 0)) by assumption.
    rewrite (fold_total (fun p => if Rlt_dec 0 (snd p) then (fst (fst p) * snd (fst p)) ^ 2 else 0)). apply Rplus_0_l.
  - intros i t Hi. rewrite !getv_part, (nth_error_nth' _ 0 Hi), (nth_error_nth' (part w h) 0), (nth_error_nth' (part d h) 0) by (assumption || lia).
    cbn [obind]. destruct (Rlt_dec 0 _); f_equal; ring.
Qed.
Theorem wsqr_mask_ok : forall x w d procs r, Forall (alike x w) procs -> Forall (alike x d) procs ->
  allreduce Rplus (wsqr_mask_local x w d) procs r ->
  r = total (masked (whole x procs) (whole w procs) (whole d procs)).
Proof.
  intros x w d procs r F G (ls & C & Rd). rewrite (red_sum _ _ Rd).
  apply (sum_contributions _ (fun h => masked (part x h) (part w h) (part d h))
           (fun ps => masked (whole x ps) (whole w ps) (whole d ps)) _ _) in C; [exact C| |reflexivity|].
  - intros h I. apply wsqr_mask_local_ok; [now apply (alike_in x w procs)|now apply (alike_in x d procs)].
  - intros h q I. destruct (alike_in x w procs h F I) as (_ & _ & L1), (alike_in x d procs h G I) as (_ & _ & L2).
    unfold masked. rewrite pairs_cons by exact L1. rewrite whole_cons, combine_app, map_app; [reflexivity|].
    rewrite combine_length. lia.
Qed.
