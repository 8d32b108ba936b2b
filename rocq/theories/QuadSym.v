(** Sums over all permutations of the coordinates are polynomials in the elementary symmetric polynomials *)
From Coq Require Import ZArith Reals List Bool Lia Lra Permutation.
From Coquelicot Require Import Coquelicot.
From Verif Require Import Prelude RSum BasModel BasSpec QuadModel QuadRules QuadSpec QuadProofs QuadCheck QuadPoly.
Import ListNotations.
Open Scope R_scope.

Definition lsum {X : Type} (f : X -> R) (l : list X) : R := fold_right (fun x s => f x + s) 0 l.
Lemma lsum_nil : forall X (f : X -> R), lsum f [] = 0.
Proof. reflexivity. Qed.
Lemma lsum_cons : forall X (f : X -> R) a l, lsum f (a :: l) = f a + lsum f l.
Proof. reflexivity. Qed.
Lemma lsum_app : forall X (f : X -> R) a b, lsum f (a ++ b) = lsum f a + lsum f b.
Proof. intros X f a b. induction a as [|x a IH]; [cbn [app]; rewrite lsum_nil; ring|]. cbn [app]. rewrite !lsum_cons, IH. ring. Qed.
Lemma lsum_map : forall X Y (g : Y -> X) (f : X -> R) l, lsum f (map g l) = lsum (fun y => f (g y)) l.
Proof. intros. induction l as [|x l IH]; [reflexivity|]. cbn [map]. rewrite !lsum_cons, IH. reflexivity. Qed.
Lemma lsum_flat : forall X Y (g : Y -> list X) (f : X -> R) l, lsum f (flat_map g l) = lsum (fun y => lsum f (g y)) l.
Proof. intros. induction l as [|x l IH]; [reflexivity|]. cbn [flat_map]. rewrite lsum_app, lsum_cons, IH. reflexivity. Qed.
Lemma lsum_ext : forall X (f g : X -> R) l, (forall x, In x l -> f x = g x) -> lsum f l = lsum g l.
Proof. intros X f g l H. induction l as [|x l IH]; [reflexivity|]. rewrite !lsum_cons, (H x (or_introl eq_refl)), IH by (intros; apply H; now right). reflexivity. Qed.
Lemma lsum_scal : forall X c (f : X -> R) l, lsum (fun x => c * f x) l = c * lsum f l.
Proof. intros. induction l as [|x l IH]; [rewrite !lsum_nil; ring|]. rewrite !lsum_cons, IH. ring. Qed.
Lemma lsum_plus : forall X (f g : X -> R) l, lsum (fun x => f x + g x) l = lsum f l + lsum g l.
Proof. intros. induction l as [|x l IH]; [rewrite !lsum_nil; ring|]. rewrite !lsum_cons, IH. ring. Qed.
Lemma lsum_swap : forall X Y (f : X -> Y -> R) a b, lsum (fun x => lsum (f x) b) a = lsum (fun y => lsum (fun x => f x y) a) b.
Proof.
  intros. induction a as [|x a IH].
  - rewrite lsum_nil. induction b as [|y b IHb]; [reflexivity|]. rewrite lsum_cons, lsum_nil, <- IHb. ring.
  - rewrite lsum_cons, IH, <- lsum_plus. apply lsum_ext. intros y _. now rewrite lsum_cons.
Qed.
Lemma lsum_const : forall X (c : R) (l : list X), lsum (fun _ => c) l = INR (length l) * c.
Proof. intros. induction l as [|x l IH]; [cbn; ring|]. rewrite lsum_cons, IH. cbn [length]. rewrite S_INR. ring. Qed.

(** *** Sums over all permutations *)
Fixpoint picks (p : list R) : list (R * list R) :=
  match p with [] => [] | x :: r => (x, r) :: map (fun yq => (fst yq, x :: snd yq)) (picks r) end.
Fixpoint sym (es : list nat) (p : list R) : R :=
  match es with [] => 1 | e :: es => lsum (fun yq => fst yq ^ e * sym es (snd yq)) (picks p) end.
Fixpoint inserts (e : nat) (q : list nat) : list (list nat) :=
  (e :: q) :: match q with [] => [] | a :: r => map (cons a) (inserts e r) end.
Fixpoint perms (es : list nat) : list (list nat) := match es with [] => [[]] | e :: es => flat_map (inserts e) (perms es) end.

Lemma picks_length : forall p x r, In (x, r) (picks p) -> length p = S (length r).
Proof.
  induction p as [|y p IH]; intros x r H; [destruct H|]. cbn [picks] in H. destruct H as [E|H]; [inversion E; reflexivity|].
  apply in_map_iff in H. destruct H as ([z q] & E & H). inversion E; subst. cbn. f_equal. now apply IH in H.
Qed.
Lemma inserts_in : forall e q r, In r (inserts e q) -> Permutation r (e :: q).
Proof.
  intros e; induction q as [|a q IH]; intros r H; cbn [inserts] in H; destruct H as [<-|H]; try apply Permutation_refl; [destruct H|].
  apply in_map_iff in H. destruct H as (s & <- & H). etransitivity; [apply perm_skip; apply IH; exact H|apply perm_swap].
Qed.
Lemma perms_in : forall es q, In q (perms es) -> Permutation q es.
Proof.
  induction es as [|e es IH]; intros q H; cbn [perms] in H; [destruct H as [<-|[]]; constructor|].
  apply in_flat_map in H. destruct H as (r & Hr & H). etransitivity; [apply inserts_in; exact H|]. apply perm_skip. now apply IH.
Qed.
Lemma inserts_count : forall e q, length (inserts e q) = S (length q).
Proof. intros e; induction q as [|a q IH]; [reflexivity|]. cbn [inserts length]. rewrite map_length, IH. reflexivity. Qed.
Lemma perms_count : forall es, length (perms es) = fact (length es).
Proof.
  induction es as [|e es IH]; [reflexivity|]. cbn [perms length]. rewrite fact_simpl, <- IH.
  assert (H : forall q, In q (perms es) -> length q = length es) by (intros q Hq; apply Permutation_length, perms_in; exact Hq). revert H. generalize (perms es) (length es). intros l n.
  induction l as [|q l IHl]; intros H; [cbn; lia|]. cbn [flat_map length]. rewrite app_length, inserts_count, IHl by (intros; apply H; now right). rewrite (H q (or_introl eq_refl)). lia.
Qed.
Lemma inserts_sum : forall e q p, length p = S (length q) -> lsum (fun r => mono r p) (inserts e q) = lsum (fun yq => fst yq ^ e * mono q (snd yq)) (picks p).
Proof.
  intros e; induction q as [|a q IH]; intros [|x p] H; try discriminate; cbn [length] in H.
  - destruct p; [|discriminate]. cbn. ring.
  - cbn [inserts picks]. rewrite !lsum_cons, !lsum_map. cbn [fst snd]. f_equal. 
    transitivity (x ^ a * lsum (fun r => mono r p) (inserts e q)).
    + rewrite <- lsum_scal. apply lsum_ext. intros r _. reflexivity.
    + rewrite IH by lia. rewrite <- lsum_scal. apply lsum_ext. intros y _. cbn [mono]. ring.
Qed.
Lemma sym_perms : forall es p, length p = length es -> sym es p = lsum (fun q => mono q p) (perms es).
Proof.
  induction es as [|e es IH]; intros p H; [destruct p; [cbn; ring|discriminate]|].
  cbn [sym perms]. rewrite lsum_flat. transitivity (lsum (fun q => lsum (fun yq => fst yq ^ e * mono q (snd yq)) (picks p)) (perms es)).
  - rewrite lsum_swap. apply lsum_ext. intros [y r] Hi. cbn [fst snd]. rewrite lsum_scal. f_equal. apply IH.
    apply picks_length in Hi. cbn [length] in H. lia.
  - apply lsum_ext. intros q Hq. symmetry. apply inserts_sum. rewrite H. cbn. f_equal. symmetry. apply Permutation_length, perms_in, Hq.
Qed.

(** *** Elementary symmetric polynomials of degree 2, 3, 4 *)
Definition esyms (p : list R) : list R :=
  match p with
  | [x; y] => [x * y]
  | [x; y; z] => [x * y + x * z + y * z; x * y * z]
  | [x; y; z; t] => [x * y + x * z + x * t + y * z + y * t + z * t; x * y * z + x * y * t + x * z * t + y * z * t; x * y * z * t]
  | _ => []
  end.
(** A function that is a polynomial of weighted degree d and size N in them, where the coordinates add up to one *)
Definition wdegree (m d : nat) (T : bpoly) : Prop := forall c a, In (c, a) T -> length a = m /\ (weight a <= d)%nat.
Definition represents (m : nat) (N : R) (d : nat) (g : list R -> R) : Prop :=
  exists T, wdegree m d T /\ bnorm T <= N /\ forall p, length p = S m -> fold_right Rplus 0 p = 1 -> g p = beval T (esyms p).

Lemma esyms_length : forall m p, (1 <= m <= 3)%nat -> length p = S m -> length (esyms p) = m.
Proof.
  intros m p Hm H. destruct p as [|x [|y [|z [|t [|u p]]]]]; cbn in *; try lia.
Qed.
Lemma wdeg_zip : forall ks a b, length a = length ks -> length b = length ks -> wdeg ks (zipadd a b) = (wdeg ks a + wdeg ks b)%nat.
Proof.
  induction ks as [|k ks IH]; intros [|x a] [|y b] Ha Hb; try discriminate; [reflexivity|].
  unfold zipadd. cbn [List.combine map fst snd wdeg]. fold (zipadd a b). rewrite IH by (cbn in *; lia). lia.
Qed.
Lemma weight_zip : forall a b, length a = length b -> weight (zipadd a b) = (weight a + weight b)%nat.
Proof. intros a b H. unfold weight. rewrite zipadd_length by trivial. rewrite <- H. apply wdeg_zip; unfold degrees; rewrite seq_length; lia. Qed.
Lemma wdegree_app : forall m d P Q, wdegree m d P -> wdegree m d Q -> wdegree m d (P ++ Q).
Proof. intros m n P Q HP HQ c es Hi. apply in_app_or in Hi. destruct Hi; [eapply HP|eapply HQ]; eassumption. Qed.
Lemma wmul_eval : forall m a b P Q p, wdegree m a P -> wdegree m b Q -> length p = m -> beval (bmul P Q) p = beval P p * beval Q p.
Proof.
  intros m a b P Q p HP HQ Hp. induction P as [|[u eu] P IH]; [cbn [flat_map map bmul bscal]; rewrite ?beval_nil; ring|]. unfold bmul. cbn [flat_map]. fold (bmul P Q). rewrite beval_app, IH by (intros c es Hi; apply (HP c es); now right).
  rewrite beval_cons. cbn [fst snd]. rewrite Rmult_plus_distr_r. f_equal. destruct (HP u eu (or_introl eq_refl)) as [Lu _]. clear IH HP.
  induction Q as [|[v ev] Q IHQ]; [cbn [flat_map map bmul bscal]; rewrite ?beval_nil; ring|]. cbn [map fst snd]. rewrite !beval_cons, IHQ by (intros c es Hi; apply (HQ c es); now right). cbn [fst snd].
  destruct (HQ v ev (or_introl eq_refl)) as [Lv _]. rewrite zipadd_mono by lia. ring.
Qed.

Lemma rep_weaken : forall m N N' d d' g, represents m N d g -> N <= N' -> (d <= d')%nat -> represents m N' d' g.
Proof. intros m N N' d d' g (T & A & B & D) HN Hd. exists T. split; [intros c a Hi; destruct (A c a Hi); split; [trivial|lia]|]. split; [lra|trivial]. Qed.
Lemma rep_ext : forall m N d g h, represents m N d g -> (forall p, length p = S m -> fold_right Rplus 0 p = 1 -> h p = g p) -> represents m N d h.
Proof. intros m N d g h (T & A & B & D) H. exists T. split; [trivial|]. split; [trivial|]. intros p H1 H2. rewrite H by trivial. now apply D. Qed.
Lemma rep_const : forall m c, represents m (Rabs c) 0 (fun _ => c).
Proof.
  intros m c. exists [(c, repeat O m)]. split; [|split].
  - intros x a [E|[]]. apply (f_equal snd) in E. cbn [snd] in E. subst a. rewrite repeat_length. split; [trivial|].
    unfold weight. rewrite repeat_length. unfold degrees. generalize 2%nat. induction m as [|m IH]; intros n; [reflexivity|]. cbn [seq repeat wdeg]. specialize (IH (S n)). lia.
  - rewrite bnorm_cons, bnorm_nil. cbn [fst]. lra.
  - intros p _ _. rewrite beval_cons, beval_nil. cbn [fst snd]. rewrite mono_zero. ring.
Qed.
Lemma rep_esym : forall m i, (1 <= m <= 3)%nat -> (i < m)%nat -> represents m 1 (i + 2) (fun p => nth i (esyms p) 0).
Proof.
  intros m i Hm Hi. exists [(1, bump i (repeat O m))]. split; [|split].
  - intros x a [E|[]]. apply (f_equal snd) in E. cbn [snd] in E. subst a. rewrite bump_length, repeat_length. split; [trivial|].
    unfold weight. rewrite bump_length, repeat_length.
    destruct m as [|[|[|[|m]]]]; try lia; destruct i as [|[|[|i]]]; try lia; cbn; lia.
  - rewrite bnorm_cons, bnorm_nil. cbn [fst]. rewrite Rabs_R1. lra.
  - intros p Hp _. rewrite beval_cons, beval_nil. cbn [fst snd]. rewrite bump_mono by (rewrite ?repeat_length, ?(esyms_length m p); trivial). rewrite mono_zero. ring.
Qed.
Lemma rep_add : forall m N1 N2 d g h, represents m N1 d g -> represents m N2 d h -> represents m (N1 + N2) d (fun p => g p + h p).
Proof.
  intros m N1 N2 d g h (T1 & A1 & B1 & D1) (T2 & A2 & B2 & D2). exists (T1 ++ T2). split; [now apply wdegree_app|]. split; [rewrite bnorm_app; lra|].
  intros p H1 H2. rewrite beval_app, D1, D2 by trivial. reflexivity.
Qed.
Lemma rep_scal : forall m N d g c, represents m N d g -> represents m (Rabs c * N) d (fun p => c * g p).
Proof.
  intros m N d g c (T & A & B & D). exists (bscal c T). split; [|split].
  - intros u es Hi. apply in_map_iff in Hi. destruct Hi as ([v ev] & E & Hi). inversion E; subst. now apply (A v).
  - assert (E : bnorm (bscal c T) = Rabs c * bnorm T).
    { clear. induction T as [|a P IH]; [cbn [map bscal]; rewrite ?bnorm_nil; ring|]. unfold bscal. cbn [map]. fold (bscal c P). rewrite !bnorm_cons, IH. cbn [fst]. rewrite Rabs_mult. ring. }
    rewrite E. apply Rmult_le_compat_l; [apply Rabs_pos|trivial].
  - intros p H1 H2. rewrite D by trivial. clear. generalize (esyms p). intros q. induction T as [|a P IH]; [cbn [map bscal]; rewrite ?beval_nil; ring|]. unfold bscal. cbn [map]. fold (bscal c P). rewrite !beval_cons, <- IH. cbn [fst snd]. ring.
Qed.
Lemma bnorm_pos : forall T, 0 <= bnorm T.
Proof. induction T as [|a T IH]; [rewrite bnorm_nil; lra|]. rewrite bnorm_cons. pose proof (Rabs_pos (fst a)). lra. Qed.
Lemma rep_mul : forall m N1 N2 d1 d2 g h, (1 <= m <= 3)%nat -> represents m N1 d1 g -> represents m N2 d2 h -> represents m (N1 * N2) (d1 + d2) (fun p => g p * h p).
Proof.
  intros m N1 N2 d1 d2 g h Hm (T1 & A1 & B1 & D1) (T2 & A2 & B2 & D2). exists (bmul T1 T2). split; [|split].
  - intros c es Hi. unfold bmul in Hi. apply in_flat_map in Hi. destruct Hi as ([u eu] & Hu & Hi). apply in_map_iff in Hi. destruct Hi as ([v ev] & E & Hv).
    inversion E; subst. cbn [fst snd]. destruct (A1 u eu Hu) as [L1 S1]. destruct (A2 v ev Hv) as [L2 S2].
    rewrite zipadd_length, weight_zip by lia. split; lia.
  - rewrite bmul_norm. apply Rmult_le_compat; trivial; apply bnorm_pos.
  - intros p H1 H2. rewrite (wmul_eval m d1 d2), D1, D2 by (trivial; now apply esyms_length). reflexivity.
Qed.

(** *** Power sums *)
Lemma two_pos : forall k, 0 < 2 ^ k.
Proof. intros. apply pow_lt. lra. Qed.
Lemma power_rep : forall m k, (1 <= m <= 3)%nat -> represents m (INR (S m) * 2 ^ k) k (sym [k]).
Proof.
  intros m k Hm. induction k as [k IH] using (well_founded_induction lt_wf).
  assert (c1 : forall N d g, represents m N d g -> represents m N d (fun p => -1 * g p)).
  { intros N d g H. eapply rep_weaken; [apply (rep_scal m N d g (-1) H)| |lia]. rewrite Rabs_left by lra. lra. }
  destruct (Nat.lt_ge_cases k (S m)) as [Hk|Hk].
  - (* small powers *)
    pose proof (rep_const m 1) as R1. rewrite Rabs_R1 in R1. pose proof (rep_const m (INR (S m))) as R0. rewrite Rabs_pos_eq in R0 by apply pos_INR.
    destruct k as [|[|[|[|k]]]].
    + eapply rep_ext; [eapply rep_weaken; [exact R0|cbn [pow]; lra|lia]|]. intros p Hp _.
      destruct m as [|[|[|[|m]]]]; try lia; destruct p as [|x [|y [|z [|t [|u p]]]]]; try discriminate; cbn; ring.
    + eapply rep_ext; [eapply rep_weaken; [exact R1| |lia]|].
      * assert (1 <= INR (S m)) by (rewrite S_INR; pose proof (pos_INR m); lra). cbn [pow]. lra.
      * intros p Hp Hs. rewrite <- Hs. destruct m as [|[|[|[|m]]]]; try lia; destruct p as [|x [|y [|z [|t [|u p]]]]]; try discriminate; cbn; ring.
    + pose proof (rep_esym m 0 Hm ltac:(lia)) as E2. pose proof (rep_scal _ _ _ _ (-2) E2) as E2'. rewrite Rabs_left in E2' by lra.
      pose proof (rep_add _ _ _ _ _ _ (rep_weaken _ _ 1 _ 2 _ R1 ltac:(lra) ltac:(lia)) E2') as A.
      eapply rep_ext; [eapply rep_weaken; [exact A| |lia]|].
      * assert (1 <= INR (S m)) by (rewrite S_INR; pose proof (pos_INR m); lra). cbn [pow]. lra.
      * intros p Hp Hs. replace 1 with (fold_right Rplus 0 p * fold_right Rplus 0 p) by (rewrite Hs; ring).
        destruct m as [|[|[|[|m]]]]; try lia; destruct p as [|x [|y [|z [|t [|u p]]]]]; try discriminate; cbn; ring.
    + pose proof (rep_esym m 0 Hm ltac:(lia)) as E2. pose proof (rep_scal _ _ _ _ (-3) E2) as E2'. rewrite Rabs_left in E2' by lra.
      pose proof (rep_esym m 1 Hm ltac:(lia)) as E3. pose proof (rep_scal _ _ _ _ 3 E3) as E3'. rewrite Rabs_pos_eq in E3' by lra.
      pose proof (rep_add _ _ _ _ _ _ (rep_weaken _ _ 1 _ 3 _ R1 ltac:(lra) ltac:(lia)) (rep_add _ _ _ _ _ _ (rep_weaken _ _ (- (-3) * 1) _ 3 _ E2' ltac:(lra) ltac:(lia)) E3')) as A.
      eapply rep_ext; [eapply rep_weaken; [exact A| |lia]|].
      * assert (1 <= INR (S m)) by (rewrite S_INR; pose proof (pos_INR m); lra). cbn [pow]. lra.
      * intros p Hp Hs. transitivity ((fold_right Rplus 0 p) ^ 3 + (-3 * (nth 0 (esyms p) 0 * fold_right Rplus 0 p) + 3 * nth 1 (esyms p) 0)); [|rewrite Hs; cbn; ring].
        destruct m as [|[|[|[|m]]]]; try lia; destruct p as [|x [|y [|z [|t [|u p]]]]]; try discriminate; cbn; ring.
    + lia.
  - (* the recurrence *)
    assert (Hj : forall j, (j < S m)%nat -> represents m (INR (S m) * 2 ^ (k - S j)) (k - S j) (sym [(k - S j)%nat])) by (intros j Hj; apply IH; lia).
    assert (G : forall i, (i < m)%nat -> represents m (INR (S m) * 2 ^ (k - S (S i))) k (fun p => nth i (esyms p) 0 * sym [(k - S (S i))%nat] p)).
    { intros i Hi. pose proof (rep_mul _ _ _ _ _ _ _ Hm (rep_esym m i Hm Hi) (Hj (S i) ltac:(lia))) as M. eapply rep_weaken; [exact M|lra|lia]. }
    pose proof (rep_weaken _ _ (INR (S m) * 2 ^ (k - 1)) _ k _ (Hj 0%nat ltac:(lia)) ltac:(lra) ltac:(lia)) as A0.
    assert (Pw : forall a, (k = S m + a)%nat -> forall j, (j <= S m)%nat -> 2 ^ (k - j) = 2 ^ (S m - j) * 2 ^ a) by (intros a Ha j Hj'; rewrite <- pow_add; f_equal; lia).
    remember (k - S m)%nat as a eqn:Ea. specialize (Pw a ltac:(lia)). pose proof (two_pos a) as Ta.
    destruct m as [|[|[|[|m]]]]; try lia.
    + eapply rep_ext; [eapply rep_weaken; [exact (rep_add _ _ _ _ _ _ A0 (c1 _ _ _ (G 0%nat ltac:(lia))))| |lia]|].
      * replace k with (k - 0)%nat at 3 by lia. rewrite !Pw by lia. cbn [Nat.sub pow]. change (INR 2) with 2. lra.
      * intros p Hp Hs. replace k with (S (S a)) by lia. cbn [Nat.sub]. destruct p as [|x [|y [|? ?]]]; try discriminate. cbn [fold_right] in Hs.
        replace (S (a - 0)) with (S a) by lia. replace (a - 0)%nat with a by lia. replace y with (1 - x) by lra. cbn. ring.
    + eapply rep_ext; [eapply rep_weaken; [exact (rep_add _ _ _ _ _ _ A0 (rep_add _ _ _ _ _ _ (c1 _ _ _ (G 0%nat ltac:(lia))) (G 1%nat ltac:(lia))))| |lia]|].
      * replace k with (k - 0)%nat at 4 by lia. rewrite !Pw by lia. cbn [Nat.sub pow]. replace (INR 3) with 3 by (cbn; lra). lra.
      * intros p Hp Hs. replace k with (S (S (S a))) by lia. cbn [Nat.sub]. destruct p as [|x [|y [|z [|? ?]]]]; try discriminate. cbn [fold_right] in Hs.
        replace (a - 0)%nat with a by lia. replace z with (1 - x - y) by lra. cbn. ring.
    + eapply rep_ext; [eapply rep_weaken; [exact (rep_add _ _ _ _ _ _ A0 (rep_add _ _ _ _ _ _ (c1 _ _ _ (G 0%nat ltac:(lia))) (rep_add _ _ _ _ _ _ (G 1%nat ltac:(lia)) (c1 _ _ _ (G 2%nat ltac:(lia))))))| |lia]|].
      * replace k with (k - 0)%nat at 5 by lia. rewrite !Pw by lia. cbn [Nat.sub pow]. replace (INR 4) with 4 by (cbn; lra). lra.
      * intros p Hp Hs. replace k with (S (S (S (S a)))) by lia. cbn [Nat.sub]. destruct p as [|x [|y [|z [|t [|? ?]]]]]; try discriminate. cbn [fold_right] in Hs.
        replace (a - 0)%nat with a by lia. replace t with (1 - x - y - z) by lra. cbn. ring.
Qed.

(** *** All sums over permutations *)
Ltac sym_tac := intros p Hp Hm; destruct p as [|x [|y [|z [|t [|u p]]]]]; cbn [length] in Hp, Hm; try lia; cbn [sym picks map fst snd]; unfold lsum; cbn [sym picks map fst snd fold_right]; unfold lsum; cbn [sym picks map fst snd fold_right]; unfold lsum; cbn [sym picks map fst snd fold_right]; rewrite ?pow_add; ring.
Lemma sym2_eq : forall a b p, (2 <= length p)%nat -> (length p <= 4)%nat -> sym [a; b] p = sym [a] p * sym [b] p + -1 * sym [(a + b)%nat] p.
Proof. intros a b. sym_tac. Qed.
Lemma sym3_eq : forall a b c p, (3 <= length p)%nat -> (length p <= 4)%nat ->
  sym [a; b; c] p = sym [a] p * sym [b; c] p + -1 * (sym [(a + b)%nat; c] p + sym [b; (a + c)%nat] p).
Proof. intros a b c. sym_tac. Qed.
Lemma sym4_eq : forall a b c d p, (4 <= length p)%nat -> (length p <= 4)%nat ->
  sym [a; b; c; d] p = sym [a] p * sym [b; c; d] p + -1 * (sym [(a + b)%nat; c; d] p + (sym [b; (a + c)%nat; d] p + sym [b; c; (a + d)%nat] p)).
Proof. intros a b c d. sym_tac. Qed.
Section Rep.
Variable m : nat.
Hypothesis Hm : (1 <= m <= 3)%nat.
Let n := INR (S m).
Lemma rep_neg : forall N d g, represents m N d g -> represents m N d (fun p => -1 * g p).
Proof. intros N d g H. eapply rep_weaken; [apply (rep_scal m N d g (-1) H)| |lia]. rewrite Rabs_left by lra. lra. Qed.
Lemma sym2_rep : forall a b, represents m (n * (n + 1) * 2 ^ (a + b)) (a + b) (sym [a; b]).
Proof.
  intros a b. eapply rep_ext; [|intros p Hp _; apply sym2_eq; lia].
  eapply rep_weaken; [apply rep_add; [apply rep_mul; [exact Hm|apply power_rep; exact Hm|apply power_rep; exact Hm]|apply rep_neg, power_rep; exact Hm]| |lia].
  fold n. rewrite pow_add. right. ring.
Qed.
Lemma sym3_rep : forall a b c, (2 <= m)%nat -> represents m (n * (n + 1) * (n + 2) * 2 ^ (a + b + c)) (a + b + c) (sym [a; b; c]).
Proof.
  intros a b c H2. eapply rep_ext; [|intros p Hp _; apply sym3_eq; lia].
  pose proof (rep_mul _ _ _ _ _ _ _ Hm (power_rep m a Hm) (sym2_rep b c)) as A.
  pose proof (sym2_rep (a + b) c) as B. pose proof (sym2_rep b (a + c)) as D.
  replace (a + (b + c))%nat with (a + b + c)%nat in A by lia. replace (b + (a + c))%nat with (a + b + c)%nat in D by lia.
  eapply rep_weaken; [exact (rep_add _ _ _ _ _ _ A (rep_neg _ _ _ (rep_add _ _ _ _ _ _ B D)))| |lia].
  fold n. rewrite !pow_add. right. ring.
Qed.
Lemma sym4_rep : forall a b c d, (3 <= m)%nat -> represents m (n * (n + 1) * (n + 2) * (n + 3) * 2 ^ (a + b + c + d)) (a + b + c + d) (sym [a; b; c; d]).
Proof.
  intros a b c d H2. eapply rep_ext; [|intros p Hp _; apply sym4_eq; lia].
  pose proof (rep_mul _ _ _ _ _ _ _ Hm (power_rep m a Hm) (sym3_rep b c d ltac:(lia))) as A.
  pose proof (sym3_rep (a + b) c d ltac:(lia)) as B. pose proof (sym3_rep b (a + c) d ltac:(lia)) as D. pose proof (sym3_rep b c (a + d) ltac:(lia)) as E.
  replace (a + (b + c + d))%nat with (a + b + c + d)%nat in A by lia. replace (b + (a + c) + d)%nat with (a + b + c + d)%nat in D by lia. replace (b + c + (a + d))%nat with (a + b + c + d)%nat in E by lia.
  eapply rep_weaken; [exact (rep_add _ _ _ _ _ _ A (rep_neg _ _ _ (rep_add _ _ _ _ _ _ B (rep_add _ _ _ _ _ _ D E))))| |lia].
  fold n. rewrite !pow_add. right. ring.
Qed.
End Rep.
Lemma sym_rep : forall m es, (1 <= m <= 3)%nat -> length es = S m -> represents m (840 * 2 ^ list_sum es) (list_sum es) (sym es).
Proof.
  intros m es Hm Hl. destruct m as [|[|[|[|m]]]]; try lia.
  - destruct es as [|a [|b [|? ?]]]; try discriminate. rewrite !list_sum_cons, list_sum_nil.
    eapply rep_weaken; [apply sym2_rep; lia| |lia]. replace (a + (b + 0))%nat with (a + b)%nat by lia. pose proof (two_pos (a + b)). change (INR 2) with 2. lra.
  - destruct es as [|a [|b [|c [|? ?]]]]; try discriminate. rewrite !list_sum_cons, list_sum_nil.
    eapply rep_weaken; [apply sym3_rep; lia| |lia]. replace (a + (b + (c + 0)))%nat with (a + b + c)%nat by lia. pose proof (two_pos (a + b + c)). replace (INR 3) with 3 by (cbn; lra). lra.
  - destruct es as [|a [|b [|c [|d [|? ?]]]]]; try discriminate. rewrite !list_sum_cons, list_sum_nil.
    eapply rep_weaken; [apply sym4_rep; lia| |lia]. replace (a + (b + (c + (d + 0))))%nat with (a + b + c + d)%nat by lia. pose proof (two_pos (a + b + c + d)). replace (INR 4) with 4 by (cbn; lra). lra.
Qed.

(** *** The expansions of products of elementary symmetric polynomials *)
Definition toR (P : zpoly) : bpoly := map (fun a => (IZR (snd a), fst a)) P.
Definition hom (n d : nat) (P : zpoly) : Prop := forall a c, In (a, c) P -> length a = n /\ list_sum a = d.
Definition elem (n k : nat) (p : list R) : R := lsum (fun v => mono v p) (subsets n k).
Lemma zeval_cons : forall a P p, beval (toR (a :: P)) p = IZR (snd a) * mono (fst a) p + beval (toR P) p.
Proof. reflexivity. Qed.
Lemma zeval_app : forall P Q p, beval (toR (P ++ Q)) p = beval (toR P) p + beval (toR Q) p.
Proof. intros. unfold toR. rewrite map_app. apply beval_app. Qed.
Lemma hom_app : forall n d P Q, hom n d P -> hom n d Q -> hom n d (P ++ Q).
Proof. intros n d P Q A B a c H. apply in_app_or in H. destruct H; eauto. Qed.
Lemma lex_eq : forall a b, lex a b = Eq -> a = b.
Proof. induction a as [|x a IH]; intros [|y b] H; cbn in H; try discriminate; trivial. destruct (Nat.compare x y) eqn:E; try discriminate. apply Nat.compare_eq in E. subst. f_equal. now apply IH. Qed.
Lemma merge_eval : forall n P Q p, beval (toR (merge n P Q)) p = beval (toR P) p + beval (toR Q) p.
Proof.
  induction n as [|n IH]; intros P Q p; [apply zeval_app|]. destruct P as [|a P]; [cbn [merge]; apply zeval_app|]. destruct Q as [|b Q]; [cbn [merge]; apply zeval_app|].
  cbn [merge]. destruct (lex (fst a) (fst b)) eqn:E.
  - apply lex_eq in E. rewrite !zeval_cons, IH. cbn [fst snd]. rewrite <- E, plus_IZR. ring.
  - rewrite (zeval_cons a (merge _ _ _)), IH, (zeval_cons a P). ring.
  - rewrite (zeval_cons b (merge _ _ _)), IH, (zeval_cons b Q). ring.
Qed.
Lemma merge_hom : forall k n d P Q, hom n d P -> hom n d Q -> hom n d (merge k P Q).
Proof.
  induction k as [|k IH]; intros n d P Q HP HQ; [now apply hom_app|]. destruct P as [|a P]; [cbn [merge]; now apply hom_app|]. destruct Q as [|b Q]; [cbn [merge]; now apply hom_app|].
  assert (HP' : hom n d P) by (intros u c Hi; apply (HP u c); now right). assert (HQ' : hom n d Q) by (intros u c Hi; apply (HQ u c); now right).
  cbn [merge]. destruct (lex (fst a) (fst b)); intros u c [E|Hi].
  - apply (f_equal fst) in E. cbn [fst] in E. subst u. destruct a as [a1 a2]. apply (HP a1 a2). now left.
  - now apply (IH n d P Q HP' HQ' u c).
  - subst a. apply (HP u c). now left.
  - now apply (IH n d P (b :: Q) HP' HQ u c).
  - subst b. apply (HQ u c). now left.
  - now apply (IH n d (a :: P) Q HP HQ' u c).
Qed.
Lemma addv_zip : forall a b, addv a b = zipadd a b.
Proof. induction a as [|x a IH]; intros [|y b]; cbn; trivial. now rewrite IH. Qed.
Lemma shift_ok : forall n d v P, length v = n -> hom n d P -> hom n (list_sum v + d) (shift v P) /\
  forall p, length p = n -> beval (toR (shift v P)) p = mono v p * beval (toR P) p.
Proof.
  intros n d v P Hv HP. split.
  - intros a c Hi. unfold shift in Hi. apply in_map_iff in Hi. destruct Hi as ([b e] & E & Hi). inversion E; subst. cbn [fst]. destruct (HP b c Hi) as [L S].
    rewrite addv_zip, zipadd_length, zipadd_sum by lia. split; lia.
  - intros p Hp. induction P as [|[a c] P IH]; [cbn [shift map toR]; rewrite !beval_nil; ring|]. unfold shift. cbn [map fst snd]. fold (shift v P). rewrite !zeval_cons, IH by (intros b e Hi; apply (HP b e); now right). cbn [fst snd].
    destruct (HP a c (or_introl eq_refl)) as [L _]. rewrite addv_zip, zipadd_mono by lia. ring.
Qed.
Lemma subsets_ok : forall n k v, In v (subsets n k) -> length v = n /\ list_sum v = k.
Proof.
  induction n as [|n IH]; intros k v H; cbn [subsets] in H.
  - destruct k; [destruct H as [<-|[]]; split; reflexivity|destruct H].
  - apply in_app_or in H. destruct H as [H|H].
    + apply in_map_iff in H. destruct H as (w & <- & H). apply IH in H. rewrite list_sum_cons. cbn. lia.
    + destruct k; [destruct H|]. apply in_map_iff in H. destruct H as (w & <- & H). apply IH in H. rewrite list_sum_cons. cbn. lia.
Qed.
Lemma times_ok : forall n k d P, hom n d P -> hom n (k + d) (times n k P) /\ forall p, length p = n -> beval (toR (times n k P)) p = elem n k p * beval (toR P) p.
Proof.
  intros n k d P HP. unfold times, elem. pose proof (subsets_ok n k) as S. induction (subsets n k) as [|v l IH].
  - split; [intros a c []|]. intros p _. cbn [fold_right toR map]. rewrite beval_nil, lsum_nil. ring.
  - destruct (IH (fun w Hw => S w (or_intror Hw))) as [A B]. destruct (S v (or_introl eq_refl)) as [L E]. destruct (shift_ok n d v P L HP) as [A1 B1]. rewrite E in A1.
    cbn [fold_right]. cbv zeta. split; [now apply merge_hom|]. intros p Hp. rewrite merge_eval, B, B1, lsum_cons by trivial. ring.
Qed.
Lemma iter_r : forall X (f : X -> X) x P, Nat.iter (S x) f P = Nat.iter x f (f P).
Proof. intros X f. induction x as [|x IH]; intros P; [reflexivity|]. change (Nat.iter (S (S x)) f P) with (f (Nat.iter (S x) f P)). now rewrite IH. Qed.
Lemma ploop_ok : forall rest n k fuel a d P x r Q, (1 <= k)%nat -> (x <= fuel)%nat -> (k * x <= d)%nat ->
  In (r, Q) (rest (d - k * x)%nat (Nat.iter x (times n k) P)) -> In ((a + x)%nat :: r, Q) (ploop rest n k fuel a d P).
Proof.
  intros rest n k. induction fuel as [|fuel IH]; intros a d P x r Q Hk Hf Hd Hi.
  - replace x with O in * by lia. cbn [Nat.iter nat_rect] in Hi. rewrite Nat.mul_0_r, Nat.sub_0_r in Hi. cbn [ploop]. apply in_or_app. left. apply in_map_iff. exists (r, Q). split; [cbn; f_equal; f_equal; lia|trivial].
  - cbn [ploop]. apply in_or_app. destruct x as [|x].
    + left. cbn [Nat.iter nat_rect] in Hi. rewrite Nat.mul_0_r, Nat.sub_0_r in Hi. apply in_map_iff. exists (r, Q). split; [cbn; f_equal; f_equal; lia|trivial].
    + right. destruct (k <=? d)%nat eqn:E; [|apply Nat.leb_gt in E; nia]. replace (a + S x)%nat with (S a + x)%nat by lia. apply IH; trivial; [lia|nia|].
      replace (d - k - k * x)%nat with (d - k * S x)%nat by lia. rewrite iter_r in Hi. exact Hi.
Qed.
Lemma iter_times : forall n k d P x, hom n d P -> hom n (k * x + d) (Nat.iter x (times n k) P) /\ forall p, length p = n -> beval (toR (Nat.iter x (times n k) P)) p = elem n k p ^ x * beval (toR P) p.
Proof.
  intros n k d P x HP. induction x as [|x [A B]].
  - rewrite Nat.mul_0_r. split; [exact HP|]. intros p _. cbn [Nat.iter nat_rect pow]. ring.
  - cbn [Nat.iter nat_rect]. change (nat_rect (fun _ => zpoly) P (fun _ => times n k) x) with (Nat.iter x (times n k) P). destruct (times_ok n k _ _ A) as [A' B']. split.
    + replace (k * S x + d)%nat with (k + (k * x + d))%nat by lia. exact A'.
    + intros p Hp. rewrite B', B by trivial. cbn [pow]. ring.
Qed.
Lemma products_ok : forall n ks a d s P, (forall k, In k ks -> (1 <= k)%nat) -> length a = length ks -> (wdeg ks a <= d)%nat -> hom n s P ->
  exists Q, In (a, Q) (products n ks d P) /\ hom n (wdeg ks a + s) Q /\ forall p, length p = n -> beval (toR Q) p = mono a (map (fun k => elem n k p) ks) * beval (toR P) p.
Proof.
  intros n. induction ks as [|k ks IH]; intros [|x a] d s P Hk Hl Hd HP; try discriminate.
  - exists P. split; [now left|]. split; [exact HP|]. intros p _. cbn [mono map]. ring.
  - cbn [wdeg] in *. destruct (iter_times n k s P x HP) as [A B].
    destruct (IH a (d - k * x)%nat _ _ (fun j Hj => Hk j (or_intror Hj)) ltac:(cbn in Hl; lia) ltac:(lia) A) as (Q & Q1 & Q2 & Q3).
    exists Q. split; [|split].
    + cbn [products]. change x with (0 + x)%nat. assert (1 <= k)%nat by (apply Hk; now left). apply ploop_ok; trivial; nia.
    + replace (k * x + wdeg ks a + s)%nat with (wdeg ks a + (k * x + s))%nat by lia. exact Q2.
    + intros p Hp. rewrite Q3, B by trivial. cbn [map mono]. ring.
Qed.
Lemma elem_esyms : forall m p, (1 <= m <= 3)%nat -> length p = S m -> map (fun k => elem (S m) k p) (degrees m) = esyms p.
Proof.
  intros m p Hm H. destruct m as [|[|[|[|m]]]]; try lia; destruct p as [|x [|y [|z [|t [|u p]]]]]; try discriminate;
  unfold elem; cbn; repeat (apply f_equal2; [ring|]); reflexivity.
Qed.

Lemma dirichlet_ok : forall m d Q, (d <= 21)%nat -> hom (S m) d Q -> bsum (exact m) (toR Q) = IZR (zfact m * dirichlet Q) / IZR (zfact (d + m)).
Proof.
  assert (Zf : forall n, IZR (zfact n) = INR (fact n)).
  { induction n as [|n IH]; [reflexivity|]. rewrite fact_simpl, mult_INR, <- IH. cbn [zfact]. rewrite mult_IZR, <- INR_IZR_INZ. reflexivity. }
  assert (Ff : forall es, (list_sum es <= 21)%nat -> IZR (factsK es) = facts es).
  { induction es as [|e es IH]; intros H; [reflexivity|]. rewrite list_sum_cons in H. cbn [factsK]. unfold facts. cbn [fold_right]. fold (facts es). rewrite mult_IZR, IH by lia. f_equal.
    unfold facttab. rewrite (nth_indep _ 0%Z (zfact 0)) by (rewrite map_length, seq_length; lia). rewrite map_nth, seq_nth by lia. apply Zf. }
  intros m d Q Hd HQ. rewrite mult_IZR, !Zf. induction Q as [|[a c] Q IH].
  - cbn. unfold Rdiv. ring.
  - unfold toR. cbn [map]. fold (toR Q). rewrite bsum_cons. cbn [fst snd]. rewrite IH by (intros b e Hi; apply (HQ b e); now right).
    unfold dirichlet. cbn [fold_right fst snd]. fold (dirichlet Q). rewrite plus_IZR, mult_IZR. destruct (HQ a c (or_introl eq_refl)) as [_ S].
    rewrite Ff by lia. unfold exact. rewrite S. field. apply fact_neq.
Qed.
(** The mean values *)
Definition emean (s : shape) (a : list nat) : R := mean s (fun p => mono a (esyms p)).
Lemma toR_lengths : forall n d Q c es, hom n d Q -> In (c, es) (toR Q) -> length es = n.
Proof. intros n d Q c es H Hi. unfold toR in Hi. apply in_map_iff in Hi. destruct Hi as ([a z] & E & Hi). inversion E; subst. now apply (H es z). Qed.
Lemma products_mean : forall s o a, length a = dim s -> (weight a <= o)%nat ->
  exists Q, In (a, Q) (products (S (dim s)) (degrees (dim s)) o [(repeat O (S (dim s)), 1%Z)]) /\ hom (S (dim s)) (weight a) Q /\
  forall p, length p = S (dim s) -> beval (toR Q) p = mono a (esyms p).
Proof.
  intros s o a Hl Hw. set (m := dim s) in *. assert (Hm : (1 <= m <= 3)%nat) by (subst m; destruct s; cbn; lia).
  destruct (products_ok (S m) (degrees m) a o 0 [(repeat O (S m), 1%Z)]) as (Q & Q1 & Q2 & Q3).
  - intros k Hk. unfold degrees in Hk. apply in_seq in Hk. lia.
  - unfold degrees. rewrite seq_length. lia.
  - unfold weight in Hw. rewrite Hl in Hw. exact Hw.
  - intros b c [E|[]]. apply (f_equal fst) in E. cbn [fst] in E. subst b. rewrite repeat_length, sum_zero. split; reflexivity.
  - exists Q. split; [exact Q1|]. split; [unfold weight; rewrite Hl, <- (Nat.add_0_r (wdeg (degrees m) a)); exact Q2|].
    intros p Hp. rewrite Q3, elem_esyms by trivial. rewrite zeval_cons. cbn [fst snd]. rewrite mono_zero. cbn. ring.
Qed.
Lemma means_ok : forall s o a, (o <= 21)%nat -> length a = dim s -> (weight a <= o)%nat -> exists N, In (a, N) (means (dim s) o) /\
  emean s a = IZR (zfact (dim s) * N) / IZR (zfact (weight a + dim s)).
Proof.
  intros s o a Ho Hl Hw. destruct (products_mean s o a Hl Hw) as (Q & Q1 & Q2 & Q3). exists (dirichlet Q). split.
  - unfold means. apply in_map_iff. exists (a, Q). split; trivial.
  - rewrite <- dirichlet_ok by (trivial; lia). unfold emean. rewrite (mean_ext s _ (beval (toR Q))) by (intros; symmetry; now apply Q3).
    apply mean_closed. intros c es Hi. now apply (toR_lengths _ _ Q c es Q2).
Qed.
(** The mean value of a monomial from the mean values of the products of elementary symmetric polynomials *)
Lemma bsum_app : forall f P Q, bsum f (P ++ Q) = bsum f P + bsum f Q.
Proof. intros f P Q. induction P as [|a P IH]; [cbn [app]; unfold bsum at 2; cbn [fold_right]; ring|]. cbn [app]. rewrite !bsum_cons, IH. ring. Qed.
Lemma bsum_bscal : forall f c P, bsum f (bscal c P) = c * bsum f P.
Proof. intros f c P. induction P as [|a P IH]; [unfold bsum; cbn; ring|]. unfold bscal. cbn [map]. fold (bscal c P). rewrite !bsum_cons, IH. cbn [fst snd]. ring. Qed.
Lemma beval_bscal : forall c P p, beval (bscal c P) p = c * beval P p.
Proof. intros c P p. rewrite !beval_bsum. apply bsum_bscal. Qed.
Lemma emean_poly : forall s d T, wdegree (dim s) d T -> mean s (fun p => beval T (esyms p)) = bsum (emean s) T.
Proof.
  intros s d T HT.
  assert (G : exists Q, (forall c es, In (c, es) Q -> length es = S (dim s)) /\ (forall p, length p = S (dim s) -> beval Q p = beval T (esyms p)) /\ bsum (exact (dim s)) Q = bsum (emean s) T).
  { induction T as [|[c a] T IH].
    - exists []. split; [intros c es []|]. split; [intros; reflexivity|reflexivity].
    - destruct (IH (fun x b Hi => HT x b (or_intror Hi))) as (Q & A & B & D). destruct (HT c a (or_introl eq_refl)) as [L W].
      destruct (products_mean s d a L W) as (E & _ & E2 & E3). exists (bscal c (toR E) ++ Q). split; [|split].
      + intros x es Hi. apply in_app_or in Hi. destruct Hi as [Hi|Hi]; [|now apply (A x)]. unfold bscal in Hi. apply in_map_iff in Hi. destruct Hi as ([u b] & Eq & Hi). inversion Eq; subst. now apply (toR_lengths _ _ E u es E2).
      + intros p Hp. rewrite beval_app, beval_bscal, beval_cons, B, E3 by trivial. reflexivity.
      + rewrite bsum_app, bsum_bscal, bsum_cons, D. cbn [fst snd]. f_equal. f_equal. unfold emean.
        rewrite (mean_ext s _ (beval (toR E))) by (intros; symmetry; now apply E3). symmetry. apply mean_closed. intros x es Hi. now apply (toR_lengths _ _ E x es E2). }
  destruct G as (Q & A & B & D). rewrite <- D, <- mean_closed by trivial. apply mean_ext. intros l Hl _. symmetry. now apply B.
Qed.
Lemma exact_emean : forall s es T, length es = S (dim s) -> (forall l l', Permutation l l' -> exact (dim s) l = exact (dim s) l') -> wdegree (dim s) (list_sum es) T ->
  (forall p, length p = S (dim s) -> fold_right Rplus 0 p = 1 -> sym es p = beval T (esyms p)) -> INR (fact (S (dim s))) * exact (dim s) es = bsum (emean s) T.
Proof.
  intros s es T Hl HP HT HE. rewrite <- (emean_poly s _ T HT). rewrite <- (mean_ext s (sym es)) by trivial.
  set (P := map (fun q => (1, q)) (perms es)).
  assert (EP : forall f, bsum f P = lsum f (perms es)).
  { intros f. subst P. induction (perms es) as [|q l IH]; [reflexivity|]. cbn [map]. rewrite bsum_cons, IH, lsum_cons. cbn. ring. }
  rewrite (mean_ext s (sym es) (beval P)).
  - rewrite mean_closed.
    + rewrite EP. rewrite (lsum_ext _ (exact (dim s)) (fun _ => exact (dim s) es)) by (intros q Hq; apply HP, perms_in, Hq). rewrite lsum_const, perms_count, Hl. reflexivity.
    + intros c q Hi. subst P. apply in_map_iff in Hi. destruct Hi as (q' & E & Hi). inversion E; subst. rewrite <- Hl. apply Permutation_length, perms_in, Hi.
  - intros p Hp _. rewrite beval_bsum, EP. apply sym_perms. lia.
Qed.
