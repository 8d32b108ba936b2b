(** Proofs about storage tags, evaluation points and the printed status *)
From Coq Require Import ZArith Reals List Bool Lia Lra Permutation String.
From Verif Require Import Prelude DofModel DofSpec DofProofs SymModel OrdModel EnumModel EnumSpec EnumProofs EnumProofs2 EnumProps RSum BasModel BasSpec QuadModel QuadSpec KinModel UtModel UtSpec.
Import ListNotations.
Open Scope nat_scope.

Lemma geom_mask_ok : forall d t, wf d -> t < 6 -> geom_mask d t = (0 <? num_dof d t).
Proof.
  fix IH 1. intros d t Hw Ht. destruct d as [nd sy|k b|l].
  - pose proof (num_dof_tet_t_cnt (Unite nd sy) t Hw Ht) as E. pose proof (num_dof_cnt (Unite nd sy) t Hw Ht) as E2. cbn [geom_mask]. cbn [num_dof_tet_t] in E. rewrite E, E2.
    assert (P : 0 < tet_elems t) by (destruct t as [|[|[|[|[|[|t]]]]]]; cbn; lia).
    destruct (Nat.ltb_spec 0 (cnt (Unite nd sy) t)); destruct (Nat.eqb_spec (tet_elems t * cnt (Unite nd sy) t) 0); trivial; nia.
  - cbn [geom_mask num_dof]. destruct (Nat.eqb_spec k 0) as [->|]; [reflexivity|]. rewrite (IH b t Hw Ht).
    destruct (Nat.ltb_spec 0 (num_dof b t)), (Nat.ltb_spec 0 (k * num_dof b t)); trivial; nia.
  - reflexivity.
Qed.
Lemma elem_mask_ok : forall d k, wf d -> k < 4 -> elem_mask d k = (0 <? nth k (elem_ndofs d) 0).
Proof.
  intros d k Hw Hk. assert (O : forall a b, ((0 <? a) || (0 <? b)) = (0 <? a + b)) by (intros [|a] [|b]; reflexivity).
  destruct k as [|[|[|[|k]]]]; try lia; cbn [elem_mask elem_ndofs nth]; rewrite ?geom_mask_ok by (trivial; lia); rewrite ?O; reflexivity.
Qed.
Lemma ndofs_nd : forall l k, nth k (elem_ndofs (Complex l)) 0 = i_nd l k.
Proof. intros l [|[|[|[|k]]]]; try reflexivity. unfold elem_ndofs, i_nd. cbn [nth]. now destruct k. Qed.
Lemma common_ok : forall l sz s, common_size sz l = Some s -> (sz = 0 \/ sz = s) /\ forall n, In n l -> n = 0 \/ n = s.
Proof.
  induction l as [|n l IH]; intros sz s H; cbn [common_size] in H.
  - inversion H. split; [auto|intros n []].
  - destruct (Nat.eqb_spec n 0) as [->|Hn].
    + destruct (IH _ _ H) as [A B]. split; [exact A|]. intros m [<-|Hm]; auto.
    + destruct (Nat.eqb_spec sz 0) as [->|Hz].
      * destruct (IH _ _ H) as [A B]. destruct A as [A|A]; [lia|]. subst n. split; [auto|]. intros m [<-|Hm]; auto.
      * destruct (Nat.eqb_spec sz n) as [->|]; [|discriminate]. destruct (IH _ _ H) as [A B]. split; [exact A|]. intros m [<-|Hm]; auto.
Qed.
Lemma max_list : forall l a, (a <= fold_left Nat.max l a /\ forall n, In n l -> n <= fold_left Nat.max l a) /\ (fold_left Nat.max l a = a \/ In (fold_left Nat.max l a) l).
Proof.
  induction l as [|n l IH]; intros a; cbn [fold_left].
  - split; [split; [lia|intros n []]|now left].
  - destruct (IH (Nat.max a n)) as [[A B] C]. split; [split; [lia|]|].
    + intros m [<-|Hm]; [lia|now apply B].
    + destruct C as [-> |C]; [|right; now right]. destruct (Nat.max_spec a n) as [[_ ->]|[_ ->]]; [right; now left|now left].
Qed.
Lemma tag_false : forall d k, wf d -> k < 4 -> create_tag false d k = if nth k (elem_ndofs d) 0 =? 0 then None else Some (nth k (elem_ndofs d) 0).
Proof.
  intros d k Hw Hk. unfold create_tag. rewrite elem_mask_ok by assumption. destruct (Nat.eqb_spec (nth k (elem_ndofs d) 0) 0) as [E|E].
  - rewrite E. reflexivity.
  - destruct (Nat.ltb_spec 0 (nth k (elem_ndofs d) 0)); [|lia]. unfold tag_size. cbn [elem_ndofs]. fold (elem_ndofs d).
    destruct (common_size _ _) as [s|] eqn:C; [|now apply nth_error_nth'].
    apply common_ok in C. destruct C as [A B]. f_equal. assert (G : forall n, In n (elem_ndofs d) -> n = 0 \/ n = s) by (intros n [<-|Hn]; auto).
    destruct (G (nth k (elem_ndofs d) 0)); [now apply nth_In| |]; congruence.
Qed.
Lemma tag_true : forall d k, wf d -> k < 4 -> create_tag true d k = if nth k (elem_ndofs d) 0 =? 0 then None else Some (fold_left Nat.max (elem_ndofs d) 0).
Proof.
  intros d k Hw Hk. unfold create_tag. rewrite elem_mask_ok by assumption. destruct (Nat.eqb_spec (nth k (elem_ndofs d) 0) 0) as [E|E]; [now rewrite E|].
  destruct (Nat.ltb_spec 0 (nth k (elem_ndofs d) 0)); [reflexivity|lia].
Qed.
Lemma tag_room : forall fixed d k, wf d -> k < 4 -> 0 < nth k (elem_ndofs d) 0 -> exists s, create_tag fixed d k = Some s /\ nth k (elem_ndofs d) 0 <= s.
Proof.
  intros fixed d k Hw Hk Hp. destruct fixed; [rewrite tag_true|rewrite tag_false]; trivial; destruct (Nat.eqb_spec (nth k (elem_ndofs d) 0) 0); try lia; eexists; split; try reflexivity; try lia.
  apply (max_list (elem_ndofs d) 0). now apply nth_In.
Qed.

(** *** Digits *)
Lemma digits_step : forall fuel n, n <= fuel -> digits_fuel fuel n = if n <? 10 then [n] else digits_fuel (fuel - 1) (n / 10) ++ [n mod 10].
Proof. intros [|fuel] n H; cbn [digits_fuel]; [|now rewrite Nat.sub_1_r]. assert (n = 0) as -> by lia. reflexivity. Qed.
Lemma div10 : forall n fuel, 10 <= n -> n <= fuel -> n / 10 <= fuel - 1.
Proof. intros n fuel H1 H2. assert (n / 10 < n) by (apply Nat.div_lt; lia). lia. Qed.
Lemma value_snoc : forall l d, value (l ++ [d]) = 10 * value l + d.
Proof. intros. unfold value. now rewrite fold_left_app. Qed.
Lemma digits_value : forall fuel n, n <= fuel -> value (digits_fuel fuel n) = n /\ forall d, In d (digits_fuel fuel n) -> d < 10.
Proof.
  induction fuel as [|fuel IH]; intros n H; rewrite digits_step by assumption.
  - assert (n = 0) as -> by lia. split; [reflexivity|]. intros d [<-|[]]. lia.
  - destruct (Nat.ltb_spec n 10) as [L|L]; [split; [unfold value; cbn; lia|intros d [<-|[]]; lia]|]. rewrite Nat.sub_succ, Nat.sub_0_r.
    pose proof (div10 n (S fuel) L H) as D. rewrite Nat.sub_succ, Nat.sub_0_r in D. destruct (IH _ D) as [V B]. rewrite value_snoc, V. split.
    + symmetry. apply Nat.div_mod_eq.
    + intros d Hd. apply in_app_or in Hd. destruct Hd as [Hd|[<-|[]]]; [now apply B|]. apply Nat.mod_upper_bound. lia.
Qed.
Lemma digits_length : forall k fuel n, n <= fuel -> (length (digits_fuel fuel n) <= S k <-> n < 10 * 10 ^ k).
Proof.
  induction k as [|k IH]; intros fuel n H; rewrite digits_step by assumption; destruct (Nat.ltb_spec n 10) as [L|L].
  - cbn [length Nat.pow]. lia.
  - rewrite app_length. cbn [length Nat.pow]. pose proof (div10 n fuel L H) as D. rewrite (digits_step _ _ D). destruct (n / 10 <? 10); [cbn [length]; lia|rewrite app_length; cbn [length]; lia].
  - cbn [length]. pose proof (Nat.pow_nonzero 10 (S k)). nia.
  - rewrite app_length. cbn [length]. pose proof (IH _ _ (div10 n fuel L H)) as E. rewrite Nat.pow_succ_r'. split; intros G.
    + assert (n / 10 < 10 * 10 ^ k) by (apply E; lia). pose proof (Nat.div_mod_eq n 10). pose proof (Nat.mod_upper_bound n 10). lia.
    + assert (n / 10 < 10 * 10 ^ k) by (apply Nat.div_lt_upper_bound; lia). apply E in H0. lia.
Qed.
Lemma status_long : forall s, 4 <= length s ->
  for_ (length s) (fun i out => do p <- sub_chk (3 + i) (length s); do d <- rd s i; wr out p (Digit d)) (repeat Blank 4) = None.
Proof.
  intros s H. destruct (length s) as [|n] eqn:E; [lia|]. unfold for_. cbn [for_range]. unfold sub_chk.
  destruct (Nat.leb_spec (S n) (3 + 0)); [lia|]. reflexivity.
Qed.
Lemma status_short : forall s, 1 <= length s <= 3 ->
  for_ (length s) (fun i out => do p <- sub_chk (3 + i) (length s); do d <- rd s i; wr out p (Digit d)) (repeat Blank 4) =
  Some (repeat Blank (3 - length s) ++ map Digit s ++ [Blank]).
Proof. intros s H. destruct s as [|a [|b [|c [|d s]]]]; cbn in H; try lia; reflexivity. Qed.

(** *** Evaluation points *)
Open Scope R_scope.
Lemma det_equal : forall c0 c1 c2 c3 : nat -> R, (forall j, (j < 3)%nat -> c2 j = c3 j) -> tet_det c0 c1 c2 c3 = 0.
Proof. intros c0 c1 c2 c3 H. unfold tet_det. cbv zeta. rewrite !H by lia. ring. Qed.
