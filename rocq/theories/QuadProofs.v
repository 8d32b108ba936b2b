(** Mean values of monomials over a simplex *)
From Coq Require Import ZArith Reals List Lia Lra Permutation.
From Coquelicot Require Import Coquelicot.
From Verif Require Import Prelude RSum BasModel BasSpec QuadModel QuadRules QuadSpec.
Import ListNotations.
Open Scope R_scope.

Lemma fact_pos : forall n, 0 < INR (fact n).
Proof. intros. apply lt_0_INR, lt_O_fact. Qed.
Lemma fact_neq : forall n, INR (fact n) <> 0.
Proof. intros. apply Rgt_not_eq, fact_pos. Qed.

Lemma beta_int : forall L b a, is_RInt (fun x => x ^ a * (L - x) ^ b) 0 L (INR (fact a) * INR (fact b) / INR (fact (a + b + 1)) * L ^ (a + b + 1)).
Proof.
  intros L; induction b as [|b IH]; intros a.
  - assert (E : INR (fact a) * INR (fact 0) / INR (fact (a + 0 + 1)) * L ^ (a + 0 + 1) = L ^ S a / INR (S a) - 0 ^ S a / INR (S a)).
    { replace (a + 0 + 1)%nat with (S a) by lia. rewrite fact_simpl, mult_INR. rewrite (pow_i (S a)) by lia.
      change (INR (fact 0)) with 1. field. split; [apply not_0_INR; lia|apply fact_neq]. }
    rewrite E.
    apply (is_RInt_derive (fun x => x ^ S a / INR (S a)) (fun x => x ^ a * (L - x) ^ 0)).
    + intros x _. auto_derive; [trivial|]. cbn [pow pred]. change (match a with 0%nat => 1 | S _ => INR a + 1 end) with (INR (S a)). field. apply not_0_INR; lia.
    + intros x _. apply (ex_derive_continuous (fun x => x ^ a * (L - x) ^ 0)). auto_derive; trivial.
  - assert (E : INR (fact a) * INR (fact (S b)) / INR (fact (a + S b + 1)) * L ^ (a + S b + 1) =
       (L ^ S a * (L - L) ^ S b / INR (S a) - 0 ^ S a * (L - 0) ^ S b / INR (S a))
       + INR (S b) / INR (S a) * (INR (fact (S a)) * INR (fact b) / INR (fact (S a + b + 1)) * L ^ (S a + b + 1))).
    { replace (S a + b + 1)%nat with (a + S b + 1)%nat by lia. rewrite (Rminus_diag_eq L L) by reflexivity. rewrite (pow_i (S a)), (pow_i (S b)) by lia.
      rewrite (fact_simpl a), (fact_simpl b), !mult_INR.
      field. split; [apply fact_neq|apply not_0_INR; lia]. }
    rewrite E.
    eapply is_RInt_ext; [|apply (is_RInt_plus (V := R_NormedModule));
      [apply (is_RInt_derive (fun x => x ^ S a * (L - x) ^ S b / INR (S a)) (fun x => x ^ a * (L - x) ^ S b - INR (S b) / INR (S a) * (x ^ S a * (L - x) ^ b)))
      |apply (is_RInt_scal (V := R_NormedModule) (fun x => x ^ S a * (L - x) ^ b) 0 L (INR (S b) / INR (S a)) _ (IH (S a)))]].
    + intros x _. match goal with |- ?l = ?r => change (x ^ a * (L - x) ^ S b - INR (S b) / INR (S a) * (x ^ S a * (L - x) ^ b) + INR (S b) / INR (S a) * (x ^ S a * (L - x) ^ b) = r) end. ring.
    + intros x _. auto_derive; [trivial|]. cbn [pow pred]. change (match a with 0%nat => 1 | S _ => INR a + 1 end) with (INR (S a)). change (match b with 0%nat => 1 | S _ => INR b + 1 end) with (INR (S b)). change (L + - x) with (L - x). set (u := L - x). field. apply not_0_INR; lia.
    + intros x _. apply (ex_derive_continuous (fun x => x ^ a * (L - x) ^ S b - INR (S b) / INR (S a) * (x ^ S a * (L - x) ^ b))). auto_derive; trivial.
Qed.

(** Integration over the last coordinate *)
Fixpoint red (es : list nat) : R * list nat :=
  match es with
  | [] => (1, [])
  | a :: r => match r with
              | [b] => (INR (fact a) * INR (fact b) / INR (fact (a + b + 1)), [a + b + 1]%nat)
              | _ => let (c, r') := red r in (c, a :: r')
              end
  end.
Definition redp (P : bpoly) : bpoly := map (fun ce => (fst ce * fst (red (snd ce)), snd (red (snd ce)))) P.

Lemma red_mono : forall pre es L, length es = (length pre + 2)%nat ->
  is_RInt (fun y => mono es (pre ++ [y; L - y])) 0 L (fst (red es) * mono (snd (red es)) (pre ++ [L])).
Proof.
  induction pre as [|x pre IH]; intros es L H.
  - destruct es as [|a [|b [|? ?]]]; try discriminate. cbn [app red fst snd].
    cbn [mono]. rewrite Rmult_1_r. apply (is_RInt_ext (fun x => x ^ a * (L - x) ^ b)); [|apply beta_int].
    intros y _. cbn [mono]. change (y ^ a * (L - y) ^ b = y ^ a * ((L - y) ^ b * 1)). ring.
  - destruct es as [|a r]; [discriminate|]. cbn [length] in H.
    assert (Hr : red (a :: r) = (fst (red r), a :: snd (red r))).
    { destruct r as [|b [|c r]]; cbn in H; try lia. cbn [red]. destruct (match r with [] => _ | _ => _ end) as [c' r'] eqn:E; reflexivity. }
    rewrite Hr. cbn [fst snd app mono].
    specialize (IH r L ltac:(lia)).
    replace (fst (red r) * (x ^ a * mono (snd (red r)) (pre ++ [L]))) with (x ^ a * (fst (red r) * mono (snd (red r)) (pre ++ [L]))) by ring.
    exact (is_RInt_scal (V := R_NormedModule) _ _ _ _ _ IH).
Qed.

Lemma beval_cons : forall ce P p, beval (ce :: P) p = fst ce * mono (snd ce) p + beval P p.
Proof. reflexivity. Qed.

Lemma redp_int : forall P pre L, (forall c es, In (c, es) P -> length es = (length pre + 2)%nat) ->
  is_RInt (fun y => beval P (pre ++ [y; L - y])) 0 L (beval (redp P) (pre ++ [L])).
Proof.
  induction P as [|[c es] P IH]; intros pre L H.
  - cbn. pose proof (is_RInt_const (V := R_NormedModule) 0 L 0) as E. change (is_RInt (fun _ => 0) 0 L ((L - 0) * 0)) in E. now rewrite Rmult_0_r in E.
  - replace (beval (redp ((c, es) :: P)) (pre ++ [L])) with (c * (fst (red es) * mono (snd (red es)) (pre ++ [L])) + beval (redp P) (pre ++ [L]))
      by (unfold redp; cbn [map]; rewrite beval_cons; cbn [fst snd]; ring).
    eapply is_RInt_ext; [|apply (is_RInt_plus (V := R_NormedModule) (fun y => c * mono es (pre ++ [y; L - y])) (fun y => beval P (pre ++ [y; L - y])) 0 L
      (c * (fst (red es) * mono (snd (red es)) (pre ++ [L]))) (beval (redp P) (pre ++ [L])))].
    + intros y _. reflexivity.
    + apply (is_RInt_scal (V := R_NormedModule) (fun y => mono es (pre ++ [y; L - y]))). apply red_mono. apply (H c). now left.
    + apply IH. intros. apply (H c0). now right.
Qed.

(** The closed form of the mean value *)
Definition facts (es : list nat) : R := fold_right (fun e s => INR (fact e) * s) 1 es.
Definition exact (m : nat) (es : list nat) : R := INR (fact m) * facts es / INR (fact (list_sum es + m)).
Definition bsum (f : list nat -> R) (P : bpoly) : R := fold_right (fun ce s => fst ce * f (snd ce) + s) 0 P.

Lemma beval_bsum : forall P p, beval P p = bsum (fun es => mono es p) P.
Proof. reflexivity. Qed.
Lemma bsum_cons : forall f ce P, bsum f (ce :: P) = fst ce * f (snd ce) + bsum f P.
Proof. reflexivity. Qed.
Lemma bsum_redp : forall f P, bsum f (redp P) = bsum (fun es => fst (red es) * f (snd (red es))) P.
Proof. intros f; induction P as [|[c es] P IH]; [reflexivity|]. unfold redp. cbn [map]. rewrite !bsum_cons. fold (redp P). rewrite IH. cbn [fst snd]. ring. Qed.
Lemma bsum_ext : forall f g P, (forall c es, In (c, es) P -> f es = g es) -> bsum f P = bsum g P.
Proof. intros f g; induction P as [|[c es] P IH]; intros H; [reflexivity|]. rewrite !bsum_cons. cbn [fst snd]. rewrite (H c es) by now left. f_equal. apply IH. intros. apply (H c0). now right. Qed.
Lemma bsum_scal : forall k f P, k * bsum f P = bsum (fun es => k * f es) P.
Proof. intros k f; induction P as [|[c es] P IH]; [cbn; ring|]. rewrite !bsum_cons, <- IH. cbn [fst snd]. ring. Qed.

Lemma red_length : forall es n, length es = S (S n) -> length (snd (red es)) = S n.
Proof.
  induction es as [|a r IH]; intros n H; [discriminate|].
  destruct r as [|b [|c r]]; cbn in H; try lia.
  - cbn. lia.
  - destruct n as [|n]; [cbn in H; lia|].
    change (red (a :: b :: c :: r)) with (let (c', r') := red (b :: c :: r) in (c', a :: r')).
    specialize (IH n ltac:(cbn; lia)). destruct (red (b :: c :: r)) as [c' r']. cbn in *. lia.
Qed.
Lemma redp_length : forall P n, (forall c es, In (c, es) P -> length es = S (S n)) -> forall c es, In (c, es) (redp P) -> length es = S n.
Proof.
  intros P n H c es Hi. unfold redp in Hi. apply in_map_iff in Hi. destruct Hi as ([c0 es0] & E & Hi). inversion E; subst.
  apply red_length. now apply (H c0).
Qed.

Lemma mean_closed : forall s P, (forall c es, In (c, es) P -> length es = S (dim s)) -> mean s (beval P) = bsum (exact (dim s)) P.
Proof.
  intros s P H. destruct s; cbn [dim mean] in *.
  - assert (E : RInt (fun x => beval P [x; 1 - x]) 0 1 = beval (redp P) [1]) by (apply is_RInt_unique; exact (redp_int P [] 1 H)).
    etransitivity; [exact E|]. rewrite beval_bsum, bsum_redp. apply bsum_ext. intros c es Hi. pose proof (H _ _ Hi) as Hl.
    destruct es as [|e0 [|e1 [|? ?]]]; try discriminate. cbn [red fst snd mono]. unfold exact, facts. cbn [fold_right]. rewrite !list_sum_cons, list_sum_nil, pow1.
    replace (e0 + (e1 + 0) + 1)%nat with (e0 + e1 + 1)%nat by lia. change (INR (fact 1)) with 1. field. apply fact_neq.
  - pose proof (redp_length P 1 H) as H1.
    assert (E : RInt (fun x => RInt (fun y => beval P [x; y; 1 - x - y]) 0 (1 - x)) 0 1 = beval (redp (redp P)) [1]).
    { rewrite (RInt_ext _ (fun x => beval (redp P) [x; 1 - x])).
      - apply is_RInt_unique. exact (redp_int (redp P) [] 1 H1).
      - intros x _. apply is_RInt_unique. exact (redp_int P [x] (1 - x) H). }
    rewrite E, beval_bsum, bsum_redp, bsum_redp, bsum_scal. apply bsum_ext. intros c es Hi. pose proof (H _ _ Hi) as Hl.
    destruct es as [|e0 [|e1 [|e2 [|? ?]]]]; try discriminate. cbn [red fst snd mono]. unfold exact, facts. cbn [fold_right]. rewrite !list_sum_cons, list_sum_nil, pow1.
    replace (e0 + (e1 + (e2 + 0)) + 2)%nat with (e0 + (e1 + e2 + 1) + 1)%nat by lia. change (INR (fact 2)) with 2. field. split; apply fact_neq.
  - pose proof (redp_length P 2 H) as H1. pose proof (redp_length _ 1 H1) as H2.
    assert (E : RInt (fun x => RInt (fun y => RInt (fun z => beval P [x; y; z; 1 - x - y - z]) 0 (1 - x - y)) 0 (1 - x)) 0 1 = beval (redp (redp (redp P))) [1]).
    { rewrite (RInt_ext _ (fun x => beval (redp (redp P)) [x; 1 - x])).
      - apply is_RInt_unique. exact (redp_int (redp (redp P)) [] 1 H2).
      - intros x _. rewrite (RInt_ext _ (fun y => beval (redp P) [x; y; 1 - x - y])).
        + apply is_RInt_unique. exact (redp_int (redp P) [x] (1 - x) H1).
        + intros y _. apply is_RInt_unique. exact (redp_int P [x; y] (1 - x - y) H). }
    rewrite E, beval_bsum, bsum_redp, bsum_redp, bsum_redp, bsum_scal. apply bsum_ext. intros c es Hi. pose proof (H _ _ Hi) as Hl.
    destruct es as [|e0 [|e1 [|e2 [|e3 [|? ?]]]]]; try discriminate. cbn [red fst snd mono]. unfold exact, facts. cbn [fold_right]. rewrite !list_sum_cons, list_sum_nil, pow1.
    replace (e0 + (e1 + (e2 + (e3 + 0))) + 3)%nat with (e0 + (e1 + (e2 + e3 + 1) + 1) + 1)%nat by lia.
    replace (INR (fact 3)) with 6 by (cbn; ring). field. repeat split; apply fact_neq.
Qed.

(** Increasing one exponent *)
Fixpoint bump (i : nat) (es : list nat) : list nat :=
  match i, es with O, e :: r => S e :: r | S i, e :: r => e :: bump i r | _, [] => [] end.
Lemma bump_length : forall es i, length (bump i es) = length es.
Proof. induction es as [|e r IH]; intros [|i]; cbn; auto. Qed.
Lemma bump_sum : forall es i, (i < length es)%nat -> list_sum (bump i es) = S (list_sum es).
Proof. induction es as [|e r IH]; intros [|i] H; cbn [length] in H; try lia; cbn [bump]; rewrite ?list_sum_cons; [lia|]. rewrite IH by lia. lia. Qed.
Lemma bump_mono : forall es i p, (i < length es)%nat -> length p = length es -> mono (bump i es) p = nth i p 0 * mono es p.
Proof.
  induction es as [|e r IH]; intros [|i] [|x p] H Hp; cbn [length] in *; try lia; cbn [bump mono nth pow].
  - ring.
  - rewrite IH by lia. ring.
Qed.
Lemma bump_facts : forall es i, (i < length es)%nat -> facts (bump i es) = INR (S (nth i es 0%nat)) * facts es.
Proof.
  induction es as [|e r IH]; intros [|i] H; cbn [length] in H; try lia; cbn [bump facts fold_right nth].
  - fold (facts r). rewrite fact_simpl, mult_INR. ring.
  - fold (facts r). fold (facts (bump i r)). rewrite IH by lia. ring.
Qed.
Lemma mono_split : forall es p, length p = length es -> Rsum (length es) (fun i => nth i p 0) = 1 ->
  mono es p = Rsum (length es) (fun i => mono (bump i es) p).
Proof.
  intros es p Hl H1. rewrite (Rsum_ext _ (fun i => mono (bump i es) p) (fun i => nth i p 0 * mono es p)).
  - rewrite Rsum_scal_r, H1. ring.
  - intros i Hi. now apply bump_mono.
Qed.
Lemma Rsum_list : forall es, Rsum (length es) (fun i => INR (nth i es 0%nat)) = INR (list_sum es).
Proof.
  intros es. assert (G : forall n, (n <= length es)%nat -> Rsum n (fun i => INR (nth i es 0%nat)) = INR (list_sum (firstn n es))).
  { induction n as [|n IH]; intros H; [reflexivity|]. rewrite Rsum_S, IH by lia. rewrite (list_sum_firstn_S es n) by lia. rewrite plus_INR. reflexivity. }
  rewrite G by lia. now rewrite firstn_all.
Qed.
Lemma exact_split : forall m es, length es = S m -> exact m es = Rsum (S m) (fun i => exact m (bump i es)).
Proof.
  intros m es H.
  rewrite (Rsum_ext _ (fun i => exact m (bump i es)) (fun i => (INR (nth i es 0%nat) + 1) * (exact m es / INR (S (list_sum es + m))))).
  - rewrite Rsum_scal_r. replace (Rsum (S m) (fun i => INR (nth i es 0%nat) + 1)) with (INR (S (list_sum es + m))).
    + field. apply not_0_INR. lia.
    + rewrite Rsum_plus. replace (Rsum (S m) (fun i => INR (nth i es 0%nat))) with (INR (list_sum es)) by (rewrite <- H; symmetry; apply Rsum_list). replace (Rsum (S m) (fun _ => 1)) with (INR (S m)).
      * rewrite <- plus_INR. f_equal. lia.
      * clear. induction (S m) as [|k IH]; [reflexivity|]. rewrite Rsum_S, <- IH, S_INR. reflexivity.
  - intros i Hi. unfold exact. rewrite bump_sum, bump_facts by lia. cbn [Nat.add]. rewrite fact_simpl, mult_INR, S_INR. field.
    split; [apply fact_neq|apply not_0_INR; lia].
Qed.
