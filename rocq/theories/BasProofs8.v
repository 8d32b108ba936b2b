(** Dofs that are means over the element, a face or an edge. *)
From Verif Require Import Prelude RSum GeoModel GeoSpec GeoProofs GeoProofs2 GeoProps SpModel BasModel BasSpec BasProofs CoreProofs BasProofs2 BasProofs3 BasProofs5 BasProofs7.
From Coq Require Import FunctionalExtensionality.
Local Open Scope R_scope.

Lemma list_get : forall (p : list R) m k, length p = m -> (k < m)%nat -> rd p k = Some (nth k p 0).
Proof. intros p m k H Hk. unfold rd. apply nth_error_nth'. lia. Qed.
Lemma near_refl : forall e a, 0 <= e -> near e a a.
Proof. intros e a H. unfold near. replace (a - a) with 0 by ring. rewrite Rabs_R0. exact H. Qed.
Lemma near_pos : forall e a b, near e a b -> 0 <= e.
Proof. intros e a b H. unfold near in H. eapply Rle_trans; [apply Rabs_pos|exact H]. Qed.
Lemma near_le : forall e e' a b, near e a b -> e <= e' -> near e' a b.
Proof. intros e e' a b H L. unfold near in *. lra. Qed.
Lemma rem3 : forall r c, (c < 3)%nat -> ((3 * r + c) mod 3 = c)%nat.
Proof. intros r c Hc. rewrite Nat.add_comm, Nat.mul_comm, Nat.mod_add, Nat.mod_small; lia. Qed.
Lemma rem1 : forall r, (r mod 1 = 0)%nat.
Proof. intros. apply Nat.mod_1_r. Qed.

(* use of quad_dof_ok with the value h at a point *)
Ltac quad h ud' E H := lazymatch goal with |- context [quad_dof ?fm ?fu ?i ?v ?u] => destruct (quad_dof_ok fm fu i v h u) as (ud' & E & H) end.

Section Means.
Variables (e : R) (Q : quads) (x : tetra) (fusion : nat) (ud : list (list R)).
Hypothesis HQ : quads_ok e Q.
Hypothesis Hx : nondegenerate x.
Notation X := (fun k => vec_of (x k)).

Lemma p0_dual : has_dof fusion 0 ud -> exists ud' v, interpolate P0 Q X (vector_fun 1 (shape P0 x 0)) fusion 0 ud = Some ud' /\ entered fusion 0 (fun _ => v) ud ud' /\ near (4 * e) v 1.
Proof.
  intros Hd. cbn [interpolate]. rewrite guard_true by reflexivity. destruct HQ as (_ & _ & Hs & H1 & _).
  quad (fun (p : list R) (r : nat) => 1) ud' E H; [exact Hd| |exists ud', (qsum (q_tet Q) (fun _ => 1)); split; [exact E|]; split; [exact H|]].
  - intros p w Hin. destruct (Hs p w Hin) as [Lp _]. unfold bary4. rewrite !(list_get p 4) by (assumption || lia). cbn [obind]. reflexivity.
  - apply (near_le e); [exact H1|]. apply near_pos in H1. lra.
Qed.
Lemma facew_sum : forall i p, (i < 4)%nat -> Rsum 3 (fun k => nth k p 0) = 1 -> Rsum 4 (facew i p) = 1.
Proof. intros i p Hi H. rewrite Rsum3 in H. four i; cbn [Rsum]; unfold facew, delta; cbn -[nth]; lra. Qed.
Lemma face_point : forall i p, (i < 4)%nat -> length p = 3%nat -> bary3 p (X ((i + 0) mod 4)%nat) (X ((i + 1) mod 4)%nat) (X ((i + 2) mod 4)%nat) = Some (vec_of (comb x (facew i p))).
Proof.
  intros i p Hi Lp. unfold bary3. rewrite !(list_get p 3) by (assumption || lia). cbn [obind]. f_equal. set (a := nth 0 p 0). set (b := nth 1 p 0). set (c := nth 2 p 0).
  unfold comb, facew, vec_of, vscal, vadd. fold a b c. four i; unfold delta; cbn; apply vec_eq; ring.
Qed.
Lemma cr1_dual : forall i j, (i < 4)%nat -> (j < 4)%nat -> has_dof fusion i ud ->
  exists ud' v, interpolate CR1 Q X (vector_fun 1 (shape CR1 x j)) fusion i ud = Some ud' /\ entered fusion i (fun _ => v) ud ud' /\ near (4 * e) v (delta i j).
Proof.
  intros i j Hi Hj Hd. cbn [interpolate]. rewrite guard_true by (apply Nat.ltb_lt; lia). destruct HQ as (_ & (Hs & H1 & Hm) & _).
  quad (fun (p : list R) (r : nat) => 1 - 3 * facew i p (opp j)) ud' E H; [exact Hd| |].
  - intros p w Hin. destruct (Hs p w Hin) as [Lp Sp]. rewrite face_point by assumption. cbn [obind]. f_equal. apply functional_extensionality. intros r. f_equal. unfold vector_fun. rewrite rem1.
    now rewrite sval_comb by (try apply facew_sum; auto).
  - exists ud', (qsum (q_tri Q) (fun p => 1 - 3 * facew i p (opp j))). split; [exact E|]. split; [exact H|].
    assert (He := near_pos _ _ _ H1).
    assert (D : i = j /\ (forall p, facew i p (opp j) = 0) \/ i <> j /\ exists m, (m <= 2)%nat /\ forall p, facew i p (opp j) = nth m p 0).
    { clear - Hi Hj. four i; four j; try (left; split; [reflexivity|]; intros p; unfold facew, delta, opp; cbn -[nth]; ring);
        (right; split; [discriminate|]);
        first [exists 0%nat; split; [lia|]; intros p; unfold facew, delta, opp; cbn -[nth]; ring|exists 1%nat; split; [lia|]; intros p; unfold facew, delta, opp; cbn -[nth]; ring|exists 2%nat; split; [lia|]; intros p; unfold facew, delta, opp; cbn -[nth]; ring]. }
    destruct D as [[-> D]|[Hne (m & Hm2 & D)]].
    + rewrite (qsum_ext _ _ (fun _ => 1)) by (intros; rewrite D; ring). unfold delta. rewrite Nat.eqb_refl. apply (near_le e); [exact H1|lra].
    + rewrite (qsum_ext _ _ (fun p => 1 * 1 + (-3) * nth m p 0)) by (intros; rewrite D; ring). rewrite (qsum_lin _ (fun _ => 1)). unfold delta. apply Nat.eqb_neq in Hne. rewrite Hne.
      specialize (Hm m Hm2). unfold near in *. replace (INR 3) with 3 in Hm by (cbn; ring). apply Rabs_le. revert H1 Hm. generalize (qsum (q_tri Q) (fun _ => 1)) (qsum (q_tri Q) (fun p => nth m p 0)). intros u v H1 Hm.
      assert (B : forall t d, Rabs t <= d -> -d <= t <= d) by (intros t d Ht; split; [pose proof (Rle_abs (-t)) as G; rewrite Rabs_Ropp in G; lra|pose proof (Rle_abs t); lra]).
      apply B in H1. apply B in Hm. lra.
Qed.
(** *** RT0 *)
Lemma tetdet_face : forall i, (i < 4)%nat -> Rabs (tetdet (X i) (X ((i + 1) mod 4)%nat) (X ((i + 2) mod 4)%nat) (X ((i + 3) mod 4)%nat)) = Rabs (det3 (edge_matrix x)).
Proof.
  intros i Hi. assert (H : tetdet (X i) (X ((i + 1) mod 4)%nat) (X ((i + 2) mod 4)%nat) (X ((i + 3) mod 4)%nat) = det3 (edge_matrix x) \/
    tetdet (X i) (X ((i + 1) mod 4)%nat) (X ((i + 2) mod 4)%nat) (X ((i + 3) mod 4)%nat) = - det3 (edge_matrix x)).
  { four i; unfold tetdet, det3, edge_matrix, diff, co, vec_of; cbn; (left; ring) || (right; ring). }
  destruct H as [->| ->]; [reflexivity|apply Rabs_Ropp].
Qed.
Lemma comp_co : forall v c, comp v c = co v c.
Proof. intros [[a b] c'] c. destruct c as [|[|c]]; reflexivity. Qed.
Lemma rt0_dual : forall i j, (i < 4)%nat -> (j < 4)%nat -> has_dof fusion i ud ->
  exists ud' v, interpolate RT0 Q X (vector_fun 3 (shape RT0 x j)) fusion i ud = Some ud' /\ entered fusion i (fun _ => v) ud ud' /\ near (4 * e) v (delta i j).
Proof.
  intros i j Hi Hj Hd. cbn [interpolate]. rewrite guard_true by (apply Nat.ltb_lt; lia). cbv zeta. destruct HQ as (_ & (Hs & H1 & Hm) & _).
  destruct (face_normal (X i) (X ((i + 1) mod 4)%nat) (X ((i + 2) mod 4)%nat) (X ((i + 3) mod 4)%nat)) as [area n] eqn:En. cbn [snd].
  assert (Ad := tetdet_face i Hi). cbv beta in Ad. assert (Dn : Rabs (det3 (edge_matrix x)) <> 0) by (apply Rabs_no_R0; exact Hx).
  assert (Hg : gram2 (X i) (X ((i + 1) mod 4)%nat) (X ((i + 2) mod 4)%nat) <> 0).
  { intros G. apply gram_zero with (d := X ((i + 3) mod 4)%nat) in G. rewrite G, Rabs_R0 in Ad. lra. }
  destruct (C46_face_normal _ _ _ _ _ _ En Hg) as (Ea & Hpos & _ & O1 & O2 & O3). rewrite Ad in O3.
  assert (Fa : face_area x i = area) by (rewrite Ea; reflexivity).
  assert (V3 : 3 * volume x = Rabs (det3 (edge_matrix x)) / 2) by (unfold volume; field).
  set (g := fun k => dot (co n) (fun c => x k c - x i c)).
  assert (G0 : g i = 0) by (unfold g, dot; rewrite Rsum3; ring). assert (G1 : g ((i + 1) mod 4)%nat = 0) by exact O1. assert (G2 : g ((i + 2) mod 4)%nat = 0) by exact O2.
  assert (G3 : 2 * area * g (opp i) = - Rabs (det3 (edge_matrix x))) by exact O3.
  assert (HC : forall w k, Rsum 4 w = 1 -> dot (co n) (fun c => comb x w c - x k c) = Rsum 4 (fun m => w m * g m) - g k).
  { intros w k Hw. cbn [Rsum] in Hw. unfold dot, comb, g, dot. rewrite ?Rsum3. cbn [Rsum]. replace (w 0%nat) with (1 - w 1%nat - w 2%nat - w 3%nat) by lra. ring. }
  assert (HV : forall p, Rsum 3 (fun k => nth k p 0) = 1 -> face_area x j / (3 * volume x) * dot (co n) (fun c => comb x (facew i p) c - x (opp j) c) = delta i j).
  { intros p Sp. rewrite HC by (now apply facew_sum). rewrite V3.
    assert (Z : Rsum 4 (fun m => facew i p m * g m) = 0).
    { transitivity (nth 0 p 0 * g i + nth 1 p 0 * g ((i + 1) mod 4)%nat + nth 2 p 0 * g ((i + 2) mod 4)%nat); [|rewrite G0, G1, G2; ring].
      clear - Hi. four i; cbn [Rsum]; unfold facew, delta; cbn -[nth g]; ring. }
    rewrite Z. unfold delta. destruct (Nat.eqb_spec i j) as [<-|Hne].
    - rewrite Fa. replace (g (opp i)) with (- Rabs (det3 (edge_matrix x)) / (2 * area)) by (rewrite <- G3; field; lra). field. split; [lra|exact Dn].
    - assert (Gj : g (opp j) = 0); [|rewrite Gj; unfold Rdiv; ring].
      clear - Hi Hj Hne G0 G1 G2. clearbody g. four i; four j; cbn in *; try assumption; contradiction. }
  quad (fun (p : list R) (r : nat) => face_area x j / (3 * volume x) * dot (co n) (fun c => comb x (facew i p) c - x (opp j) c)) ud' E H; [exact Hd| |].
  - intros p w Hin. destruct (Hs p w Hin) as [Lp Sp]. rewrite face_point by assumption. cbn [obind]. f_equal. apply functional_extensionality. intros r. f_equal. unfold vector_fun.
    rewrite !rem3 by lia. unfold shape, dot. rewrite Rsum3. rewrite !of_vec_of by lia. rewrite !comp_co. ring.
  - exists ud', (delta i j * qsum (q_tri Q) (fun _ => 1)). split; [exact E|]. split.
    + eapply entered_ext; [exact H|]. intros r Hr. cbv beta. rewrite <- qsum_const. apply qsum_ext. intros p w Hin. destruct (Hs p w Hin) as [Lp Sp]. now apply HV.
    + assert (He := near_pos _ _ _ H1). unfold delta. destruct (Nat.eqb_spec i j); [rewrite Rmult_1_l; apply (near_le e); [exact H1|lra]|rewrite Rmult_0_l; apply near_refl; lra].
Qed.
(** *** ND0 *)
Lemma dot_dlam : forall k u v, (k < 4)%nat -> Rsum 3 (fun c => dlam x k c * (u c - v c)) = lam x k u - lam x k v.
Proof.
  intros k u v Hk. unfold nondegenerate in Hx. rewrite Rsum3. unfold dlam, lam. set (D := det3 (edge_matrix x)) in *.
  assert (E : (det3 (edge_matrix (repl x k (axis 0))) - det3 (edge_matrix (repl x k (fun _ => 0)))) * (u 0%nat - v 0%nat) + (det3 (edge_matrix (repl x k (axis 1))) - det3 (edge_matrix (repl x k (fun _ => 0)))) * (u 1%nat - v 1%nat)
     + (det3 (edge_matrix (repl x k (axis 2))) - det3 (edge_matrix (repl x k (fun _ => 0)))) * (u 2%nat - v 2%nat) = det3 (edge_matrix (repl x k u)) - det3 (edge_matrix (repl x k v))).
  { four k; unfold det3, edge_matrix, repl, axis, delta; cbn; ring. }
  transitivity ((det3 (edge_matrix (repl x k u)) - det3 (edge_matrix (repl x k v))) / D); [rewrite <- E; field; exact Hx|field; exact Hx].
Qed.
Lemma edge_pos : forall a b, (a < 4)%nat -> (b < 4)%nat -> a <> b -> 0 < edge_length x a b.
Proof.
  intros a b Ha Hb Hne. unfold edge_length. apply sqrt_lt_R0.
  destruct (Rlt_le_dec 0 (Rsum 3 (fun c => (x b c - x a c) * (x b c - x a c)))) as [|Hle]; [assumption|]. exfalso. rewrite Rsum3 in Hle.
  assert (S : forall t : R, 0 <= t * t) by (intros; nra). pose proof (S (x b 0%nat - x a 0%nat)). pose proof (S (x b 1%nat - x a 1%nat)). pose proof (S (x b 2%nat - x a 2%nat)).
  assert (Z : forall t : R, t * t = 0 -> t = 0) by (intros t Ht; now apply Rsqr_0_uniq).
  assert (E0 : x b 0%nat - x a 0%nat = 0) by (apply Z; lra). assert (E1 : x b 1%nat - x a 1%nat = 0) by (apply Z; lra). assert (E2 : x b 2%nat - x a 2%nat = 0) by (apply Z; lra).
  assert (L1 := lam_vertex x b b Hb Hb Hx). assert (L2 := lam_vertex x b a Hb Ha Hx). rewrite (lam_ext x b (x b) (x a)) in L1 by (intros c Hc; three c; lra). rewrite L2 in L1. unfold delta in L1. rewrite Nat.eqb_refl in L1. assert (B : (b =? a)%nat = false) by (apply Nat.eqb_neq; lia). rewrite B in L1. lra.
Qed.
Lemma nd0_dual : forall i j, (i < 6)%nat -> (j < 6)%nat -> has_dof fusion i ud ->
  exists ud' v, interpolate ND0 Q X (vector_fun 3 (shape ND0 x j)) fusion i ud = Some ud' /\ entered fusion i (fun _ => v) ud ud' /\ near (4 * e) v (delta i j).
Proof.
  intros i j Hi Hj Hd. cbn [interpolate]. rewrite guard_true by (apply Nat.ltb_lt; lia). destruct HQ as ((Hs & H1 & Hm) & _).
  assert (T : exists a b, rd lookup (2 * i) = Some a /\ rd lookup (2 * i + 1) = Some b /\ edge_of i = (a, b) /\ (a < 4)%nat /\ (b < 4)%nat /\ a <> b).
  { clear - Hi. destruct i as [|[|[|[|[|[|i]]]]]]; try (exfalso; lia); eexists _, _; repeat (split; [reflexivity|]); lia. }
  destruct T as (a & b & Ra & Rb & Ee & Ha & Hb & Hab). rewrite Ra, Rb. cbn [obind]. cbv zeta.
  destruct (edge_of j) as [a' b'] eqn:Ej. assert (Hab' := edge_of_lt _ _ _ Ej). destruct Hab' as [Ha' Hb'].
  assert (Len : sqrt (sqlen (vsub (X b) (X a))) = edge_length x a b) by (unfold edge_length, sqlen, vsub, vec_of; f_equal; rewrite Rsum3; reflexivity). rewrite Len.
  assert (Hl := edge_pos a b Ha Hb Hab).
  assert (LW : forall p k, (k < 4)%nat -> Rsum 2 (fun k => nth k p 0) = 1 -> lam x k (of_vec (vec_of (comb x (edgew a b p)))) = edgew a b p k).
  { intros p k Hk Sp. rewrite (lam_ext x k _ (comb x (edgew a b p))) by (intros; now apply of_vec_of). apply lam_bary; auto. clear - Sp Ha Hb. cbn [Rsum] in Sp. four a; four b; cbn [Rsum]; unfold edgew, delta; cbn -[nth]; lra. }
  assert (LD : forall k, (k < 4)%nat -> Rsum 3 (fun c => dlam x k c * (x b c - x a c)) = delta k b - delta k a) by (intros k Hk; rewrite (dot_dlam k (x b) (x a) Hk), !lam_vertex by assumption; reflexivity).
  set (h := fun p : list R => edge_length x a' b' / edge_length x a b * (edgew a b p a' * (delta b' b - delta b' a) - edgew a b p b' * (delta a' b - delta a' a))).
  assert (HV : forall p, Rsum 2 (fun k => nth k p 0) = 1 -> h p = delta i j).
  { intros p Sp. unfold h. cbn [Rsum] in Sp. unfold delta at 5. destruct (Nat.eqb_spec i j) as [<-|Hne].
    - rewrite Ee in Ej. injection Ej as <- <-. replace (edgew a b p a * (delta b b - delta b a) - edgew a b p b * (delta a b - delta a a)) with 1; [field; lra|].
      unfold edgew, delta. rewrite !Nat.eqb_refl. assert (B1 : (a =? b)%nat = false) by (now apply Nat.eqb_neq). assert (B2 : (b =? a)%nat = false) by (apply Nat.eqb_neq; auto). rewrite B1, B2. lra.
    - replace (edgew a b p a' * (delta b' b - delta b' a) - edgew a b p b' * (delta a' b - delta a' a)) with 0; [ring|]. clear - Hi Hj Hne Ee Ej.
      destruct i as [|[|[|[|[|[|i]]]]]]; try (exfalso; lia); injection Ee as <- <-; (destruct j as [|[|[|[|[|[|j]]]]]]; try (exfalso; lia); injection Ej as <- <-); try (now exfalso; apply Hne); unfold edgew, delta; cbn -[nth]; ring. }
  quad (fun (p : list R) (r : nat) => h p) ud' E H; [exact Hd| |].
  - intros p w Hin. destruct (Hs p w Hin) as [Lp Sp]. unfold bary2. rewrite !(list_get p 2) by (assumption || lia). cbn [obind]. f_equal. apply functional_extensionality. intros r. f_equal. unfold vector_fun.
    rewrite !rem3 by lia. replace (vadd (vscal (nth 0 p 0) (X a)) (vscal (nth 1 p 0) (X b))) with (vec_of (comb x (edgew a b p))).
    2:{ clear - Ha Hb. unfold vadd, vscal, vec_of, comb, edgew, delta. four a; four b; cbn -[nth]; apply vec_eq; ring. }
    unfold shape. rewrite Ej, !LW by assumption. unfold h. rewrite <- !LD by assumption. rewrite !Rsum3. unfold vdiv, vsub, vec_of, comp. field. lra.
  - exists ud', (delta i j * qsum (q_seg Q) (fun _ => 1)). split; [exact E|]. split.
    + eapply entered_ext; [exact H|]. intros r Hr. cbv beta. rewrite <- qsum_const. apply qsum_ext. intros p w Hin. destruct (Hs p w Hin) as [Lp Sp]. now apply HV.
    + assert (He := near_pos _ _ _ H1). unfold delta. destruct (Nat.eqb_spec i j); [rewrite Rmult_1_l; apply (near_le e); [exact H1|lra]|rewrite Rmult_0_l; apply near_refl; lra].
Qed.
(** All spaces *)
Lemma dual_ok : forall s i j, (i < nfa s)%nat -> (j < nfa s)%nat -> has_dof fusion i ud ->
  exists ud' v, interpolate s Q X (vector_fun (fdim s) (shape s x j)) fusion i ud = Some ud' /\ entered fusion i (fun _ => v) ud ud' /\ near (4 * e) v (delta i j).
Proof.
  intros s i j Hi Hj Hd. assert (He : 0 <= e) by (destruct HQ as ((_ & H & _) & _); exact (near_pos _ _ _ H)).
  destruct (nodal s) eqn:Hn.
  - rewrite node_interpolate by assumption. assert (Hs : scalar s = true) by (destruct s; try discriminate Hn; reflexivity).
    destruct (put_ok fusion i (fun r => vector_fun (fdim s) (shape s x j) (vec_of (comb x (node s i))) r) ud Hd) as (ud' & E & H). exists ud', (delta i j). split; [exact E|]. split; [|apply near_refl; lra].
    eapply entered_ext; [exact H|]. intros r Hr. cbv beta. unfold vector_fun. rewrite sval_comb by (try apply node_sum; auto). now apply node_dual.
  - destruct s; try discriminate Hn; cbn [nfa fdim] in *.
    + assert (i = 0)%nat as -> by lia. assert (j = 0)%nat as -> by lia. now apply p0_dual.
    + now apply cr1_dual.
    + now apply rt0_dual.
    + now apply nd0_dual.
Qed.
End Means.
