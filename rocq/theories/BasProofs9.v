(** The dofs of an arbitrary function; reproduction of polynomials. *)
From Verif Require Import Prelude RSum GeoModel GeoSpec GeoProofs GeoProofs2 GeoProps SpModel BasModel BasSpec BasProofs CoreProofs BasProofs2 BasProofs3 BasProofs5 BasProofs7 BasProofs8.
From Coq Require Import FunctionalExtensionality.
Local Open Scope R_scope.

(** *** The normal used by RT0 *)
Lemma form_dlam : forall x n c, nondegenerate x -> (c < 3)%nat -> Rsum 4 (fun k => dlam x k c * Rsum 3 (fun a => n a * x k a)) = n c.
Proof.
  intros x n c Hx Hc. assert (Hx' := Hx). unfold nondegenerate in Hx'. cbn [Rsum]. unfold dlam, lam. set (D := det3 (edge_matrix x)) in *.
  set (d0 := det3 (edge_matrix (repl x 0 (axis c))) - det3 (edge_matrix (repl x 0 (fun _ => 0)))).
  set (d1 := det3 (edge_matrix (repl x 1 (axis c))) - det3 (edge_matrix (repl x 1 (fun _ => 0)))).
  set (d2 := det3 (edge_matrix (repl x 2 (axis c))) - det3 (edge_matrix (repl x 2 (fun _ => 0)))).
  set (d3 := det3 (edge_matrix (repl x 3 (axis c))) - det3 (edge_matrix (repl x 3 (fun _ => 0)))).
  assert (E : d0 * (n 0%nat * x 0%nat 0%nat + n 1%nat * x 0%nat 1%nat + n 2%nat * x 0%nat 2%nat) + d1 * (n 0%nat * x 1%nat 0%nat + n 1%nat * x 1%nat 1%nat + n 2%nat * x 1%nat 2%nat)
    + d2 * (n 0%nat * x 2%nat 0%nat + n 1%nat * x 2%nat 1%nat + n 2%nat * x 2%nat 2%nat) + d3 * (n 0%nat * x 3%nat 0%nat + n 1%nat * x 3%nat 1%nat + n 2%nat * x 3%nat 2%nat) = n c * D).
  { unfold d0, d1, d2, d3, D. three c; unfold det3, edge_matrix, repl, axis, delta; cbn; ring. }
  transitivity (n c * D / D); [rewrite <- E; unfold d0, d1, d2, d3; field; exact Hx'|field; exact Hx'].
Qed.
Lemma outer_ok : forall x i area n, nondegenerate x -> (i < 4)%nat ->
  face_normal (vec_of (x i)) (vec_of (x ((i + 1) mod 4)%nat)) (vec_of (x ((i + 2) mod 4)%nat)) (vec_of (x ((i + 3) mod 4)%nat)) = (area, n) -> forall c, (c < 3)%nat -> comp n c = outer x i c.
Proof.
  intros x i area n Hx Hi En c Hc. assert (Ad := tetdet_face x i Hi). cbv beta in Ad. assert (Dn : 0 < Rabs (det3 (edge_matrix x))) by (apply Rabs_pos_lt; exact Hx).
  assert (Hg : gram2 (vec_of (x i)) (vec_of (x ((i + 1) mod 4)%nat)) (vec_of (x ((i + 2) mod 4)%nat)) <> 0).
  { intros G. apply gram_zero with (d := vec_of (x ((i + 3) mod 4)%nat)) in G. rewrite G, Rabs_R0 in Ad. lra. }
  destruct (C46_face_normal _ _ _ _ _ _ En Hg) as (Ea & Hpos & Hn1 & O1 & O2 & O3). rewrite Ad in O3.
  set (g := fun k => dot (co n) (fun c => x k c - x i c)).
  assert (G0 : g i = 0) by (unfold g, dot; rewrite Rsum3; ring). assert (G1 : g ((i + 1) mod 4)%nat = 0) by exact O1. assert (G2 : g ((i + 2) mod 4)%nat = 0) by exact O2.
  assert (G3 : 2 * area * g (opp i) = - Rabs (det3 (edge_matrix x))) by exact O3.
  assert (Gn : g (opp i) < 0) by nra.
  assert (HN : forall c, (c < 3)%nat -> co n c = g (opp i) * dlam x (opp i) c).
  { intros c' Hc'. rewrite <- (form_dlam x (co n) c' Hx Hc').
    transitivity (Rsum 4 (fun k => dlam x k c' * g k)).
    - assert (S0 : Rsum 4 (fun k => dlam x k c') = 0) by (cbn [Rsum]; rewrite (dlam_sum x c' Hc' Hx); ring).
      unfold g, dot. cbn [Rsum] in *. replace (dlam x 0 c') with (- dlam x 1 c' - dlam x 2 c' - dlam x 3 c') by lra. ring.
    - clear - Hi G0 G1 G2. clearbody g. four i; cbn [Rsum]; cbn in G0, G1, G2 |- *; rewrite G0, G1, G2; ring. }
  set (s := Rsum 3 (fun a => dlam x (opp i) a * dlam x (opp i) a)).
  assert (Hs : g (opp i) * g (opp i) * s = 1) by (rewrite <- Hn1; unfold s, dot; rewrite !Rsum3; rewrite !HN by lia; ring).
  assert (Hs0 : 0 < s) by (assert (0 <= g (opp i) * g (opp i)) by nra; assert (0 <= s) by (unfold s; rewrite Rsum3; nra); destruct (Req_dec s 0) as [Z|]; [rewrite Z in Hs; lra|lra]).
  assert (Hq : 0 < sqrt s) by (now apply sqrt_lt_R0). assert (Hqs : sqrt s * sqrt s = s) by (apply sqrt_sqrt; lra).
  rewrite comp_co, HN by exact Hc. unfold outer. fold s.
  assert (Hgq : g (opp i) * sqrt s = -1).
  { assert (P : (g (opp i) * sqrt s - 1) * (g (opp i) * sqrt s + 1) = 0) by (replace ((g (opp i) * sqrt s - 1) * (g (opp i) * sqrt s + 1)) with (g (opp i) * g (opp i) * (sqrt s * sqrt s) - 1) by ring; rewrite Hqs, Hs; ring).
    apply Rmult_integral in P. destruct P as [P|P]; [|lra]. assert (g (opp i) * sqrt s < 0) by nra. lra. }
  replace (g (opp i)) with (-1 / sqrt s) by (rewrite <- Hgq; field; lra). field. lra.
Qed.

(** *** Dofs of any function *)
Lemma dofs_ok : forall s Q x F fusion i ud, nondegenerate x -> on_simplex 1 (q_seg Q) -> on_simplex 2 (q_tri Q) -> on_simplex 3 (q_tet Q) -> (i < nfa s)%nat -> has_dof fusion i ud ->
  exists ud', interpolate s Q (fun k => vec_of (x k)) F fusion i ud = Some ud' /\ entered fusion i (fun r => dof_value s Q x F i r) ud ud'.
Proof.
  intros s Q x F fusion i ud Hx H1 H2 H3 Hi Hd. destruct (nodal s) eqn:Hn.
  - rewrite node_interpolate by assumption. destruct (put_ok fusion i (fun r => F (vec_of (comb x (node s i))) r) ud Hd) as (ud' & E & H). exists ud'. split; [exact E|]. destruct s; try discriminate Hn; exact H.
  - destruct s; try discriminate Hn; cbn [nfa dof_value] in *.
    + assert (i = 0)%nat as -> by lia. cbn [interpolate]. rewrite guard_true by reflexivity. quad (fun (p : list R) (r : nat) => F (vec_of (comb x (fun k => nth k p 0))) r) ud' E H; [exact Hd| |now exists ud'].
      intros p w Hin. destruct (H3 p w Hin) as [Lp _]. unfold bary4. rewrite !(list_get p 4) by (assumption || lia). cbn [obind]. f_equal. apply functional_extensionality. intros r. do 2 f_equal.
      unfold vadd, vscal, vec_of, comb. cbn [Rsum]. apply vec_eq; ring.
    + cbn [interpolate]. rewrite guard_true by (apply Nat.ltb_lt; lia). quad (fun (p : list R) (r : nat) => F (vec_of (comb x (facew i p))) r) ud' E H; [exact Hd| |now exists ud'].
      intros p w Hin. destruct (H2 p w Hin) as [Lp Sp]. rewrite (face_point x) by assumption. reflexivity.
    + cbn [interpolate]. rewrite guard_true by (apply Nat.ltb_lt; lia). cbv zeta.
      destruct (face_normal (vec_of (x i)) (vec_of (x ((i + 1) mod 4)%nat)) (vec_of (x ((i + 2) mod 4)%nat)) (vec_of (x ((i + 3) mod 4)%nat))) as [area n] eqn:En. cbn [snd].
      quad (fun (p : list R) (r : nat) => Rsum 3 (fun c => F (vec_of (comb x (facew i p))) (3 * r + c)%nat * outer x i c)) ud' E H; [exact Hd| |now exists ud'].
      intros p w Hin. destruct (H2 p w Hin) as [Lp Sp]. rewrite (face_point x) by assumption. cbn [obind]. f_equal. apply functional_extensionality. intros r. f_equal. rewrite Rsum3.
      rewrite <- !(outer_ok x i area n Hx Hi En) by lia. reflexivity.
    + cbn [interpolate]. rewrite guard_true by (apply Nat.ltb_lt; lia). 
      assert (T : exists a b, rd lookup (2 * i) = Some a /\ rd lookup (2 * i + 1) = Some b /\ edge_of i = (a, b) /\ (a < 4)%nat /\ (b < 4)%nat /\ a <> b).
      { clear - Hi. destruct i as [|[|[|[|[|[|i]]]]]]; try (exfalso; lia); eexists _, _; repeat (split; [reflexivity|]); lia. }
      destruct T as (a & b & Ra & Rb & Ee & Ha & Hb & Hab). rewrite Ra, Rb, Ee. cbn [obind]. cbv zeta.
      assert (Len : sqrt (sqlen (vsub (vec_of (x b)) (vec_of (x a)))) = edge_length x a b) by (unfold edge_length, sqlen, vsub, vec_of; f_equal; rewrite Rsum3; reflexivity). rewrite Len.
      quad (fun (p : list R) (r : nat) => Rsum 3 (fun c => F (vec_of (comb x (edgew a b p))) (3 * r + c)%nat * tangent x a b c)) ud' E H; [exact Hd| |now exists ud'].
      intros p w Hin. destruct (H1 p w Hin) as [Lp Sp]. unfold bary2. rewrite !(list_get p 2) by (assumption || lia). cbn [obind]. f_equal. apply functional_extensionality. intros r. f_equal.
      replace (vadd (vscal (nth 0 p 0) (vec_of (x a))) (vscal (nth 1 p 0) (vec_of (x b)))) with (vec_of (comb x (edgew a b p))).
      2:{ clear - Ha Hb. unfold vadd, vscal, vec_of, comb, edgew, delta. four a; four b; cbn -[nth]; apply vec_eq; ring. }
      rewrite Rsum3. reflexivity.
Qed.
(** The dofs are linear *)
Lemma qsum_Rsum : forall fm m h, qsum fm (fun p => Rsum m (fun j => h j p)) = Rsum m (fun j => qsum fm (h j)).
Proof.
  intros fm m h. induction m as [|m IH].
  - cbn [Rsum]. rewrite (qsum_const fm 0). ring.
  - cbn [Rsum]. rewrite <- IH. rewrite (qsum_ext fm (fun p => Rsum m (fun j => h j p) + h m p) (fun p => 1 * Rsum m (fun j => h j p) + 1 * h m p)) by (intros; ring). rewrite qsum_lin. ring.
Qed.
Lemma dof_value_lin : forall s Q x m (c : nat -> R) (G : nat -> vec -> nat -> R) i r,
  dof_value s Q x (fun X k => Rsum m (fun j => c j * G j X k)) i r = Rsum m (fun j => c j * dof_value s Q x (G j) i r).
Proof.
  intros s Q x m c G i r.
  assert (QS : forall fm (h : nat -> list R -> R), qsum fm (fun p => Rsum m (fun j => c j * h j p)) = Rsum m (fun j => c j * qsum fm (h j))).
  { intros fm h. rewrite (qsum_Rsum fm m (fun j p => c j * h j p)). apply Rsum_ext. intros j _. rewrite <- (Rplus_0_r (c j * qsum fm (h j))), <- (Rmult_0_l (qsum fm (h j))), <- qsum_lin. apply qsum_ext. intros. ring. }
  assert (SW : forall (h : nat -> nat -> R) (t : nat -> R), Rsum 3 (fun a => Rsum m (fun j => c j * h j a) * t a) = Rsum m (fun j => c j * Rsum 3 (fun a => h j a * t a))).
  { intros h t. rewrite (Rsum_ext m (fun j => c j * Rsum 3 (fun a => h j a * t a)) (fun j => Rsum 3 (fun a => c j * h j a * t a))) by (intros; rewrite !Rsum3; ring).
    rewrite Rsum_swap. apply Rsum_ext. intros a _. now rewrite Rsum_scal_r. }
  destruct s; cbn [dof_value]; try reflexivity; try (now rewrite QS).
  - rewrite <- QS. apply qsum_ext. intros p w _. now rewrite SW.
  - destruct (edge_of i) as [a b]. rewrite <- QS. apply qsum_ext. intros p w _. now rewrite SW.
Qed.

(** *** Polynomials *)
Definition dofs_node (s : fem) (x : tetra) (h : (nat -> R) -> R) (l : nat -> R) : Prop :=
  Rsum (nfa s) (fun i => h (comb x (node s i)) * sval s l i) = h (comb x l).
Lemma cubic : forall (l : nat -> R) a b c, Rsum 4 l = 1 -> (a < 4)%nat -> (b < 4)%nat -> (c < 4)%nat ->
  Rsum 20 (fun i => node P3 i a * node P3 i b * node P3 i c * sval P3 l i) = l a * l b * l c.
Proof.
  intros l a b c H Ha Hb Hc. cbn [Rsum] in H. assert (E : l 3%nat = 1 - l 0%nat - l 1%nat - l 2%nat) by lra.
  four a; four b; four c; cbn [Rsum]; unfold sval, node, unitw, delta; cbn; rewrite E; field.
Qed.
Lemma quadratic : forall (l : nat -> R) a b, Rsum 4 l = 1 -> (a < 4)%nat -> (b < 4)%nat ->
  Rsum 10 (fun i => node P2 i a * node P2 i b * sval P2 l i) = l a * l b.
Proof.
  intros l a b H Ha Hb. cbn [Rsum] in H. assert (E : l 3%nat = 1 - l 0%nat - l 1%nat - l 2%nat) by lra.
  four a; four b; cbn [Rsum]; unfold sval, node, unitw, delta; cbn; rewrite E; field.
Qed.
Lemma linear : forall (l : nat -> R) a, Rsum 4 l = 1 -> (a < 4)%nat -> Rsum 4 (fun i => node P1 i a * sval P1 l i) = l a.
Proof. intros l a H Ha. four a; cbn [Rsum]; unfold sval, node, unitw, delta; cbn; ring. Qed.
Lemma trilin : forall m (n : nat -> nat -> R) (s u v w : nat -> R),
  Rsum m (fun i => Rsum 4 (fun a => n i a * u a) * Rsum 4 (fun a => n i a * v a) * Rsum 4 (fun a => n i a * w a) * s i) =
  Rsum 4 (fun a => u a * Rsum 4 (fun b => v b * Rsum 4 (fun c => w c * Rsum m (fun i => n i a * n i b * n i c * s i)))).
Proof. intros m n s u v w. induction m as [|m IH]; [cbn [Rsum]; ring|]. rewrite Rsum_S, IH. cbn [Rsum]. ring. Qed.
Lemma bilin : forall m (n : nat -> nat -> R) (s u v : nat -> R),
  Rsum m (fun i => Rsum 4 (fun a => n i a * u a) * Rsum 4 (fun a => n i a * v a) * s i) = Rsum 4 (fun a => u a * Rsum 4 (fun b => v b * Rsum m (fun i => n i a * n i b * s i))).
Proof. intros m n s u v. induction m as [|m IH]; [cbn [Rsum]; ring|]. rewrite Rsum_S, IH. cbn [Rsum]. ring. Qed.
Lemma onelin : forall m (n : nat -> nat -> R) (s u : nat -> R), Rsum m (fun i => Rsum 4 (fun a => n i a * u a) * s i) = Rsum 4 (fun a => u a * Rsum m (fun i => n i a * s i)).
Proof. intros m n s u. induction m as [|m IH]; [cbn [Rsum]; ring|]. rewrite Rsum_S, IH. cbn [Rsum]. ring. Qed.
(* coordinate t, or 1 *)
Definition coo (t : nat) (y : nat -> R) : R := if (t <? 3)%nat then y t else 1.
Definition xt (x : tetra) (t k : nat) : R := if (t <? 3)%nat then x k t else 1.
Lemma coo_comb : forall t x w, Rsum 4 w = 1 -> coo t (comb x w) = Rsum 4 (fun k => w k * xt x t k).
Proof. intros t x w H. unfold coo, comb, xt. destruct (t <? 3)%nat; [reflexivity|]. transitivity (Rsum 4 w); [now rewrite H|]. apply Rsum_ext. intros. ring. Qed.
Definition repro (s : fem) (x : tetra) (h : (nat -> R) -> R) : Prop := forall l, Rsum 4 l = 1 -> dofs_node s x h l.
Lemma repro3 : forall x t u v, repro P3 x (fun y => coo t y * coo u y * coo v y).
Proof.
  intros x t u v l Hl. unfold dofs_node. cbn [nfa]. rewrite !coo_comb by exact Hl.
  rewrite (Rsum_ext 20 _ (fun i => Rsum 4 (fun k => node P3 i k * xt x t k) * Rsum 4 (fun k => node P3 i k * xt x u k) * Rsum 4 (fun k => node P3 i k * xt x v k) * sval P3 l i))
    by (intros i Hi; rewrite !coo_comb by (now apply (node_sum P3)); reflexivity).
  rewrite trilin. generalize (xt x t) (xt x u) (xt x v). intros f g h.
  rewrite (Rsum_ext 4 _ (fun a => f a * Rsum 4 (fun b => g b * Rsum 4 (fun c => h c * (l a * l b * l c))))).
  - cbn [Rsum]. ring.
  - intros a Ha. f_equal. apply Rsum_ext. intros b Hb. f_equal. apply Rsum_ext. intros c Hc. f_equal. now apply cubic.
Qed.
Lemma repro2 : forall x t u, repro P2 x (fun y => coo t y * coo u y).
Proof.
  intros x t u l Hl. unfold dofs_node. cbn [nfa]. rewrite !coo_comb by exact Hl.
  rewrite (Rsum_ext 10 _ (fun i => Rsum 4 (fun k => node P2 i k * xt x t k) * Rsum 4 (fun k => node P2 i k * xt x u k) * sval P2 l i))
    by (intros i Hi; rewrite !coo_comb by (now apply (node_sum P2)); reflexivity).
  rewrite bilin. generalize (xt x t) (xt x u). intros f g.
  rewrite (Rsum_ext 4 _ (fun a => f a * Rsum 4 (fun b => g b * (l a * l b)))).
  - cbn [Rsum]. ring.
  - intros a Ha. f_equal. apply Rsum_ext. intros b Hb. f_equal. now apply quadratic.
Qed.
Lemma repro1 : forall x t, repro P1 x (fun y => coo t y).
Proof.
  intros x t l Hl. unfold dofs_node. cbn [nfa]. rewrite !coo_comb by exact Hl.
  rewrite (Rsum_ext 4 _ (fun i => Rsum 4 (fun k => node P1 i k * xt x t k) * sval P1 l i)) by (intros i Hi; rewrite !coo_comb by (now apply (node_sum P1)); reflexivity).
  rewrite onelin. generalize (xt x t). intros f.
  rewrite (Rsum_ext 4 _ (fun a => f a * l a)) by (intros a Ha; f_equal; now apply linear). cbn [Rsum]. ring.
Qed.
Lemma repro_ext : forall s x h h', (forall y, h y = h' y) -> repro s x h -> repro s x h'.
Proof. intros s x h h' E H l Hl. unfold dofs_node. rewrite <- E, <- (H l Hl). apply Rsum_ext. intros. now rewrite E. Qed.
Lemma repro_scal : forall s x c h, repro s x h -> repro s x (fun y => c * h y).
Proof. intros s x c h H l Hl. unfold dofs_node. rewrite <- (H l Hl), <- Rsum_scal. apply Rsum_ext. intros. ring. Qed.
Lemma repro_sum : forall s x m h, (forall j, (j < m)%nat -> repro s x (h j)) -> repro s x (fun y => Rsum m (fun j => h j y)).
Proof.
  intros s x m h H l Hl. unfold dofs_node. rewrite (Rsum_ext m _ (fun j => Rsum (nfa s) (fun i => h j (comb x (node s i)) * sval s l i))) by (intros j Hj; symmetry; now apply H).
  rewrite Rsum_swap. apply Rsum_ext. intros i _. now rewrite Rsum_scal_r.
Qed.
Lemma repro_poly : forall s x p, degree_of s <> 0%nat -> poly (degree_of s) p -> repro s x p.
Proof.
  intros s x p Hs (c & Hp). apply (repro_ext s x _ p (fun y => eq_sym (Hp y))).
  apply repro_sum. intros a Ha. apply repro_sum. intros b Hb. apply repro_sum. intros e He. apply repro_scal.
  destruct s; cbn [degree_of] in *; try (exfalso; now apply Hs).
  - assert (C : (a = 0 /\ b = 0 /\ e = 0 \/ a = 1 /\ b = 0 /\ e = 0 \/ a = 0 /\ b = 1 /\ e = 0 \/ a = 0 /\ b = 0 /\ e = 1)%nat) by lia.
    destruct C as [(-> & -> & ->)|[(-> & -> & ->)|[(-> & -> & ->)|(-> & -> & ->)]]];
    [eapply repro_ext; [|apply (repro1 x 3)]|eapply repro_ext; [|apply (repro1 x 0)]|eapply repro_ext; [|apply (repro1 x 1)]|eapply repro_ext; [|apply (repro1 x 2)]]; intros y; unfold coo; cbn; ring.
  - pose (l := (repeat 0 a ++ repeat 1 b ++ repeat 2 e)%nat). eapply repro_ext; [|apply (repro2 x (nth 0 l 3%nat) (nth 1 l 3%nat))].
    intros y. unfold l. clear - Ha Hb He. destruct a as [|[|[|a]]]; try (exfalso; lia); destruct b as [|[|[|b]]]; try (exfalso; lia); destruct e as [|[|[|e]]]; try (exfalso; lia); unfold coo; cbn; ring.
  - pose (l := (repeat 0 a ++ repeat 1 b ++ repeat 2 e)%nat). eapply repro_ext; [|apply (repro3 x (nth 0 l 3%nat) (nth 1 l 3%nat) (nth 2 l 3%nat))].
    intros y. unfold l. clear - Ha Hb He. destruct a as [|[|[|[|a]]]]; try (exfalso; lia); destruct b as [|[|[|[|b]]]]; try (exfalso; lia); destruct e as [|[|[|[|e]]]]; try (exfalso; lia); unfold coo; cbn; ring.
Qed.
