(** The integrand is a polynomial, sums over points *)
From Coq Require Import ZArith FunctionalExtensionality.
From Verif Require Import Prelude RSum GeoModel GeoSpec GeoProofs GeoProofs2 GeoProps SpModel BasModel BasSpec BasProofs BasProps CoreModel CoreSpec QuadModel QuadSpec QuadProofs QuadPoly QuadProofs4 FiModel FiSpec FiProofs2.
Local Open Scope R_scope.

Lemma fold_Rsum : forall p, fold_right Rplus 0 p = Rsum (length p) (fun k => nth k p 0).
Proof.
  induction p as [|a p IH]; [reflexivity|]. cbn [fold_right length]. rewrite IH. clear IH. generalize (length p). intros n. induction n as [|n IH]; [cbn; ring|]. rewrite Rsum_S, <- Rplus_assoc, IH. symmetry. rewrite Rsum_S. reflexivity.
Qed.
Lemma corner_lt : forall reg i, valid reg -> (i < corners reg)%nat -> (corner reg i < 4)%nat.
Proof.
  intros [|k|k|e|k] i Hv Hi; cbn [valid corners corner shape_of dim] in *; [exact Hi|apply Nat.mod_upper_bound; lia|apply Nat.mod_upper_bound; lia| |exact Hv].
  destruct (lookup_ok e Hv) as (_ & _ & H). destruct (i =? 0)%nat; lia.
Qed.
Lemma spread_sum : forall reg p, valid reg -> length p = corners reg -> fold_right Rplus 0 p = 1 -> Rsum 4 (spread reg p) = 1.
Proof.
  intros reg p Hv Hl Hs. unfold spread. rewrite Rsum_swap. rewrite <- Hs, fold_Rsum. apply Rsum_ext. intros i Hi. rewrite Rsum_scal. rewrite (Rsum_single 4 (corner reg i)).
  - unfold delta. rewrite Nat.eqb_refl. ring.
  - apply corner_lt; [exact Hv|]. now rewrite <- Hl.
  - intros j _ Hj. unfold delta. destruct (Nat.eqb_spec (corner reg i) j); [lia|reflexivity].
Qed.
Lemma spread_point : forall reg p (x : tetra), valid reg -> length p = corners reg -> (fun i => Rsum 4 (fun k => spread reg p k * x k i)) = at_bary (fun i => x (corner reg i)) p.
Proof.
  intros reg p x Hv Hl. extensionality c. rewrite at_bary_sum. unfold spread.
  rewrite (Rsum_ext 4 _ (fun k => Rsum (length p) (fun i => nth i p 0 * delta (corner reg i) k * x k c))) by (intros k _; now rewrite <- Rsum_scal_r).
  rewrite Rsum_swap. apply Rsum_ext. intros i Hi. rewrite (Rsum_single 4 (corner reg i)).
  - unfold delta. rewrite Nat.eqb_refl. ring.
  - apply corner_lt; [exact Hv|]. now rewrite <- Hl.
  - intros j _ Hj. unfold delta. destruct (Nat.eqb_spec (corner reg i) j); [lia|ring].
Qed.

(** *** Polynomials on a region *)
Section Pol.
Variables (reg : region) (x : tetra).
Hypothesis Hv : valid reg.
Hypothesis Hx : nondegenerate x.
Definition pol (n : nat) (g : (nat -> R) -> R) : Prop := exists P, is_poly reg x n g P.
Lemma corners_S : corners reg = S (corners reg - 1).
Proof. unfold corners. destruct (shape_of reg); lia. Qed.
Lemma pol_le : forall a b g, pol a g -> (a <= b)%nat -> pol b g.
Proof. intros a b g (P & D & E) H. exists P. split; [exact (bdegree_le _ _ _ _ H D)|exact E]. Qed.
Lemma pol_const : forall c, pol 0 (fun _ => c).
Proof.
  intros c. destruct (bpow_ok (corners reg - 1) 0 [] (fun u es (H : In (u, es) []) => match H with end) 0) as (A & _ & B).
  destruct (bscal_ok _ _ c _ A) as (A' & _ & B'). exists (bscal c (bpow (S (corners reg - 1)) [] 0)). split; [exact A'|]. intros p Hp _. rewrite B', B by (rewrite Hp; apply corners_S). cbn. ring.
Qed.
Lemma pol_add : forall a b g h, pol a g -> pol b h -> pol (Nat.max a b) (fun y => g y + h y).
Proof.
  intros a b g h (P & D & E) (Q & D' & E'). exists (P ++ Q). split.
  - apply bdegree_app; [exact (bdegree_le _ _ _ _ (Nat.le_max_l _ _) D)|exact (bdegree_le _ _ _ _ (Nat.le_max_r _ _) D')].
  - intros p Hp Hs. now rewrite beval_app, E, E'.
Qed.
Lemma pol_mul : forall a b g h, pol a g -> pol b h -> pol (a + b) (fun y => g y * h y).
Proof.
  intros a b g h (P & D & E) (Q & D' & E'). exists (bmul P Q). split.
  - now apply bmul_degree.
  - intros p Hp Hs. rewrite (bmul_eval _ _ _ _ _ _ D D') by (rewrite Hp; apply corners_S). now rewrite E, E'.
Qed.
Lemma pol_ext : forall n g h, (forall y, g y = h y) -> pol n g -> pol n h.
Proof. intros n g h H (P & D & E). exists P. split; [exact D|]. intros. rewrite <- H. now apply E. Qed.
Lemma pol_sub : forall a b g h, pol a g -> pol b h -> pol (Nat.max a b) (fun y => g y - h y).
Proof.
  intros a b g h Hg Hh. apply (pol_ext _ (fun y => g y + (-1) * h y)); [intros; ring|]. apply pol_add; [exact Hg|]. apply (pol_mul 0 b); [apply pol_const|exact Hh].
Qed.
Lemma pol_div : forall a c g, pol a g -> pol a (fun y => g y / c).
Proof. intros a c g H. apply (pol_ext _ (fun y => / c * g y)); [intros; unfold Rdiv; ring|]. apply (pol_mul 0 a); [apply pol_const|exact H]. Qed.
Lemma pol_sum : forall n a g, (forall i, (i < n)%nat -> pol a (g i)) -> pol a (fun y => Rsum n (fun i => g i y)).
Proof.
  induction n as [|n IH]; intros a g H; [apply (pol_le 0); [exact (pol_const 0)|lia]|]. apply (pol_ext _ (fun y => Rsum n (fun i => g i y) + g n y)); [intros; now rewrite Rsum_S|].
  apply (pol_le (Nat.max a a)); [|lia]. apply pol_add; [apply IH; auto|apply H; lia].
Qed.
Lemma pol_aff : forall w, pol 1 (fun y => Rsum 4 (fun k => w k * lam x k y)).
Proof.
  intros w. destruct (bcoord_ok (corners reg - 1) (fun i => w (corner reg i))) as (A & _ & B). rewrite <- corners_S in *. exists (bcoord (corners reg) (fun i => w (corner reg i))). split; [exact A|].
  intros p Hp Hs. rewrite B by exact Hp. rewrite <- (spread_point reg p x Hv Hp).
  rewrite (Rsum_ext 4 _ (fun k => w k * spread reg p k)) by (intros k Hk; rewrite lam_bary; trivial; now apply spread_sum).
  unfold spread. rewrite (Rsum_ext 4 _ (fun k => Rsum (length p) (fun i => nth i p 0 * delta (corner reg i) k * w k))) by (intros k _; rewrite Rsum_scal_r; ring). rewrite Rsum_swap, Hp. apply Rsum_ext. intros i Hi.
  rewrite (Rsum_single 4 (corner reg i)).
  - unfold delta. rewrite Nat.eqb_refl. ring.
  - now apply corner_lt.
  - intros j _ Hj. unfold delta. destruct (Nat.eqb_spec (corner reg i) j); [lia|ring].
Qed.
Lemma pol_lam : forall k, (k < 4)%nat -> pol 1 (fun y => lam x k y).
Proof.
  intros k Hk. apply (pol_ext _ (fun y => Rsum 4 (fun j => delta j k * lam x j y))); [|apply pol_aff]. intros y. rewrite (Rsum_single 4 k); [unfold delta; rewrite Nat.eqb_refl; ring|exact Hk|].
  intros j _ Hj. unfold delta. destruct (Nat.eqb_spec j k); [lia|ring].
Qed.
Lemma pol_co : forall c, (c < 3)%nat -> pol 1 (fun y => y c).
Proof.
  intros c Hc. apply (pol_ext _ (fun y => Rsum 4 (fun k => x k c * lam x k y))); [|apply (pol_aff (fun k => x k c))]. intros y. rewrite <- (lam_point x y c Hc Hx). apply Rsum_ext. intros; ring.
Qed.
Ltac pl := cbv beta zeta;
  lazymatch goal with
  | |- pol _ (fun y => _ + _) => eapply pol_add; pl
  | |- pol _ (fun y => _ - _) => eapply pol_sub; pl
  | |- pol _ (fun y => _ * _) => eapply pol_mul; pl
  | |- pol _ (fun y => _ / _) => eapply pol_div; pl
  | |- pol _ (fun y => lam _ _ y) => apply pol_lam; (assumption || (unfold opp; apply Nat.mod_upper_bound; lia) || lia)
  | |- pol _ (lam _ _) => apply pol_lam; (assumption || (unfold opp; apply Nat.mod_upper_bound; lia) || lia)
  | |- pol _ (fun y => y _) => apply pol_co; assumption
  | |- pol _ (fun y => _) => apply pol_const
  end.
Ltac plgo := eapply pol_le; [pl|lia].
Lemma shape_pol : forall s i c, (i < nfa s)%nat -> (c < fdim s)%nat -> pol (fem_degree s) (BasSpec.shape s x i c).
Proof.
  intros s i c Hi Hc. unfold BasSpec.shape. destruct s; cbn [nfa fdim fem_degree] in *.
  - apply pol_const.
  - plgo.
  - destruct (i <? 4)%nat eqn:E; [apply Nat.ltb_lt in E; plgo|]. destruct (edge_of (i - 4)) as [a b] eqn:Ee. destruct (edge_of_lt _ _ _ Ee). plgo.
  - destruct (i <? 4)%nat eqn:E; [apply Nat.ltb_lt in E; plgo|]. destruct (i <? 16)%nat eqn:E'; [|plgo]. destruct (edge_of ((i - 4) / 2)) as [a b] eqn:Ee. destruct (edge_of_lt _ _ _ Ee). destruct (Nat.even i); plgo.
  - destruct (edge_of i) as [a b] eqn:Ee. destruct (edge_of_lt _ _ _ Ee). plgo.
  - plgo.
  - plgo.
  - plgo.
  - destruct (edge_of i) as [a b] eqn:Ee. destruct (edge_of_lt _ _ _ Ee). plgo.
Qed.
Lemma dshape_pol : forall s i c k, (i < nfa s)%nat -> pol (fem_degree s - 1) (dshape s x i c k).
Proof.
  intros s i c k Hi. unfold dshape. destruct s; cbn [nfa fem_degree] in *.
  - apply pol_const.
  - plgo.
  - destruct (i <? 4)%nat eqn:E; [apply Nat.ltb_lt in E; plgo|]. destruct (edge_of (i - 4)) as [a b] eqn:Ee. destruct (edge_of_lt _ _ _ Ee). plgo.
  - destruct (i <? 4)%nat eqn:E; [apply Nat.ltb_lt in E; plgo|]. destruct (i <? 16)%nat eqn:E'; [|plgo]. destruct (edge_of ((i - 4) / 2)) as [a b] eqn:Ee. destruct (edge_of_lt _ _ _ Ee). destruct (Nat.even i); plgo.
  - destruct (edge_of i) as [a b] eqn:Ee. destruct (edge_of_lt _ _ _ Ee). plgo.
  - plgo.
  - plgo.
  - plgo.
  - destruct (edge_of i) as [a b] eqn:Ee. plgo.
Qed.
Lemma op_at_pol : forall s o D k i, has_op s o = true -> derivatives s x D -> (i < nfa s)%nat -> (k < odims s o)%nat -> pol (op_degree s o) (op_at s o x D k i).
Proof.
  intros s o D k i Ho HD Hi Hk. unfold odims in Hk.
  assert (G : forall c a, (c < fdim s)%nat -> (a < 3)%nat -> pol (fem_degree s - 1) (fun y => D i c a y)).
  { intros c a Hc Ha. apply (pol_ext _ (dshape s x i c a)); [|now apply dshape_pol]. intros y. eapply partial_unique; [now apply shape_partial|now apply HD]. }
  unfold op_at. destruct o as [| | | |a]; cbn [op_of op_degree dim_op has_op] in *.
  - apply (pol_ext _ (BasSpec.shape s x i k)); [reflexivity|now apply shape_pol].
  - apply G; [apply Nat.div_lt_upper_bound; lia|apply Nat.mod_upper_bound; lia].
  - apply Nat.eqb_eq in Ho. eapply pol_le; [eapply pol_add; [eapply pol_add|]; apply G; lia|lia].
  - apply Nat.eqb_eq in Ho. destruct k as [|[|k]]; (eapply pol_le; [eapply pol_sub; apply G; lia|lia]).
  - apply Nat.ltb_lt in Ho. apply G; lia.
Qed.
Lemma integrand_pol : forall F r N (normal : bool) sA oA sB oB DA DB ia ib t, has_op sA oA = true -> has_op sB oB = true -> derivatives sA x DA -> derivatives sB x DB -> (ia < nfa sA)%nat -> (ib < nfa sB)%nat ->
  (let nD := (if normal then 3 else 1)%nat in forall k j, (k < odims sB oB * nD)%nat -> (j < odims sA oA)%nat -> pol t (fun y => tmat (F (vec_of y) r) (odims sB oB * nD) (odims sA oA) k j)) ->
  pol (t + op_degree sA oA + op_degree sB oB) (integrand F r N normal sA oA sB oB x DA DB ia ib).
Proof.
  intros F r N normal sA oA sB oB DA DB ia ib t HA HB DA' DB' Ha Hb HT. cbv zeta in HT. unfold integrand. apply pol_sum. intros k Hk. apply pol_mul; [|now apply op_at_pol]. unfold flux. destruct normal.
  - apply pol_sum. intros c Hc. apply (pol_mul 0); [apply pol_const|]. apply pol_sum. intros j Hj. apply pol_mul; [apply HT; nia|now apply op_at_pol].
  - apply pol_sum. intros j Hj. apply pol_mul; [apply HT; lia|now apply op_at_pol].
Qed.
End Pol.

(** *** Values depend on the three coordinates of the point only *)
Lemma shape_ext : forall s x i c y y', (c < fdim s)%nat -> (forall k, (k < 3)%nat -> y k = y' k) -> BasSpec.shape s x i c y = BasSpec.shape s x i c y'.
Proof.
  intros s x i c y y' Hc H. assert (E : forall k, lam x k y = lam x k y') by (intros; now apply lam_ext). unfold BasSpec.shape.
  destruct s; cbn [fdim] in *; rewrite ?E; try reflexivity; repeat match goal with |- context [edge_of ?e] => destruct (edge_of e) end; rewrite ?E; try reflexivity. now rewrite (H c Hc).
Qed.
Lemma dshape_ext : forall s x i c k y y', (forall k, (k < 3)%nat -> y k = y' k) -> dshape s x i c k y = dshape s x i c k y'.
Proof.
  intros s x i c k y y' H. assert (E : forall k, lam x k y = lam x k y') by (intros; now apply lam_ext). unfold dshape.
  destruct s; rewrite ?E; try reflexivity; repeat match goal with |- context [edge_of ?e] => destruct (edge_of e) end; rewrite ?E; reflexivity.
Qed.
Lemma op_at_ext : forall s o x D k i y y', nondegenerate x -> has_op s o = true -> derivatives s x D -> (i < nfa s)%nat -> (k < odims s o)%nat -> (forall k, (k < 3)%nat -> y k = y' k) -> op_at s o x D k i y = op_at s o x D k i y'.
Proof.
  intros s o x D k i y y' Hx Ho HD Hi Hk Hy. unfold odims in Hk.
  assert (G : forall c a, (c < fdim s)%nat -> (a < 3)%nat -> D i c a y = D i c a y').
  { intros c a Hc Ha. transitivity (dshape s x i c a y); [eapply partial_unique; [now apply HD|now apply shape_partial]|]. rewrite (dshape_ext s x i c a y y' Hy). eapply partial_unique; [now apply shape_partial|now apply HD]. }
  unfold op_at. destruct o as [| | | |a]; cbn [op_of dim_op has_op] in *.
  - now apply shape_ext.
  - apply G; [apply Nat.div_lt_upper_bound; lia|apply Nat.mod_upper_bound; lia].
  - apply Nat.eqb_eq in Ho. now rewrite !G by lia.
  - apply Nat.eqb_eq in Ho. destruct k as [|[|k]]; now rewrite !G by lia.
  - apply Nat.ltb_lt in Ho. apply G; lia.
Qed.
Lemma integrand_ext : forall F r N normal sA oA sB oB x DA DB ia ib y y', nondegenerate x -> has_op sA oA = true -> has_op sB oB = true -> derivatives sA x DA -> derivatives sB x DB -> (ia < nfa sA)%nat -> (ib < nfa sB)%nat ->
  (forall k, (k < 3)%nat -> y k = y' k) -> integrand F r N normal sA oA sB oB x DA DB ia ib y = integrand F r N normal sA oA sB oB x DA DB ia ib y'.
Proof.
  intros F r N normal sA oA sB oB x DA DB ia ib y y' Hx HA HB DA' DB' Ha Hb Hy. unfold integrand. assert (Ev : vec_of y = vec_of y') by (unfold vec_of; now rewrite !Hy by lia). rewrite Ev.
  apply Rsum_ext. intros k Hk. f_equal; [|now apply op_at_ext]. unfold flux. destruct normal.
  - apply Rsum_ext. intros c Hc. f_equal. apply Rsum_ext. intros j Hj. f_equal. now apply op_at_ext.
  - apply Rsum_ext. intros j Hj. f_equal. now apply op_at_ext.
Qed.

(** Sums over the points of a formula *)
Lemma qsum_Rsum : forall F h, qsum F h = Rsum (length F) (fun n => snd (nth n F ([], 0)) * h (fst (nth n F ([], 0)))).
Proof.
  intros F h. induction F as [|[p v] F IH]; [reflexivity|]. unfold qsum in *. cbn [fold_right length fst snd]. rewrite IH. clear IH.
  assert (G : forall n (g : nat -> R), Rsum (S n) g = g 0%nat + Rsum n (fun i => g (S i))). { induction n as [|n IH]; intros g; [cbn; ring|]. rewrite Rsum_S, IH, (Rsum_S n (fun i => g (S i))). ring. }
  rewrite G. reflexivity.
Qed.
