(** Calculus of derivatives along directions, used for C50. *)
From Coq Require Import Reals Lra FunctionalExtensionality.
From Verif Require Import Prelude AdModel AdSpec.
Open Scope R_scope.

Lemma line_0 : forall x v, line x v 0 = x.
Proof. intros. unfold line. extensionality i. ring. Qed.

(** *** Locally along lines *)
Definition loc1 (v x : nat -> R) (P : (nat -> R) -> Prop) : Prop :=
  exists d, 0 < d /\ forall s, Rabs s < d -> P (line x v s).
Definition loc2 (v w x : nat -> R) (P : (nat -> R) -> Prop) : Prop :=
  exists d, 0 < d /\ forall t, Rabs t < d -> loc1 v (line x w t) P.

Lemma loc1_impl : forall v x (P Q : (nat -> R) -> Prop), (forall y, P y -> Q y) -> loc1 v x P -> loc1 v x Q.
Proof. intros v x P Q H (d & Hd & HP). exists d. split; auto. Qed.
Lemma loc2_impl : forall v w x (P Q : (nat -> R) -> Prop), (forall y, P y -> Q y) -> loc2 v w x P -> loc2 v w x Q.
Proof. intros v w x P Q H (d & Hd & HP). exists d. split; auto. intros t Ht. eapply loc1_impl; eauto. Qed.
Lemma loc1_and : forall v x (P Q : (nat -> R) -> Prop), loc1 v x P -> loc1 v x Q -> loc1 v x (fun y => P y /\ Q y).
Proof.
  intros v x P Q (d & Hd & HP) (e & He & HQ). exists (Rmin d e). split; [now apply Rmin_pos|].
  intros s Hs. split; [apply HP|apply HQ]; eapply Rlt_le_trans; eauto; [apply Rmin_l|apply Rmin_r].
Qed.
Lemma loc2_and : forall v w x (P Q : (nat -> R) -> Prop), loc2 v w x P -> loc2 v w x Q -> loc2 v w x (fun y => P y /\ Q y).
Proof.
  intros v w x P Q (d & Hd & HP) (e & He & HQ). exists (Rmin d e). split; [now apply Rmin_pos|].
  intros s Hs. apply loc1_and; [apply HP|apply HQ]; eapply Rlt_le_trans; eauto; [apply Rmin_l|apply Rmin_r].
Qed.

Lemma lim_local : forall (f g : R -> R) l e, 0 < e -> (forall s, Rabs s < e -> f s = g s) ->
  derivable_pt_lim f 0 l -> derivable_pt_lim g 0 l.
Proof.
  intros f g l e He Hfg Hf eps Heps. destruct (Hf eps Heps) as (d & Hd).
  assert (Hm : 0 < Rmin d e) by (apply Rmin_pos; [apply cond_pos|assumption]).
  exists (mkposreal _ Hm). intros h Hh0 Hh. cbn in Hh.
  rewrite <- (Hfg (0 + h)), <- (Hfg 0).
  - apply Hd; [assumption|]. eapply Rlt_le_trans; [exact Hh|apply Rmin_l].
  - rewrite Rabs_R0. assumption.
  - rewrite Rplus_0_l. eapply Rlt_le_trans; [exact Hh|apply Rmin_r].
Qed.

Lemma lim_cont : forall f l, derivable_pt_lim f 0 l -> forall eps, 0 < eps ->
  exists d, 0 < d /\ forall s, Rabs s < d -> Rabs (f s - f 0) < eps.
Proof.
  intros f l H eps Heps.
  assert (C : continuity_pt f 0) by (apply derivable_continuous_pt; exists l; exact H).
  destruct (C eps Heps) as (a & Ha & Hc). exists a. split; [exact Ha|].
  intros s Hs. destruct (Req_dec s 0) as [->|N].
  - replace (f 0 - f 0) with 0 by ring. now rewrite Rabs_R0.
  - apply Hc. split; [split; [exact I|]|].
    + intro E. apply N. symmetry. exact E.
    + cbn. unfold R_dist. now rewrite Rminus_0_r.
Qed.

Lemma D1_ext : forall f g v x d, loc1 v x (fun y => f y = g y) -> D1 f v x d -> D1 g v x d.
Proof. intros f g v x d (e & He & H) Hf. unfold D1 in *. eapply lim_local; [exact He| |exact Hf]. exact H. Qed.
Lemma D2_ext : forall f g v w x d, loc2 v w x (fun y => f y = g y) -> D2 f v w x d -> D2 g v w x d.
Proof.
  intros f g v w x d (e & He & H) (e' & G & He' & HG & Hd). exists (Rmin e e'), G.
  split; [now apply Rmin_pos|]. split; [|exact Hd].
  intros t Ht. apply D1_ext with f.
  - apply H. eapply Rlt_le_trans; [exact Ht|apply Rmin_l].
  - apply HG. eapply Rlt_le_trans; [exact Ht|apply Rmin_r].
Qed.

Lemma loc1_near : forall h v x d eps, D1 h v x d -> 0 < eps -> loc1 v x (fun y => Rabs (h y - h x) < eps).
Proof.
  intros h v x d eps H He. destruct (lim_cont _ _ H eps He) as (e & He' & Hc). exists e. split; [assumption|].
  intros s Hs. specialize (Hc s Hs). cbv beta in Hc. now rewrite line_0 in Hc.
Qed.
Lemma loc2_near : forall h v w x d d' eps, D1 h w x d -> D2 h v w x d' -> 0 < eps ->
  loc2 v w x (fun y => Rabs (h y - h x) < eps).
Proof.
  intros h v w x d d' eps Hw (e & G & He & HG & _) Heps.
  destruct (loc1_near _ _ _ _ (eps / 2) Hw) as (e' & He' & Hn); [lra|].
  exists (Rmin e e'). split; [now apply Rmin_pos|].
  intros t Ht.
  assert (H1 : Rabs t < e) by (eapply Rlt_le_trans; [exact Ht|apply Rmin_l]).
  assert (H2 : Rabs t < e') by (eapply Rlt_le_trans; [exact Ht|apply Rmin_r]).
  eapply loc1_impl; [|apply (loc1_near _ _ _ _ (eps / 2) (HG t H1)); lra].
  intros y Hy. cbv beta in *. specialize (Hn t H2). cbv beta in Hn.
  replace (h y - h x) with ((h y - h (line x w t)) + (h (line x w t) - h x)) by ring.
  eapply Rle_lt_trans; [apply Rabs_triang|]. lra.
Qed.
Lemma loc1_pos : forall h v x d, D1 h v x d -> 0 < h x -> loc1 v x (fun y => 0 < h y).
Proof.
  intros h v x d H Hp. eapply loc1_impl; [|apply (loc1_near _ _ _ _ _ H Hp)].
  intros y Hy. cbv beta in Hy. apply Rabs_def2 in Hy. lra.
Qed.
Lemma loc2_pos : forall h v w x d d', D1 h w x d -> D2 h v w x d' -> 0 < h x -> loc2 v w x (fun y => 0 < h y).
Proof.
  intros h v w x d d' H1 H2 Hp. eapply loc2_impl; [|apply (loc2_near _ _ _ _ _ _ _ H1 H2 Hp)].
  intros y Hy. cbv beta in Hy. apply Rabs_def2 in Hy. lra.
Qed.

(** *** First derivatives *)
Lemma D1_const : forall c v x, D1 (fun _ => c) v x 0.
Proof. intros. unfold D1. apply derivable_pt_lim_const. Qed.
Lemma D1_plus : forall f g v x a b, D1 f v x a -> D1 g v x b -> D1 (fun y => f y + g y) v x (a + b).
Proof. intros. unfold D1 in *. now apply (derivable_pt_lim_plus (fun s => f (line x v s)) (fun s => g (line x v s))). Qed.
Lemma D1_opp : forall f v x a, D1 f v x a -> D1 (fun y => - f y) v x (- a).
Proof. intros. unfold D1 in *. now apply (derivable_pt_lim_opp (fun s => f (line x v s))). Qed.
Lemma D1_mult : forall f g v x a b, D1 f v x a -> D1 g v x b -> D1 (fun y => f y * g y) v x (a * g x + f x * b).
Proof.
  intros f g v x a b Hf Hg. unfold D1 in *.
  pose proof (derivable_pt_lim_mult (fun s => f (line x v s)) (fun s => g (line x v s)) 0 a b Hf Hg) as H.
  cbv beta in H. rewrite line_0 in H. exact H.
Qed.
Lemma D1_comp : forall f p v x a b, D1 f v x a -> derivable_pt_lim p (f x) b -> D1 (fun y => p (f y)) v x (b * a).
Proof.
  intros f p v x a b Hf Hp. unfold D1 in *.
  apply (derivable_pt_lim_comp (fun s => f (line x v s)) p 0 a b); [exact Hf|]. now rewrite line_0.
Qed.

(** *** First and second derivatives together *)
Definition J (f : (nat -> R) -> R) (v w x : nat -> R) (a b h : R) : Prop := D1 f v x a /\ D1 f w x b /\ D2 f v w x h.

Lemma J_ext : forall f g v w x a b h, loc1 v x (fun y => f y = g y) -> loc1 w x (fun y => f y = g y) ->
  loc2 v w x (fun y => f y = g y) -> J f v w x a b h -> J g v w x a b h.
Proof.
  intros f g v w x a b h H1 H2 H3 (A & B & C).
  repeat split; [eapply D1_ext; eauto|eapply D1_ext; eauto|eapply D2_ext; eauto].
Qed.

(** the function along the line w that D2 differentiates has the value of the first derivative at 0 *)
Lemma J_split : forall f v w x a b h, J f v w x a b h ->
  D1 f v x a /\ D1 f w x b /\
  exists eps G, 0 < eps /\ (forall t, Rabs t < eps -> D1 f v (line x w t) (G t)) /\ G 0 = a /\ derivable_pt_lim G 0 h.
Proof.
  intros f v w x a b h (A & B & eps & G & He & HG & Hh). split; [exact A|]. split; [exact B|].
  exists eps, G. split; [exact He|]. split; [exact HG|]. split; [|exact Hh].
  assert (H0 : Rabs 0 < eps) by now rewrite Rabs_R0.
  specialize (HG 0 H0). rewrite line_0 in HG. unfold D1 in *. eapply uniqueness_limite; eauto.
Qed.

Lemma D2_const : forall c v w x, D2 (fun _ => c) v w x 0.
Proof.
  intros. exists 1, (fun _ => 0). split; [lra|]. split; [intros; apply D1_const|apply derivable_pt_lim_const].
Qed.
Lemma J_const : forall c v w x, J (fun _ => c) v w x 0 0 0.
Proof. intros. split; [apply D1_const|]. split; [apply D1_const|apply D2_const]. Qed.

Lemma J_plus : forall f g v w x a b h a' b' h', J f v w x a b h -> J g v w x a' b' h' ->
  J (fun y => f y + g y) v w x (a + a') (b + b') (h + h').
Proof.
  intros f g v w x a b h a' b' h' (A & B & e1 & G & He & HG & Hh) (A' & B' & e2 & G' & He' & HG' & Hh').
  split; [now apply D1_plus|]. split; [now apply D1_plus|].
  exists (Rmin e1 e2), (fun t => G t + G' t). split; [now apply Rmin_pos|]. split.
  - intros t Ht. apply D1_plus; [apply HG|apply HG']; eapply Rlt_le_trans; eauto; [apply Rmin_l|apply Rmin_r].
  - now apply (derivable_pt_lim_plus G G').
Qed.
Lemma J_opp : forall f v w x a b h, J f v w x a b h -> J (fun y => - f y) v w x (- a) (- b) (- h).
Proof.
  intros f v w x a b h (A & B & e1 & G & He & HG & Hh).
  split; [now apply D1_opp|]. split; [now apply D1_opp|].
  exists e1, (fun t => - G t). split; [assumption|]. split.
  - intros t Ht. apply D1_opp. auto.
  - now apply (derivable_pt_lim_opp G).
Qed.
Lemma J_mult : forall f g v w x a b h a' b' h', J f v w x a b h -> J g v w x a' b' h' ->
  J (fun y => f y * g y) v w x (a * g x + f x * a') (b * g x + f x * b')
    (h * g x + a * b' + (b * a' + f x * h')).
Proof.
  intros f g v w x a b h a' b' h' HJ HJ'.
  apply J_split in HJ. apply J_split in HJ'.
  destruct HJ as (A & B & e1 & G & He & HG & HG0 & Hh). destruct HJ' as (A' & B' & e2 & G' & He' & HG' & HG0' & Hh').
  split; [now apply D1_mult|]. split; [now apply D1_mult|].
  exists (Rmin e1 e2), (fun t => G t * g (line x w t) + f (line x w t) * G' t). split; [now apply Rmin_pos|]. split.
  - intros t Ht. apply D1_mult; [apply HG|apply HG']; eapply Rlt_le_trans; eauto; [apply Rmin_l|apply Rmin_r].
  - unfold D1 in B, B'.
    pose proof (derivable_pt_lim_mult G (fun t => g (line x w t)) 0 h b' Hh B') as P1.
    pose proof (derivable_pt_lim_mult (fun t => f (line x w t)) G' 0 b h' B Hh') as P2.
    cbv beta in P1, P2. rewrite line_0 in P1, P2. rewrite HG0 in P1. rewrite HG0' in P2.
    apply (derivable_pt_lim_plus _ _ 0 _ _ P1 P2).
Qed.

(** p has the first derivative p1 near a and p1 has the derivative c at a *)
Definition fn2 (p p1 : R -> R) (a c : R) : Prop :=
  (exists e, 0 < e /\ forall y, Rabs (y - a) < e -> derivable_pt_lim p y (p1 y)) /\ derivable_pt_lim p1 a c.

Lemma fn2_first : forall p p1 a c, fn2 p p1 a c -> derivable_pt_lim p a (p1 a).
Proof. intros p p1 a c ((e & He & H) & _). apply H. replace (a - a) with 0 by ring. now rewrite Rabs_R0. Qed.

Lemma J_comp : forall f p p1 c v w x a b h, J f v w x a b h -> fn2 p p1 (f x) c ->
  J (fun y => p (f y)) v w x (p1 (f x) * a) (p1 (f x) * b) (c * a * b + p1 (f x) * h).
Proof.
  intros f p p1 c v w x a b h HJ Hp. pose proof (fn2_first _ _ _ _ Hp) as Hf.
  destruct Hp as ((e & He & Hp) & Hc). apply J_split in HJ.
  destruct HJ as (A & B & e1 & G & He1 & HG & HG0 & Hh).
  split; [now apply D1_comp|]. split; [now apply D1_comp|].
  destruct (loc1_near _ _ _ _ e B He) as (e2 & He2 & Hn).
  exists (Rmin e1 e2), (fun t => p1 (f (line x w t)) * G t). split; [now apply Rmin_pos|]. split.
  - intros t Ht.
    assert (H1 : Rabs t < e1) by (eapply Rlt_le_trans; [exact Ht|apply Rmin_l]).
    assert (H2 : Rabs t < e2) by (eapply Rlt_le_trans; [exact Ht|apply Rmin_r]).
    apply D1_comp; [now apply HG|]. apply Hp. apply (Hn t H2).
  - assert (P : derivable_pt_lim (fun t => p1 (f (line x w t))) 0 (c * b)).
    { apply (derivable_pt_lim_comp (fun t => f (line x w t)) p1 0 b c); [exact B|]. now rewrite line_0. }
    pose proof (derivable_pt_lim_mult _ G 0 _ _ P Hh) as Q. cbv beta in Q. rewrite line_0, HG0 in Q.
    replace (c * a * b + p1 (f x) * h) with (c * b * a + p1 (f x) * h) by ring. exact Q.
Qed.
