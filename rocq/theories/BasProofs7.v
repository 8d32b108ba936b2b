(** Interpolation: the dofs of the basis functions. *)
From Verif Require Import Prelude RSum GeoModel GeoSpec SpModel BasModel BasSpec BasProofs CoreProofs BasProofs2 BasProofs3 BasProofs5.
Local Open Scope R_scope.

(** *** put, add *)
Lemma put_ok : forall fusion i v ud, has_dof fusion i ud -> exists ud', put fusion i v ud = Some ud' /\ entered fusion i v ud ud'.
Proof.
  intros fusion i v ud H. unfold put.
  destruct (for_inv (fun n u => entered n i v ud u) fusion (fun r ud => do a <- rd ud r; do a <- wr a i (v r); wr ud r a) ud) as (ud' & E & P).
  - split; [reflexivity|]. intros r a Ha. exists a. split; [exact Ha|]. split; [reflexivity|]. intros j. reflexivity.
  - intros r u Hr (L & P). destruct (H r Hr) as (a & Ea & Hi). destruct (P r a Ea) as (a' & Ea' & La & Ra). rewrite Ea'. cbn [obind].
    destruct (wr_some a' i (v r)) as (a2 & E2 & L2 & R2); [lia|]. rewrite E2. cbn [obind].
    destruct (wr_some u r a2) as (u2 & E3 & L3 & R3); [rewrite L; now apply rd_lt in Ea|]. exists u2. split; [exact E3|]. split; [congruence|].
    intros r' b Hb. rewrite R3. destruct (Nat.eqb_spec r' r) as [->|Hne].
    + rewrite Ea in Hb. apply Some_inj' in Hb. subst b. exists a2. split; [reflexivity|]. split; [congruence|]. intros j. rewrite R2. assert ((r <? S r)%nat = true) as -> by (apply Nat.ltb_lt; lia).
      destruct (Nat.eqb_spec j i) as [->|]; [reflexivity|]. rewrite Ra. destruct (Nat.eqb_spec j i) as [->|]; [contradiction|]. now rewrite Bool.andb_false_r.
    + destruct (P r' b Hb) as (b' & Eb' & Lb & Rb). exists b'. split; [exact Eb'|]. split; [exact Lb|]. intros j. rewrite Rb. replace (r' <? S r)%nat with (r' <? r)%nat; [reflexivity|].
      destruct (Nat.ltb_spec r' r), (Nat.ltb_spec r' (S r)); auto; lia.
  - exists ud'. auto.
Qed.
Lemma add_ok : forall fusion i s v ud ud0, has_dof fusion i ud0 -> entered fusion i s ud0 ud -> exists ud', add fusion i v ud = Some ud' /\ entered fusion i (fun r => s r + v r) ud0 ud'.
Proof.
  intros fusion i s v ud ud0 H (L0 & P0). unfold add.
  destruct (for_inv (fun n u => length u = length ud0 /\ forall r a, rd ud0 r = Some a -> exists a', rd u r = Some a' /\ length a' = length a /\
      forall j, rd a' j = if ((r <? fusion) && (j =? i))%nat then Some (if (r <? n)%nat then s r + v r else s r) else rd a j) fusion
     (fun r ud => do a <- rd ud r; do y <- rd a i; do a <- wr a i (y + v r); wr ud r a) ud) as (ud' & E & P).
  - split; [exact L0|]. intros r a Ha. destruct (P0 r a Ha) as (a' & Ea' & La & Ra). exists a'. split; [exact Ea'|]. split; [exact La|]. intros j. rewrite Ra. reflexivity.
  - intros r u Hr (L & P). destruct (H r Hr) as (a & Ea & Hi). destruct (P r a Ea) as (a' & Ea' & La & Ra). rewrite Ea'. cbn [obind].
    rewrite Ra. assert ((r <? fusion)%nat = true) as Hrf by (apply Nat.ltb_lt; lia). rewrite Hrf, Nat.eqb_refl. assert ((r <? r)%nat = false) as Hrr by (apply Nat.ltb_ge; lia). rewrite Hrr. cbn [andb obind].
    destruct (wr_some a' i (s r + v r)) as (a2 & E2 & L2 & R2); [lia|]. rewrite E2. cbn [obind].
    destruct (wr_some u r a2) as (u2 & E3 & L3 & R3); [rewrite L; now apply rd_lt in Ea|]. exists u2. split; [exact E3|]. split; [congruence|].
    intros r' b Hb. rewrite R3. destruct (Nat.eqb_spec r' r) as [->|Hne].
    + rewrite Ea in Hb. apply Some_inj' in Hb. subst b. exists a2. split; [reflexivity|]. split; [congruence|]. intros j. rewrite R2, Hrf. assert ((r <? S r)%nat = true) as -> by (apply Nat.ltb_lt; lia).
      destruct (Nat.eqb_spec j i) as [->|Hj]; [reflexivity|]. rewrite Ra, Hrf. apply Nat.eqb_neq in Hj. now rewrite Hj.
    + destruct (P r' b Hb) as (b' & Eb' & Lb & Rb). exists b'. split; [exact Eb'|]. split; [exact Lb|]. intros j. rewrite Rb. replace (r' <? S r)%nat with (r' <? r)%nat; [reflexivity|].
      destruct (Nat.ltb_spec r' r), (Nat.ltb_spec r' (S r)); auto; lia.
  - exists ud'. split; [exact E|]. destruct P as (L & P). split; [exact L|]. intros r a Ha. destruct (P r a Ha) as (a' & Ea' & La & Ra). exists a'. split; [exact Ea'|]. split; [exact La|]. intros j. rewrite Ra.
    destruct (Nat.ltb_spec r fusion); [reflexivity|]. reflexivity.
Qed.
Lemma entered_ext : forall fusion i v v' ud ud', entered fusion i v ud ud' -> (forall r, (r < fusion)%nat -> v r = v' r) -> entered fusion i v' ud ud'.
Proof.
  intros fusion i v v' ud ud' (L & P) H. split; [exact L|]. intros r a Ha. destruct (P r a Ha) as (a' & Ea & La & Ra). exists a'. split; [exact Ea|]. split; [exact La|]. intros j. rewrite Ra.
  destruct (Nat.ltb_spec r fusion); [|reflexivity]. now rewrite H.
Qed.
Lemma qsum_cons : forall p w fm h, qsum ((p, w) :: fm) h = w * h p + qsum fm h.
Proof. reflexivity. Qed.
Lemma quad_loop_ok : forall fm fusion i v (h : list R -> nat -> R) s ud ud0, has_dof fusion i ud0 -> entered fusion i s ud0 ud ->
  (forall p w, In (p, w) fm -> v p w = Some (fun r => w * h p r)) -> exists ud', quad_loop fm fusion i v ud = Some ud' /\ entered fusion i (fun r => s r + qsum fm (fun p => h p r)) ud0 ud'.
Proof.
  induction fm as [|[p w] fm IH]; intros fusion i v h s ud ud0 Hd He Hv; cbn [quad_loop].
  - exists ud. split; [reflexivity|]. eapply entered_ext; [exact He|]. intros. unfold qsum. cbn [fold_right]. ring.
  - rewrite (Hv p w) by (now left). cbn [obind]. destruct (add_ok fusion i s (fun r => w * h p r) ud ud0 Hd He) as (u1 & E1 & H1). rewrite E1. cbn [obind].
    destruct (IH fusion i v h (fun r => s r + w * h p r) u1 ud0 Hd H1) as (u2 & E2 & H2); [intros p' w' Hin; apply Hv; now right|]. exists u2. split; [exact E2|].
    eapply entered_ext; [exact H2|]. intros r Hr. rewrite qsum_cons. ring.
Qed.
Lemma quad_dof_ok : forall fm fusion i v (h : list R -> nat -> R) ud, has_dof fusion i ud -> (forall p w, In (p, w) fm -> v p w = Some (fun r => w * h p r)) ->
  exists ud', quad_dof fm fusion i v ud = Some ud' /\ entered fusion i (fun r => qsum fm (fun p => h p r)) ud ud'.
Proof.
  intros fm fusion i v h ud Hd Hv. unfold quad_dof. destruct (put_ok fusion i (fun _ => 0) ud Hd) as (u1 & E1 & H1). rewrite E1. cbn [obind].
  destruct (quad_loop_ok fm fusion i v h (fun _ => 0) u1 ud Hd H1 Hv) as (u2 & E2 & H2). exists u2. split; [exact E2|]. eapply entered_ext; [exact H2|]. intros. cbv beta. ring.
Qed.
Lemma qsum_ext : forall fm h h', (forall p w, In (p, w) fm -> h p = h' p) -> qsum fm h = qsum fm h'.
Proof. induction fm as [|[p w] fm IH]; intros h h' H; [reflexivity|]. unfold qsum in *. cbn [fold_right fst snd]. rewrite (H p w) by (now left). rewrite (IH h h'); [reflexivity|]. intros p' w' Hin. apply (H p' w'). now right. Qed.
Lemma qsum_lin : forall fm h h' a b, qsum fm (fun p => a * h p + b * h' p) = a * qsum fm h + b * qsum fm h'.
Proof. induction fm as [|[p w] fm IH]; intros h h' a b; unfold qsum in *; cbn [fold_right fst snd]; [ring|]. rewrite IH. ring. Qed.
Lemma qsum_const : forall fm a, qsum fm (fun _ => a) = a * qsum fm (fun _ => 1).
Proof. induction fm as [|[p w] fm IH]; intros a; unfold qsum in *; cbn [fold_right fst snd]; [ring|]. rewrite IH. ring. Qed.

(** *** Nodal spaces *)
Ltac upto i := repeat (destruct i as [|i]; [|try (exfalso; lia)]).
Lemma node_sum : forall s i, nodal s = true -> (i < nfa s)%nat -> Rsum 4 (node s i) = 1.
Proof. intros s i Hs Hi. destruct s; try discriminate Hs; cbn [nfa] in Hi; upto i; cbn [Rsum]; unfold node, unitw, delta; cbn; lra. Qed.
Lemma node_dual : forall s i j, nodal s = true -> (i < nfa s)%nat -> (j < nfa s)%nat -> sval s (node s i) j = delta i j.
Proof.
  intros s i j Hs Hi Hj. destruct s; try discriminate Hs; cbn [nfa] in Hi, Hj; upto i; upto j; unfold sval, node, unitw, delta; cbn; lra.
Qed.
Lemma vec_eq : forall a0 a1 a2 b0 b1 b2 : R, a0 = b0 -> a1 = b1 -> a2 = b2 -> (a0, a1, a2) = (b0, b1, b2).
Proof. intros. now subst. Qed.
Lemma node_interpolate : forall s Q x F fusion i ud, nodal s = true -> (i < nfa s)%nat ->
  interpolate s Q (fun k => vec_of (x k)) F fusion i ud = put fusion i (fun r => F (vec_of (comb x (node s i))) r) ud.
Proof.
  intros s Q x F fusion i ud Hs Hi.
  assert (G : forall X Y, X = Y -> put fusion i (fun r => F X r) ud = put fusion i (fun r => F Y r) ud) by (intros X Y ->; reflexivity).
  destruct s; try discriminate Hs; cbn [nfa] in Hi; cbn [interpolate].
  - rewrite guard_true by (now apply Nat.ltb_lt). apply G. four i; unfold vec_of, comb, node, unitw, delta; cbn; apply vec_eq; ring.
  - rewrite guard_true by (now apply Nat.ltb_lt). upto i; cbn [Nat.ltb Nat.leb Nat.sub Nat.mul Nat.add lookup rd nth_error obind]; apply G; unfold vec_of, comb, node, unitw, delta, mid, vdiv, vadd; cbn; apply vec_eq; field.
  - rewrite guard_true by (now apply Nat.ltb_lt). upto i; cbn -[vec_of comb node put Rdiv]; cbn -[vec_of comb node put Rdiv];
      apply G; unfold vec_of, comb, node, unitw, delta, mid, vdiv, vadd, vscal; cbn; apply vec_eq; field.
  - rewrite guard_true by (now apply Nat.ltb_lt). upto i; cbn [Nat.ltb Nat.leb Nat.sub Nat.mul Nat.add lookup rd nth_error obind]; apply G; unfold vec_of, comb, node, unitw, delta, mid, vdiv, vadd; cbn; apply vec_eq; field.
  - rewrite guard_true by (now apply Nat.ltb_lt). assert (i = 0)%nat as -> by lia. apply G. unfold vec_of, comb, node, unitw, delta, mid, vdiv, vadd; cbn; apply vec_eq; field.
Qed.
Lemma of_vec_of : forall y c, (c < 3)%nat -> of_vec (vec_of y) c = y c.
Proof. intros y c Hc. three c; reflexivity. Qed.
Lemma sval_comb : forall s x w j c, scalar s = true -> nondegenerate x -> Rsum 4 w = 1 -> (j < nfa s)%nat -> shape s x j c (of_vec (vec_of (comb x w))) = sval s w j.
Proof.
  intros s x w j c Hs Hx Hw Hj. rewrite shape_sval by exact Hs. apply sval_ext; [exact Hj|]. intros k Hk. rewrite (lam_ext x k _ (comb x w)) by (intros; now apply of_vec_of). now apply lam_bary.
Qed.
