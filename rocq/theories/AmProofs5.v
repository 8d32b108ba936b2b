From Coq Require Import Lra Lia Permutation.
From Verif Require Import Prelude RSum GeoModel GeoSpec GeoProps DenseSpec QrSpec SvdModel SvdSpec SvdProofs SvdProofs2 SvdProofs3 SvdProofs4 AmModel AmSpec AmProofs AmProofs2 AmProofs3 AmProofs4.
Local Open Scope R_scope.

Definition area (x : nat -> vec) (f : nat) : R := tri_area (x f) (x (next f 1)) (x (next f 2)).
Definition outward (x : nat -> vec) (f : nat) : vec := snd (face_normal (x f) (x (next f 1)) (x (next f 2)) (x (next f 3))).

Lemma area_normal : forall p0 p1 p2 p3 i, (i < 3)%nat -> tetdet p0 p1 p2 p3 <> 0 ->
  tri_area p0 p1 p2 * vget (snd (face_normal p0 p1 p2 p3)) i = (if Rlt_dec 0 (vdot (cross (vsub p1 p0) (vsub p2 p0)) (vsub p3 p0)) then - co (cross (vsub p1 p0) (vsub p2 p0)) i else co (cross (vsub p1 p0) (vsub p2 p0)) i) / 2.
Proof.
  intros p0 p1 p2 p3 i Hi Hd. assert (Hg : gram2 p0 p1 p2 <> 0) by (intros Q; apply Hd; now apply gram_zero). rewrite C46_area. unfold face_normal. destruct (cross (vsub p1 p0) (vsub p2 p0)) as [[n0 n1] n2] eqn:En.
  assert (Hgr : gram2 p0 p1 p2 = n0 * n0 + n1 * n1 + n2 * n2).
  { destruct p0 as [[a0 a1] a2], p1 as [[b0 b1] b2], p2 as [[c0 c1] c2]. cbn [vsub cross] in En. injection En as <- <- <-. unfold gram2, dot, diff, co. cbn. ring. }
  rewrite Hgr in *. set (L := n0 * n0 + n1 * n1 + n2 * n2) in *. assert (Hs : 0 < sqrt L) by (apply sqrt_lt_R0; assert (0 <= L) by (unfold L; nra); lra). set (l := sqrt L) in *.
  destruct (Rlt_dec _ _); cbn [snd]; destruct i as [|[|[|i]]]; try lia; cbn [vget co fst snd]; field; lra.
Qed.
(** the divergence theorem for affine functions *)
Lemma closed_ok : forall x i, (i < 3)%nat -> tetdet (x 0%nat) (x 1%nat) (x 2%nat) (x 3%nat) <> 0 ->
  Rsum 4 (fun f => area x f * vget (outward x f) i) = 0 /\
  forall j, (j < 3)%nat -> Rsum 4 (fun f => area x f * vget (outward x f) i * middle x f j) = if (i =? j)%nat then volume x else 0.
Proof.
  intros x i Hi Hd.
  assert (P : forall f, (f < 4)%nat -> tetdet (x f) (x (next f 1)) (x (next f 2)) (x (next f 3)) <> 0).
  { intros f Hf. destruct f as [|[|[|[|]]]]; try lia; unfold next; cbn [Nat.modulo Nat.divmod fst snd Nat.sub Nat.add]; try assumption;
    (match goal with |- ?t <> 0 => assert (Q : t = tetdet (x 0%nat) (x 1%nat) (x 2%nat) (x 3%nat) \/ t = - tetdet (x 0%nat) (x 1%nat) (x 2%nat) (x 3%nat)) end;
     [unfold tetdet, det3, diff, co; destruct (x 0%nat) as [[a0 a1] a2], (x 1%nat) as [[b0 b1] b2], (x 2%nat) as [[c0 c1] c2], (x 3%nat) as [[d0 d1] d2]; cbn [fst snd]; solve [left; ring|right; ring]|destruct Q as [-> | ->]; lra]). }
  unfold area, outward, volume. cbn [Rsum]. rewrite !area_normal by (try assumption; apply P; lia). clear P. unfold middle, next. cbn [Nat.modulo Nat.divmod fst snd Nat.sub Nat.add].
  destruct (x 0%nat) as [[a0 a1] a2], (x 1%nat) as [[b0 b1] b2], (x 2%nat) as [[c0 c1] c2], (x 3%nat) as [[d0 d1] d2]. unfold tetdet, det3, diff, co in Hd. cbn [fst snd] in Hd.
  unfold tetdet, det3, diff. cbn [co fst snd]. match type of Hd with ?e <> 0 => set (D := e) in * end. cbn [vsub cross vdot].
  repeat match goal with |- context [Rlt_dec 0 ?v] => lazymatch v with D => fail | - D => fail | _ =>
    first [assert (Ev : v = D) by (unfold D; ring) | assert (Ev : v = - D) by (unfold D; ring)]; destruct (Rlt_dec 0 v); rewrite Ev in *; clear Ev end end; try lra.
  - rewrite (Rabs_pos_eq D) by lra. split; [destruct i as [|[|[|i]]]; try lia; cbn [co fst snd]; field|]. intros j Hj. destruct i as [|[|[|i]]], j as [|[|[|j]]]; try lia; cbn [co fst snd Nat.eqb]; unfold D; field.
  - rewrite (Rabs_left1 D) by lra. split; [destruct i as [|[|[|i]]]; try lia; cbn [co fst snd]; field|]. intros j Hj. destruct i as [|[|[|i]]], j as [|[|[|j]]]; try lia; cbn [co fst snd Nat.eqb]; unfold D; field.
Qed.

Lemma face_int_ok : forall nfa (a : matrix) v j, (j < 3)%nat -> face_int nfa (store 3 nfa a) (arr nfa v) j = Some (Rsum nfa (fun k => a j k * v k)).
Proof.
  intros nfa a v j Hj. unfold face_int. rewrite (for_sum nfa (fun k => a j k * v k)); [now rewrite Rplus_0_l|]. intros k s Hk. rewrite mrd_store by assumption. cbn [obind]. rewrite rd_arr by assumption. reflexivity.
Qed.
Definition hess (nfa : nat) (x : nat -> vec) (vol : R) (af : nat -> matrix) (v : nat -> R) : matrix :=
  symm (fun i j => Rsum 4 (fun f => vget (outward x f) i * Rsum nfa (fun k => af f j k * v k)) * (1 / vol)).
Lemma compute_H2_ok : forall nfa c af v, (forall f, (f < 4)%nat -> c_A c f = store 3 nfa (af f)) -> 0 < c_vol c ->
  compute_H2 nfa c (arr nfa v) = Some (m9 (hess nfa (c_x c) (c_vol c) af v)).
Proof.
  intros nfa c af v Hc Hv. unfold compute_H2. destruct (Rlt_dec 0 (c_vol c)); [|contradiction].
  set (I := fun f j => Rsum nfa (fun k => af f j k * v k)).
  assert (St : forall f a, (f < 4)%nat -> (do i0 <- face_int nfa (c_A c f) (arr nfa v) 0; do i1 <- face_int nfa (c_A c f) (arr nfa v) 1; do i2 <- face_int nfa (c_A c f) (arr nfa v) 2;
      for_ 3 (fun i H => for_ 3 (fun j H => do h <- mrd H 3 i j; mwr H 3 i j (h + vget (outward (c_x c) f) i * vget (i0, i1, i2) j)) H) (m9 a)) = Some (m9 (fun i j => a i j + vget (outward (c_x c) f) i * I f j))).
  { intros f a Hf. rewrite (Hc f Hf). rewrite !face_int_ok by lia. cbn [obind]. fold (I f 0%nat) (I f 1%nat) (I f 2%nat). reflexivity. }
  match goal with |- context [for_ 4 ?b zero9] => set (body := b) end.
  destruct (for_rep0 m9 (fun n a => forall i j, (i < 3)%nat -> (j < 3)%nat -> a i j = Rsum n (fun f => vget (outward (c_x c) f) i * I f j)) 4 body (fun _ _ => 0)) as (a & E & Ha).
  - reflexivity.
  - intros f a Hf Ha. exists (fun i j => a i j + vget (outward (c_x c) f) i * I f j). split; [apply (St f a Hf)|]. intros i j Hi Hj. cbn [Rsum]. now rewrite Ha.
  - rewrite zero9_ok, E. cbn [obind]. rewrite dense_scale_ok. cbn [obind]. rewrite sym3_ok. f_equal. apply m9_ext. intros i j Hi Hj. unfold hess, symm. rewrite !Ha by assumption. reflexivity.
Qed.
Lemma hess_exact : forall nfa x af v (G : matrix) (b : nat -> R), tetdet (x 0%nat) (x 1%nat) (x 2%nat) (x 3%nat) <> 0 ->
  (forall f j, (f < 4)%nat -> (j < 3)%nat -> Rsum nfa (fun k => af f j k * v k) = face_flux x b G f j) ->
  forall i j, (i < 3)%nat -> (j < 3)%nat -> hess nfa x (volume x) af v i j = symm G i j.
Proof.
  intros nfa x af v G b Hd H.
  assert (Hv : 0 < volume x) by (unfold volume; apply Rabs_pos_lt in Hd; lra).
  assert (K : forall i j, (i < 3)%nat -> (j < 3)%nat -> Rsum 4 (fun f => vget (outward x f) i * Rsum nfa (fun k => af f j k * v k)) * (1 / volume x) = G i j).
  { intros i j Hi Hj. rewrite (Rsum_ext 4 _ (fun f => vget (outward x f) i * (area x f * (b j + Rsum 3 (fun i => G i j * middle x f i))))) by (intros f Hf; rewrite H by assumption; unfold face_flux, face_area, area; now rewrite C46_area).
    destruct (closed_ok x i Hi Hd) as [Z M]. pose proof (M 0%nat ltac:(lia)) as M0. pose proof (M 1%nat ltac:(lia)) as M1. pose proof (M 2%nat ltac:(lia)) as M2. 
    transitivity ((b j * Rsum 4 (fun f => area x f * vget (outward x f) i) + G 0%nat j * Rsum 4 (fun f => area x f * vget (outward x f) i * middle x f 0) + G 1%nat j * Rsum 4 (fun f => area x f * vget (outward x f) i * middle x f 1) + G 2%nat j * Rsum 4 (fun f => area x f * vget (outward x f) i * middle x f 2)) * (1 / volume x)).
    - f_equal. cbn [Rsum]. ring.
    - rewrite Z, M0, M1, M2. destruct i as [|[|[|i]]]; try lia; cbn [Nat.eqb]; field; lra. }
  intros i j Hi Hj. unfold hess, symm. now rewrite !K by assumption.
Qed.
