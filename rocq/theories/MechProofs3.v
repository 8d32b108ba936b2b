(** Elements of the stress and of its derivative. *)
From Coq Require Import Reals Lra Lia Psatz.
From Verif Require Import Prelude RSum AdModel TnModel TnSpec TnProofs3 MechModel.
Open Scope R_scope.

Lemma len21 : forall l : list R, length l = 21%nat -> exists a0 a1 a2 a3 a4 a5 a6 a7 a8 a9 b0 b1 b2 b3 b4 b5 b6 b7 b8 b9 c0,
  l = [a0; a1; a2; a3; a4; a5; a6; a7; a8; a9; b0; b1; b2; b3; b4; b5; b6; b7; b8; b9; c0].
Proof.
  intros l H. do 21 (destruct l as [|? l]; [discriminate|]). destruct l; [|discriminate]. do 21 eexists. reflexivity.
Qed.
Definition def_grad (grU : list R) (i j : nat) : R := delta i j + nth (3 * i + j) grU 0.

Lemma S_to_P_ok : forall grU S i j, length grU = 9%nat -> length S = 6%nat -> (i < 3)%nat -> (j < 3)%nat ->
  mt2 (S_to_P grU S) i j = Rsum 3 (fun k => def_grad grU i k * at2 S k j).
Proof. intros grU S i j ? ? Hi Hj. lists. unfold S_to_P. i3 i; i3 j; ev; ring. Qed.

Lemma dS_to_dP_ok : forall grU S dS i j k l, length grU = 9%nat -> length S = 6%nat -> length dS = 21%nat ->
  (i < 3)%nat -> (j < 3)%nat -> (k < 3)%nat -> (l < 3)%nat ->
  at45 (dS_to_dP grU S dS) i j k l =
    delta i k * at2 S l j + Rsum 3 (fun n => Rsum 3 (fun m => def_grad grU i n * def_grad grU k m * at4 dS n j m l)).
Proof.
  intros grU S dS i j k l ? ? HD Hi Hj Hk Hl. lists. destruct (len21 _ HD) as (? & ? & ? & ? & ? & ? & ? & ? & ? & ? & ? & ? & ? & ? & ? & ? & ? & ? & ? & ? & ? & ->).
  i3 i; i3 j; i3 k; i3 l; ev; ring.
Qed.
