(** The checks of all tables *)
From Coq Require Import ZArith List Bool.
From Verif Require Import Prelude QuadModel QuadTables QuadRules QuadSpec QuadCheck.
Import ListNotations.

Lemma seg_checked : forallb (seg_ok (means 1 21)) (seq 0 22) = true.
Proof. vm_cast_no_check (eq_refl true). Qed.
Lemma tri_checked : forallb (tri_ok (means 2 20)) (seq 0 21) = true.
Proof. vm_cast_no_check (eq_refl true). Qed.
Lemma tet_checked : forallb (tet_ok (means 3 20)) (seq 0 21) = true.
Proof. vm_cast_no_check (eq_refl true). Qed.
