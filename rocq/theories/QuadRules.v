(** The three functions that return a quadrature formula (anifem++/fem/quadrature_formulas.cpp) *)
From Coq Require Import ZArith Reals List.
From Verif Require Import Prelude QuadModel QuadTables.
Import ListNotations.

Definition reals {C : Type} (points : C -> list (list R)) (f : list C) : list R := concat (flat_map points f).
Definition weight_array (w : list (nat * lit)) : list R := flat_map (weights Rarith) w.

(** quadrature_formulas.cpp:8-106; L(X) and S2(X) are lines 92-93; an order out of range throws *)
Definition segment_quadrature_formulas (order : Z) : option quad :=
  let L := fun f => (length (reals (seg_points Rarith) f) / 2)%nat in
  if ((order >? 21) || (order <? 0))%Z then None else
  let o := Z.to_nat order in
  do np <- nth_error seg_rules_np o;
  do f <- nth_error seg_rules o;
  do w <- nth_error seg_rules_w o;
  do s <- nth_error seg_symmetry o;
  Some (Quad (L np) [fst s; L (snd s) / 2]%nat (reals (seg_points Rarith) f) (weight_array w)).

(** quadrature_formulas.cpp:109-523 *)
Definition triangle_quadrature_formulas (order : Z) : option quad :=
  let L := fun f => (length (reals (tri_points Rarith) f) / 3)%nat in
  if ((order >? 20) || (order <? 0))%Z then None else
  let o := Z.to_nat order in
  do np <- nth_error tri_rules_np o;
  do f <- nth_error tri_rules o;
  do w <- nth_error tri_rules_w o;
  do s <- nth_error tri_symmetry o;
  Some (Quad (L np) s (reals (tri_points Rarith) f) (weight_array w)).

(** quadrature_formulas.cpp:526-1503 *)
Definition tetrahedron_quadrature_formulas (order : Z) : option quad :=
  let L := fun f => (length (reals (tet_points Rarith) f) / 4)%nat in
  if ((order >? 20) || (order <? 0))%Z then None else
  let o := Z.to_nat order in
  do np <- nth_error tet_rules_np o;
  do f <- nth_error tet_rules o;
  do w <- nth_error tet_rules_w o;
  do s <- nth_error tet_symmetry o;
  Some (Quad (L np) s (reals (tet_points Rarith) f) (weight_array w)).
