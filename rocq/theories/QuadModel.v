(** Quadrature formulas: the macros that write the tables, the tables as memory, and access to their points
    (anifem++/fem/quadrature_formulas.{h,cpp}).  Numbers of type qReal are modelled by reals: the decimal constants of
    the source are taken exactly, their rounding to double is not modelled (see C43_rounding for its effect). *)
From Coq Require Import ZArith Reals List.
From Verif Require Import Prelude.
Import ListNotations.

(** A constant of the source: the decimal m / 10^k, or a quotient qReal(p)/q *)
Inductive lit := Dec (m : Z) (k : N) | Frac (p : Z) (q : positive).

(** The macros only copy, add and subtract numbers; they are written once for every type with these operations *)
Record arith (T : Type) := Arith { one : T; num : lit -> T; add : T -> T -> T; sub : T -> T -> T }.
Arguments one {T}. Arguments num {T}. Arguments add {T}. Arguments sub {T}.

(** One macro call in an array of points *)
Inductive seg_call := SCentre | STwist2 (k1 : lit).
Inductive tri_call := TCentre | TTwist3 (k1 : lit) | TTwist6 (k1 k2 : lit).
Inductive tet_call :=
| Centre | Twist4 (k1 k2 : lit) | Twist6 (k1 k2 : lit) | Twist12 (k1 k2 k3 : lit) | Twist24 (k1 k2 k3 k4 : lit)
| SymTwist1 | SymTwist2 (k : lit) | SymTwist3 (k : lit) | SymTwist4 (k1 k2 : lit) | SymTwist5 (k1 k2 k3 : lit).

Section Macros.
Context {T : Type} (A : arith T).
Local Notation "x ⊖ y" := (sub A x y) (at level 50, left associativity).
Local Notation "x ⊕ y" := (add A x y) (at level 50, left associativity).
Local Notation I := (one A).

(** quadrature_formulas.cpp:11 CENTRE, 13 TWIST2; the result lists the points, each with its two coordinates *)
Definition seg_points (c : seg_call) : list (list T) :=
  match c with
  | SCentre => [[num A (Dec 5 1); num A (Dec 5 1)]]
  | STwist2 k1 => let k1 := num A k1 in [[k1; I ⊖ k1]; [I ⊖ k1; k1]]
  end.

(** quadrature_formulas.cpp:111 PUSH *)
Definition push2 (l1 l2 : T) : list T := [l1; l2; I ⊖ l1 ⊖ l2].
(** quadrature_formulas.cpp:112 CENTRE, 114 TWIST3, 116 TWIST6 (2*k is k + k) *)
Definition tri_points (c : tri_call) : list (list T) :=
  match c with
  | TCentre => [push2 (num A (Frac 1 3)) (num A (Frac 1 3))]
  | TTwist3 k1 => let k1 := num A k1 in [push2 k1 k1; push2 k1 (I ⊖ (k1 ⊕ k1)); push2 (I ⊖ (k1 ⊕ k1)) k1]
  | TTwist6 k1 k2 =>
      let k1 := num A k1 in let k2 := num A k2 in
      [push2 k1 k2; push2 k2 (I ⊖ (k1 ⊕ k2)); push2 (I ⊖ (k1 ⊕ k2)) k1; push2 k1 (I ⊖ (k1 ⊕ k2)); push2 (I ⊖ (k1 ⊕ k2)) k2; push2 k2 k1]
  end.

(** quadrature_formulas.cpp:528 PUSH *)
Definition push3 (l1 l2 l3 : T) : list T := [l1; l2; l3; I ⊖ l1 ⊖ l2 ⊖ l3].
(** quadrature_formulas.cpp:531 *)
Definition twist4 (k1 k2 : T) : list (list T) := [push3 k1 k2 k2; push3 k2 k1 k2; push3 k2 k2 k1; push3 k2 k2 k2].
(** quadrature_formulas.cpp:550 *)
Definition twist6 (k1 k2 : T) : list (list T) :=
  [push3 k1 k1 k2; push3 k1 k2 k1; push3 k2 k1 k1; push3 k1 k2 k2; push3 k2 k1 k2; push3 k2 k2 k1].
(** quadrature_formulas.cpp:563-564 *)
Definition twist12 (k1 k2 k3 : T) : list (list T) :=
  [push3 k1 k3 k2; push3 k3 k2 k1; push3 k2 k1 k3; push3 k1 k2 k3; push3 k2 k3 k1; push3 k3 k1 k2;
   push3 k3 k2 k2; push3 k2 k1 k2; push3 k1 k2 k2; push3 k2 k3 k2; push3 k2 k2 k3; push3 k2 k2 k1].
(** quadrature_formulas.cpp:704-706 *)
Definition twist24 (k1 k2 k3 k4 : T) : list (list T) :=
  [push3 k1 k2 k3; push3 k2 k3 k1; push3 k3 k1 k2; push3 k1 k3 k2; push3 k3 k2 k1; push3 k2 k1 k3; push3 k1 k2 k4; push3 k2 k3 k4;
   push3 k3 k1 k4; push3 k1 k3 k4; push3 k3 k2 k4; push3 k2 k1 k4; push3 k1 k4 k2; push3 k2 k4 k3; push3 k3 k4 k1; push3 k1 k4 k3;
   push3 k3 k4 k2; push3 k2 k4 k1; push3 k4 k1 k2; push3 k4 k2 k3; push3 k4 k3 k1; push3 k4 k1 k3; push3 k4 k3 k2; push3 k4 k2 k1].
(** quadrature_formulas.cpp:529 CENTRE, 809-817 STWIST1 .. STWIST5 (2*k is k + k, 3*k is k + k + k) *)
Definition tet_points (c : tet_call) : list (list T) :=
  match c with
  | Centre | SymTwist1 => let q := num A (Dec 25 2) in [[q; q; q; q]]
  | Twist4 k1 k2 => twist4 (num A k1) (num A k2)
  | Twist6 k1 k2 => twist6 (num A k1) (num A k2)
  | Twist12 k1 k2 k3 => twist12 (num A k1) (num A k2) (num A k3)
  | Twist24 k1 k2 k3 k4 => twist24 (num A k1) (num A k2) (num A k3) (num A k4)
  | SymTwist2 k => let k := num A k in twist4 (I ⊖ (k ⊕ k ⊕ k)) k
  | SymTwist3 k => let k := num A k in twist6 (num A (Dec 5 1) ⊖ k) k
  | SymTwist4 k1 k2 => let k1 := num A k1 in let k2 := num A k2 in twist12 k2 k1 (I ⊖ k2 ⊖ (k1 ⊕ k1))
  | SymTwist5 k1 k2 k3 => let k1 := num A k1 in let k2 := num A k2 in let k3 := num A k3 in twist24 k1 k2 k3 (I ⊖ k1 ⊖ k2 ⊖ k3)
  end.

(** quadrature_formulas.cpp:12,14 / 113,115,117 / 530,532,551,565,707,810-818: a weight macro repeats its argument *)
Definition weights (c : nat * lit) : list T := repeat (num A (snd c)) (fst c).
End Macros.

(** The reals *)
Definition lit_val (l : lit) : R := match l with Dec m k => (IZR m / IZR (10 ^ Z.of_N k))%R | Frac p q => (IZR p / IZR (Zpos q))%R end.
Definition Rarith : arith R := Arith R 1%R lit_val Rplus Rminus.

(** quadrature_formulas.h:26-57, 87-120, 151-185 SegmentQuadFormula, TriangleQuadFormula, TetraQuadFormula: [dim] is the number
    of coordinates minus one; the pointers p and w are the arrays they point to *)
Record quad := Quad { q_num : nat; q_sym : list nat; q_p : list R; q_w : list R }.
Definition point_weight : Type := list R * R.

(** Apply a partial function to the elements of a list in turn *)
Fixpoint omap_list {X Y : Type} (f : X -> option Y) (l : list X) : option (list Y) :=
  match l with [] => Some [] | x :: r => do y <- f x; do ys <- omap_list f r; Some (y :: ys) end.

(** quadrature_formulas.h:63-70, 127-136, 190-199 GetPointWeight: the last coordinate is computed anew;
    [None] is a failed assertion or a read outside of an array.
    Simplified: the pair of reads p[2*i+0], p[3*i+0..1], p[4*i+0..2] is one loop over the first [dim] coordinates *)
Definition get_point_weight (dim : nat) (f : quad) (i : nat) : option point_weight :=
  if (i <? q_num f)%nat then
    do c <- omap_list (fun k => rd (q_p f) (S dim * i + k)) (seq 0 dim);
    do w <- rd (q_w f) i;
    Some (c ++ [fold_left Rminus c 1%R], w)
  else None.
(** All points of a formula, for (int i = 0; i < formula.GetNumPoints(); ++i) formula.GetPointWeight(i), as in
    fem_space.cpp:158-199 *)
Definition all_points (dim : nat) (f : quad) : option (list point_weight) := omap_list (get_point_weight dim f) (seq 0 (q_num f)).
