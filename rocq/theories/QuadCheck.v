(** A certified evaluation of the tables in integers: a number x in [0, 1] is represented by an integer close to 2^K x.
    Everything here is computed by the kernel (also by the checker without virtual machine, so it has to be cheap). *)
From Coq Require Import ZArith List Bool.
From Verif Require Import Prelude QuadModel QuadTables QuadRules QuadSpec.
Import ListNotations.
Open Scope Z_scope.

Definition K : Z := 120.
Definition unit : Z := 2 ^ K.
(** 1 / 10^k is about r / 2^(s + K) *)
Definition recips : list (N * (Z * Z)) := [
  (50%N, (179, 10185179881672430431342228442046890805257));
  (51%N, (182, 8148143905337944345073782753637512644205));
  (52%N, (185, 6518515124270355476059026202910010115364));
  (127%N, (434, 5896816288783658362877429032794170142057));
  (128%N, (438, 9434906062053853380603886452470672227292));
  (129%N, (441, 7547924849643082704483109161976537781833));
  (130%N, (444, 6038339879714466163586487329581230225467));
  (131%N, (448, 9661343807543145861738379727329968360747));
  (132%N, (451, 7729075046034516689390703781863974688597));
  (133%N, (454, 6183260036827613351512563025491179750878));
  (137%N, (468, 10130653244338361715118183260964748903838))].
Definition recipb (e : N * (Z * Z)) : bool :=
  let '(k, (s, r)) := e in let d := 10 ^ Z.of_N k in let x := 2 ^ (K + s) - r * d in (0 <=? s) && (0 <=? x) && (x <? d).
Definition zlit (l : lit) : Z :=
  match l with
  | Dec m k =>
      match find (fun e => N.eqb (fst e) k) recips with
      | Some (_, (s, r)) => if Z.abs m * 1024 <=? 2 ^ s then Z.shiftr (m * r) s else m * unit / 10 ^ Z.of_N k
      | None => m * unit / 10 ^ Z.of_N k
      end
  | Frac p q => p * unit / Zpos q
  end.
Definition Zarith : arith Z := Arith Z unit zlit Z.add Z.sub.

(** Coordinates that agree up to rounding are made equal *)
Definition snap (base : list Z) (c : Z) : Z := match find (fun b => Z.abs (b - c) <=? 8) base with Some b => b | None => c end.
Definition snap_orbit (o : list (list Z)) : list (list Z) := map (map (snap (hd [] o))) o.

(** An orbit: its points and their common weight *)
Definition orbit : Type := list (list Z) * Z.
Definition orbits {C : Type} (points : C -> list (list Z)) (f : list C) (w : list (nat * lit)) : list orbit :=
  map (fun cw => (snap_orbit (points (fst cw)), zlit (snd (snd cw)))) (List.combine f w).

(** Same points in another order *)
Fixpoint list_eqb (a b : list Z) : bool :=
  match a, b with [], [] => true | x :: a, y :: b => (x =? y) && list_eqb a b | _, _ => false end.
Fixpoint take (p : list Z) (l : list (list Z)) : option (list (list Z)) :=
  match l with
  | [] => None
  | q :: r => if list_eqb p q then Some r else match take p r with Some r' => Some (q :: r') | None => None end
  end.
Fixpoint permb (a b : list (list Z)) : bool :=
  match a with [] => match b with [] => true | _ => false end | p :: a => match take p b with Some b' => permb a b' | None => false end end.
Fixpoint swap_at {X : Type} (j : nat) (l : list X) : list X :=
  match j, l with
  | O, x :: y :: r => y :: x :: r
  | S j, x :: r => x :: swap_at j r
  | _, _ => l
  end.
(** All points are permutations of the first one, and the orbit is mapped to itself by all transpositions of neighbours *)
Fixpoint take1 (x : Z) (l : list Z) : option (list Z) :=
  match l with [] => None | y :: r => if x =? y then Some r else match take1 x r with Some r' => Some (y :: r') | None => None end end.
Fixpoint permb1 (a b : list Z) : bool :=
  match a with [] => match b with [] => true | _ => false end | x :: a => match take1 x b with Some b' => permb1 a b' | None => false end end.
Definition symmetricb (dim : nat) (o : orbit) : bool :=
  forallb (permb1 (hd [] (fst o))) (fst o) && forallb (fun j => permb (fst o) (map (swap_at j) (fst o))) (seq 0 dim).
(** All coordinates well inside, weight positive *)
Definition insideb (n : nat) (o : orbit) : bool :=
  forallb (fun p => (length p =? n)%nat && forallb (fun z => (100 <? z) && (z <? unit - 100)) p) (fst o) && (100 <? snd o) && (snd o <=? unit).

(** Truncated products; the elementary symmetric polynomials of degree 2, 3, 4 *)
Definition mulK (a b : Z) : Z := Z.shiftr (a * b) K.
Definition zsym (p : list Z) : list Z :=
  match p with
  | [x; y] => [mulK x y]
  | [x; y; z] => let xy := mulK x y in [xy + mulK z x + mulK z y; mulK xy z]
  | [x; y; z; t] =>
      let xy := mulK x y in let zt := mulK z t in
      [xy + zt + mulK x z + mulK x t + mulK y z + mulK y t; mulK xy z + mulK xy t + (mulK zt x + mulK zt y); mulK xy zt]
  | _ => []
  end.
(** One point per orbit, with the weight of the orbit *)
Definition reduced (orb : list orbit) : list orbit := map (fun ow => ([zsym (hd [] (fst ow))], Z.of_nat (length (fst ow)) * snd ow)) orb.

(** Powers and monomials *)
Fixpoint powers (n : nat) (z p : Z) : list Z := match n with O => [p] | S n => p :: powers n z (mulK z p) end.
Fixpoint monoK (acc : Z) (ps : list (list Z)) (es : list nat) : Z :=
  match ps, es with p :: ps, e :: es => match e with O => monoK acc ps es | _ => monoK (mulK acc (nth e p 0)) ps es end | _, _ => acc end.
Definition tables (o : nat) (orb : list orbit) : list (list (list Z) * Z) :=
  flat_map (fun ow => map (fun p => (map (fun z => powers o z unit) p, snd ow)) (fst ow)) orb.
Definition momentK (tab : list (list (list Z) * Z)) (es : list nat) : Z :=
  fold_right (fun pw s => monoK (snd pw) (fst pw) es + s) 0 tab.

(** Polynomials with integer coefficients, sorted by exponents *)
Definition zpoly : Type := list (list nat * Z).
Fixpoint lex (a b : list nat) : comparison :=
  match a, b with
  | x :: a, y :: b => match Nat.compare x y with Eq => lex a b | c => c end
  | [], [] => Eq | [], _ => Lt | _, [] => Gt
  end.
Fixpoint merge (n : nat) (P Q : zpoly) : zpoly :=
  match n, P, Q with
  | S n, a :: P', b :: Q' =>
      match lex (fst a) (fst b) with
      | Eq => (fst a, snd a + snd b) :: merge n P' Q'
      | Lt => a :: merge n P' Q
      | Gt => b :: merge n P Q'
      end
  | _, _, _ => P ++ Q
  end.
Fixpoint addv (a b : list nat) : list nat := match a, b with x :: a, y :: b => (x + y)%nat :: addv a b | _, _ => [] end.
Definition shift (v : list nat) (P : zpoly) : zpoly := map (fun a => (addv v (fst a), snd a)) P.
(** the exponents of the elementary symmetric polynomial of degree k in n variables *)
Fixpoint subsets (n k : nat) : list (list nat) :=
  match n with
  | O => match k with O => [[]] | _ => [] end
  | S n => map (cons O) (subsets n k) ++ match k with O => [] | S k => map (cons 1%nat) (subsets n k) end
  end.
Definition times (n k : nat) (P : zpoly) : zpoly :=
  fold_right (fun v Q => let R := shift v P in merge (length R + length Q) R Q) [] (subsets n k).
(** all products of powers of the elementary symmetric polynomials of the degrees ks of total degree at most d *)
Fixpoint ploop (rest : nat -> zpoly -> list (list nat * zpoly)) (n k fuel a d : nat) (P : zpoly) : list (list nat * zpoly) :=
  map (fun aQ => (a :: fst aQ, snd aQ)) (rest d P) ++
  match fuel with
  | O => []
  | S fuel => if (k <=? d)%nat then ploop rest n k fuel (S a) (d - k)%nat (times n k P) else []
  end.
Fixpoint products (n : nat) (ks : list nat) (d : nat) (P : zpoly) : list (list nat * zpoly) :=
  match ks with [] => [([], P)] | k :: ks => ploop (products n ks) n k d O d P end.
Fixpoint zfact (n : nat) : Z := match n with O => 1 | S m => Z.of_nat n * zfact m end.
Definition facttab : list Z := map zfact (seq 0 22).
Fixpoint factsK (es : list nat) : Z := match es with [] => 1 | e :: es => nth e facttab 0 * factsK es end.
(** the sum of the coefficients, each times the product of the factorials of the exponents *)
Definition dirichlet (P : zpoly) : Z := fold_right (fun a s => factsK (fst a) * snd a + s) 0 P.
Definition degrees (dim : nat) : list nat := seq 2 dim.
Definition means (dim o : nat) : list (list nat * Z) :=
  map (fun aP => (fst aP, dirichlet (snd aP))) (products (S dim) (degrees dim) o [(repeat O (S dim), 1)]).
Fixpoint wdeg (ks a : list nat) : nat := match ks, a with k :: ks, x :: a => (k * x + wdeg ks a)%nat | _, _ => O end.
Definition weight (a : list nat) : nat := wdeg (degrees (length a)) a.

(** The sum over the orbits against the exact mean value *)
Definition momentb (dim o : nat) (n : Z) (tab : list (list (list Z) * Z)) (aN : list nat * Z) : bool :=
  if (weight (fst aN) <=? o)%nat then
    let den := zfact (weight (fst aN) + dim) in
    Z.abs (momentK tab (fst aN) * den - zfact dim * snd aN * unit) <=? 100 * n * den
  else true.
Definition checkb {C : Type} (dim o : nat) (mt : list (list nat * Z)) (points : C -> list (list Z)) (f : list C) (w : list (nat * lit)) : bool :=
  let orb := orbits points f w in
  let tab := tables (Nat.div2 o) (reduced orb) in
  forallb (fun cw => (fst (snd cw) =? length (points (fst cw)))%nat) (List.combine f w) && (length f =? length w)%nat &&
  forallb (symmetricb dim) orb && forallb (insideb (S dim)) orb && (Z.of_nat (length (concat (map fst orb))) <=? 552) &&
  forallb (insideb dim) (reduced orb) && forallb (momentb dim o (Z.of_nat (length tab)) tab) mt.

Definition calls_sizes {C : Type} (points : C -> list (list Z)) (f : list C) : list nat := map (fun c => length (points c)) f.
Definition size_check (a b : list nat) : bool := if list_eq_dec Nat.eq_dec a b then true else false.
Definition seg_ok (mt : list (list nat * Z)) (o : nat) : bool :=
  match nth_error seg_rules o, nth_error seg_rules_w o, nth_error seg_symmetry o with
  | Some f, Some w, Some s => checkb 1 o mt (seg_points Zarith) f w &&
      size_check (calls_sizes (seg_points Zarith) f) (sizes_of Segment [fst s; length (concat (flat_map (seg_points Zarith) (snd s))) / 2 / 2]%nat)
  | _, _, _ => false
  end.
Definition tri_ok (mt : list (list nat * Z)) (o : nat) : bool :=
  match nth_error tri_rules o, nth_error tri_rules_w o, nth_error tri_symmetry o with
  | Some f, Some w, Some s => checkb 2 o mt (tri_points Zarith) f w && size_check (calls_sizes (tri_points Zarith) f) (sizes_of Triangle s)
  | _, _, _ => false
  end.
Definition tet_ok (mt : list (list nat * Z)) (o : nat) : bool :=
  match nth_error tet_rules o, nth_error tet_rules_w o, nth_error tet_symmetry o with
  | Some f, Some w, Some s => checkb 3 o mt (tet_points Zarith) f w && size_check (calls_sizes (tet_points Zarith) f) (sizes_of Tetrahedron s)
  | _, _, _ => false
  end.
