(** Model of anifem++/autodiff/autodiff.{h,inl}: values carried together with
    their gradient and Hessian, and the operations on them.  Doubles are reals.
    Gradients and Hessians are the stored arrays (PhysArr/SymMtx/PhysMtx and
    SymMtx/BiSymTensor4Rank/SymTensor4Rank of physical_tensors.h), as lists of
    their continuous_size() elements. *)
From Coq Require Import Reals.
From Verif Require Import Prelude.
Open Scope R_scope.

(** *** Index maps of the stored tensors *)

(** SymMtx<N>::Index: physical_tensors.h:61, physical_tensors_3d.inl:23 *)
Definition sym_sort (i j : nat) : nat * nat := if (j <? i)%nat then (j, i) else (i, j).
(** SymMtx<N>::continuous_index on (i, j) as passed to Index: physical_tensors.h:77 *)
Definition sym_cont (N i j : nat) : nat := let (a, b) := sym_sort i j in ((2 * N - 1 - a) * a / 2 + b)%nat.
(** SymMtx<N>::IndexMap: physical_tensors.h:65-75, the pair (imap, jmap) *)
Definition sym_map (N : nat) : option (list nat * list nat) :=
  for_ N (fun i s => for_range i (N - i) (fun j s =>
    do im <- wr (fst s) ((2 * N - 1 - i) * i / 2 + j) i;
    do jm <- wr (snd s) ((2 * N - 1 - i) * i / 2 + j) j;
    Some (im, jm)) s)
    (repeat 0%nat (N * (N + 1) / 2), repeat 0%nat (N * (N + 1) / 2)).
(** SymMtx<N>::index: physical_tensors.h:76 *)
Definition sym_index (N c : nat) : option (nat * nat) :=
  do (im, jm) <- sym_map N;
  do i <- rd im c; do j <- rd jm c; Some (sym_sort i j).

(** SymMtx<3>::index and continuous_index: physical_tensors_3d.inl:28-36, 103 *)
Definition sym3_ids : list (nat * nat) := [(0, 0); (0, 1); (0, 2); (1, 1); (1, 2); (2, 2)]%nat.
Definition sym3_index (c : nat) : option (nat * nat) := rd sym3_ids c.
Definition sym3_cont (i j : nat) : nat := let (a, b) := sym_sort i j in (a + b + (if (a =? 0)%nat then 0 else 1))%nat.

(** The members of an index of a tensor of the fourth rank *)
Definition idx4 := (nat * nat * nat * nat)%type.

(** SymTensor4Rank<N>::Index, index, continuous_index: physical_tensors.h:300, 304, 305.
    A pair (i, j) is kept as its position j + N*i in PhysMtx (physical_tensors.h:200) *)
Definition t4_sort (N i j k l : nat) : idx4 := if (l + k * N <? j + i * N)%nat then (k, l, i, j) else (i, j, k, l).
Definition t4_index (N c : nat) : option idx4 :=
  do (a, b) <- sym_index (N * N) c;
  Some (t4_sort N (a / N) (a mod N) (b / N) (b mod N)).
Definition t4_cont (N i j k l : nat) : nat :=
  let '(i', j', k', l') := t4_sort N i j k l in sym_cont (N * N) (j' + N * i') (l' + N * k').

(** BiSymTensor4Rank::Index: physical_tensors.h:403-408, physical_tensors_3d.inl:429-434 *)
Definition bi_sort (i j k l : nat) : idx4 :=
  let (i, j) := sym_sort i j in
  let (k, l) := sym_sort k l in
  if (k <? i)%nat || ((i =? k)%nat && (l <? j)%nat) then (k, l, i, j) else (i, j, k, l).
(** BiSymTensor4Rank<3>::index, continuous_index: physical_tensors_3d.inl:438-451 *)
Definition bi3_ids : list idx4 :=
  [(0,0,0,0); (0,0,0,1); (0,0,0,2); (0,0,1,1); (0,0,1,2); (0,0,2,2);
              (0,1,0,1); (0,1,0,2); (0,1,1,1); (0,1,1,2); (0,1,2,2);
                         (0,2,0,2); (0,2,1,1); (0,2,1,2); (0,2,2,2);
                                    (1,1,1,1); (1,1,1,2); (1,1,2,2);
                                               (1,2,1,2); (1,2,2,2);
                                                          (2,2,2,2)]%nat.
Definition bi3_index (c : nat) : option idx4 := rd bi3_ids c.
Definition bi3_cont (i j k l : nat) : nat :=
  let '(i, j, k, l) := bi_sort i j k l in
  let I := (i + j + (if i =? 0 then 0 else 1))%nat in
  let J := (k + l + (if k =? 0 then 0 else 1))%nat in
  ((2 * 6 - 1 - I) * I / 2 + J)%nat.
(** BiSymTensor4Rank<N>::index for N <> 3: physical_tensors.h:427-431 *)
Definition bi_index (N c : nat) : option idx4 :=
  do q <- sym_index (N * (N + 1) / 2) c;
  do ti <- sym_index N (fst q);
  do tj <- sym_index N (snd q);
  Some (bi_sort (fst ti) (snd ti) (fst tj) (fst tj)).
(** BiSymTensor4Rank<N>::continuous_index for N <> 3: physical_tensors.h:432-436 *)
Definition bi_cont (N i j k l : nat) : nat :=
  let '(i, j, k, l) := bi_sort i j k l in
  sym_cont (N * (N + 1) / 2) (sym_cont N i j) (sym_cont N k l).

(** *** Storage sets *)

(** ADStorageSet (autodiff.h:41-55): the number of stored gradient elements, and
    for every stored Hessian element in the order of the iterator of HessianType the positions of the
    gradient elements its index() splits into *)
Record storage := Storage { ng : nat; hidx : list (nat * nat) }.

Definition opt_list {A} (l : list (option A)) : list A := flat_map (fun o => match o with Some a => [a] | None => [] end) l.

(** PhysArrStorageSet<N>: autodiff.h:54-55.  (The specialisation SymMtx<3> is
    covered by [arr3_storage]) *)
Definition arr_storage (N : nat) : storage :=
  Storage N (opt_list (map (sym_index N) (seq 0 (N * (N + 1) / 2)))).
Definition arr3_storage : storage := Storage 3 (opt_list (map sym3_index (seq 0 6))).
(** PhysTensorStorageSet<N>: autodiff.h:51-52 *)
Definition tensor_storage (N : nat) : storage :=
  Storage (N * N) (map (fun q : idx4 => let '(i, j, k, l) := q in (N * i + j, N * k + l)%nat)
                       (opt_list (map (t4_index N) (seq 0 (N * N * (N * N + 1) / 2))))).
(** PhysSymTensorStorageSet<3>: autodiff.h:48-49 *)
Definition sym3_storage : storage :=
  Storage 6 (map (fun q : idx4 => let '(i, j, k, l) := q in (sym3_cont i j, sym3_cont k l))
                 (opt_list (map bi3_index (seq 0 21)))).
(** PhysSymTensorStorageSet<N>, N <> 3: autodiff.h:48-49 *)
Definition sym_storage (N : nat) : storage :=
  Storage (N * (N + 1) / 2)
    (map (fun q : idx4 => let '(i, j, k, l) := q in (sym_cont N i j, sym_cont N k l))
         (opt_list (map (bi_index N) (seq 0 (N * (N + 1) / 2 * (N * (N + 1) / 2 + 1) / 2))))).

(** *** Element-wise operations of GradientType and HessianType
    (physical_tensors.h:35-44, 163-172, 224-233, 384-393; physical_tensors_3d.inl:125-134,
    279-288, 539-548).  The arrays have the same static size, so no access is out of range *)
Fixpoint map2 {A B C} (f : A -> B -> C) (l : list A) (m : list B) : list C :=
  match l, m with a :: l', b :: m' => f a b :: map2 f l' m' | _, _ => [] end.
Definition vadd := map2 Rplus.
Definition vsub := map2 Rminus.
Definition vneg := map Ropp.
Definition vscale (c : R) := map (fun x => x * c).
Definition vdiv (c : R) := map (fun x => x / c).

Section Ops.
Variable st : storage.

(** GT() and HT() *)
Definition gz : list R := repeat 0 (ng st).
Definition hz : list R := repeat 0 (length (hidx st)).
(** HT::TensorSquare: physical_tensors.inl / physical_tensors_3d.inl:225-232, 566-573 *)
Definition tsquare (s : list R) : list R := map (fun p => nth (fst p) s 0 * nth (snd p) s 0) (hidx st).
(** HT::TensorSymMul2: physical_tensors_3d.inl:217-223 (written out there), 575-582 *)
Definition tsym2 (f s : list R) : list R :=
  map (fun p => nth (fst p) f 0 * nth (snd p) s 0 + nth (fst p) s 0 * nth (snd p) f 0) (hidx st).

(** ADVal (autodiff.h:57-89) with its State (autodiff.h:14-19).
    NotTrivialValue is true in every state the library makes and is left out *)
Record ad := Ad { dif : nat; val : R; D : list R; DD : list R; nt1 : bool; nt2 : bool }.

(** Param: autodiff.h:91-109 *)
Definition param (c : R) : ad := Ad 0 c gz hz false false.
(** Var: autodiff.h:111-130 *)
Definition var (ivar : nat) (v : R) (numdif : nat) : ad :=
  Ad numdif v (map (fun i => if (i =? ivar)%nat then 1 else 0) (seq 0 (ng st))) hz true false.

(** make_ADVal: autodiff.inl:17-29 *)
Definition make_ADVal (a : ad) : ad :=
  Ad (dif a) (val a) (if nt1 a then D a else gz) (if nt2 a then DD a else hz) (nt1 a) (nt2 a).
(** make_shell: autodiff.inl:31-52 *)
Definition make_shell (a : ad) : ad :=
  Ad (dif a) (val a) (if nt1 a && (1 <=? dif a)%nat then D a else gz)
     (if nt1 a && (1 <=? dif a)%nat && nt2 a && (2 <=? dif a)%nat then DD a else hz) true true.
(** unary minus: autodiff.inl:53-68 *)
Definition ad_neg (a : ad) : ad :=
  Ad (dif a) (- val a) (if nt1 a && (1 <=? dif a)%nat then vneg (D a) else gz)
     (if nt2 a && (2 <=? dif a)%nat then vneg (DD a) else hz) (nt1 a) (nt2 a).

(** operator+: autodiff.inl:69-88; EX2::State::NotTrivialValue is true.  (operator+(EX, VT)
    and operator+(VT, EX), autodiff.h:183-186, are this with a Param) *)
Definition ad_add (a b : ad) : ad :=
  let d := Nat.max (dif a) (dif b) in
  Ad d (val a + val b)
     (if (1 <=? d)%nat then
        if nt1 a then vadd (D a) (D b) else if nt1 b then D b else gz
      else gz)
     (if (nt2 a || nt2 b) && (2 <=? d)%nat then
        if nt2 a && nt2 b then vadd (DD a) (DD b) else if nt2 a then DD a else DD b
      else hz)
     (nt1 a || nt1 b) (nt2 a || nt2 b).
(** operator-: autodiff.inl:89-108 *)
Definition ad_sub (a b : ad) : ad :=
  let d := Nat.max (dif a) (dif b) in
  Ad d (val a - val b)
     (if (1 <=? d)%nat then
        if nt1 a then vsub (D a) (D b) else if nt1 b then vsub gz (D b) else gz
      else gz)
     (if (nt2 a || nt2 b) && (2 <=? d)%nat then
        if nt2 a && nt2 b then vsub (DD a) (DD b) else if nt2 a then DD a else vsub hz (DD b)
      else hz)
     (nt1 a || nt1 b) (nt2 a || nt2 b).

Definition opt (b : bool) (f : list R -> list R) (m : list R) : list R := if b then f m else m.

(** operator*: autodiff.inl:109-137 *)
Definition ad_mul (a b : ad) : ad :=
  let d := Nat.max (dif a) (dif b) in
  let am := if nt1 a && (1 <=? d)%nat then D a else gz in
  let bm := if nt1 b && (1 <=? d)%nat then D b else gz in
  let m := if (1 <=? d)%nat then
             opt (nt1 b) (fun m => vadd m (vscale (val a) bm)) (opt (nt1 a) (fun m => vadd m (vscale (val b) am)) gz)
           else gz in
  let r := if (nt2 a || nt2 b || nt1 a) && (2 <=? d)%nat then
             opt (nt2 b) (fun r => vadd r (vscale (val a) (DD b)))
               (opt (nt2 a) (fun r => vadd r (vscale (val b) (DD a)))
                  (opt (nt1 a) (fun r => vadd r (tsym2 am bm)) hz))
           else hz in
  Ad d (val a * val b) m r (nt1 a || nt1 b) (nt2 a || nt2 b || (nt1 a && nt1 b)).
(** operator/: autodiff.inl:138-170 *)
Definition ad_div (a b : ad) : ad :=
  let d := Nat.max (dif a) (dif b) in
  let av := val a in let bv := val b in
  let am := if nt1 a && (1 <=? d)%nat then D a else gz in
  let bm := if nt1 b && (1 <=? d)%nat then D b else gz in
  let m := if (1 <=? d)%nat then
             opt (nt1 b) (fun m => vsub m (vscale (av / (bv * bv)) bm)) (opt (nt1 a) (fun m => vadd m (vdiv bv am)) gz)
           else gz in
  let r := if (nt2 a || nt2 b || nt1 a) && (2 <=? d)%nat then
             opt (nt2 b) (fun r => vadd r (vscale (av / (bv * bv)) (vsub (vscale (2 / bv) (tsquare bm)) (DD b))))
               (opt (nt2 a) (fun r => vadd r (vdiv bv (DD a)))
                  (opt (nt1 a) (fun r => vsub r (vscale (1 / (bv * bv)) (tsym2 am bm))) hz))
           else hz in
  Ad d (av / bv) m r (nt1 a || nt1 b) (nt2 a || nt2 b || (nt1 a && nt1 b)).

(** MathOps::pow: std::pow on a positive base, and 0^q; other bases are not used *)
Definition std_pow (a q : R) : R :=
  if Rlt_dec 0 a then Rpower a q else if Req_EM_T q 0 then 1 else 0.

(** FuncVal of a result computed from the derivatives c1, c2 of a function of one
    value: m = c1 * am, r = c2 * am x am + c1 * a.DD() *)
(** pow(EX, VT): autodiff.inl:172-194 *)
Definition ad_powr (a : ad) (q : R) : ad :=
  if Req_EM_T q 0 then Ad 0 1 gz hz (nt1 a) (nt1 a)
  else
    let av := val a in
    let v := std_pow av q in
    if negb (nt1 a) then Ad (dif a) v gz hz false false
    else
      let am := if (1 <=? dif a)%nat then D a else gz in
      let m := if (1 <=? dif a)%nat then vscale (q * v / av) am else gz in
      let c2 := if Req_EM_T av 0 then 0 else q * (q - 1) * v / (av * av) in
      let c1 := if Req_EM_T av 0 then 0 else q * v / av in
      let r := if (2 <=? dif a)%nat then
                 opt (nt2 a) (fun r => vadd r (vscale c1 (DD a))) (vadd hz (vscale c2 (tsquare am)))
               else hz in
      Ad (dif a) v m r (nt1 a) (nt1 a).

(** The loop of pow(EX, long): (v, vm1, vm2) after n steps, autodiff.inl:205-209 *)
Fixpoint pow_loop (n : nat) (pv : R) (s : R * R * R) : R * R * R :=
  match n with
  | O => s
  | S n' => let '(v, vm1, vm2) := s in pow_loop n' pv (v * pv, v, vm1)
  end.
(** pow(EX, long): autodiff.inl:195-228.  (Overflow of q * (q - 1) is left out) *)
Definition ad_powz (a : ad) (q : Z) : ad :=
  if (q =? 0)%Z then Ad 0 1 gz hz (nt1 a) (nt1 a)
  else
    let av := val a in
    let pv := if (0 <? q)%Z then av else 1 / av in
    let s0 := if (q =? 1)%Z then (pv, 1, 0) else (pv * pv, pv, 1) in
    let qp := if (0 <? q)%Z then (q - 2)%Z else (- q)%Z in
    let '(v, vm1, vm2) := pow_loop (Z.to_nat qp) pv s0 in
    let (v, vm2) := if (q <? 0)%Z then (vm2, v) else (v, vm2) in
    if negb (nt1 a) then Ad (dif a) v gz hz false false
    else
      let am := if (1 <=? dif a)%nat then D a else gz in
      let m := if (1 <=? dif a)%nat then if (q =? 1)%Z then am else vscale (IZR q * vm1) am else gz in
      let r := if (2 <=? dif a)%nat then
                 opt (nt2 a) (fun r => vadd r (vscale (IZR q * vm1) (DD a)))
                   (opt (negb (q =? 1)%Z) (fun r => vadd r (vscale (IZR (q * (q - 1)) * vm2) (tsquare am))) hz)
               else hz in
      Ad (dif a) v m r (nt1 a) (nt1 a).

(** sq: autodiff.inl:230-252 *)
Definition ad_sq (a : ad) : ad :=
  let av := val a in
  if negb (nt1 a) then Ad (dif a) (av * av) gz hz false false
  else
    let am := if (1 <=? dif a)%nat then D a else gz in
    Ad (dif a) (av * av) (if (1 <=? dif a)%nat then vscale (2 * av) am else gz)
       (if (2 <=? dif a)%nat then
          opt (nt2 a) (fun r => vadd r (vscale (2 * av) (DD a))) (vadd hz (vscale 2 (tsquare am)))
        else hz) (nt1 a) (nt1 a).
(** cube: autodiff.h:219 *)
Definition ad_cube (a : ad) : ad := ad_powz a 3.

(** unary_operation: autodiff.inl:369-390; op gives {f, f', f''} *)
Definition ad_unary (op : nat -> R -> R * R * R) (a : ad) : ad :=
  let '(v, v1, v2) := op (dif a) (val a) in
  if negb (nt1 a) then Ad (dif a) v gz hz false false
  else
    let am := if (1 <=? dif a)%nat then D a else gz in
    Ad (dif a) v (if (1 <=? dif a)%nat then vscale v1 am else gz)
       (if (2 <=? dif a)%nat then opt (nt2 a) (fun r => vadd r (vscale v1 (DD a))) (vscale v2 (tsquare am)) else hz)
       (nt1 a) (nt1 a).

(** The functions of one value, autodiff.h:223-252 *)
Inductive fn := Exp | Expm1 | Log | Log1p | Sqrt | Cbrt | Sin | Cos | Tan | Atan | Asin | Acos | Sinh | Cosh | Tanh.
(** std::cbrt *)
Definition std_cbrt (a : R) : R :=
  if Rlt_dec 0 a then Rpower a (/ 3) else if Rlt_dec a 0 then - Rpower (- a) (/ 3) else 0.
(** The lambdas of autodiff.h:224-252 *)
Definition op_of (f : fn) (d : nat) (a : R) : R * R * R :=
  let on k x := if (k <=? d)%nat then x else 0 in
  match f with
  | Exp => let v := exp a in (v, v, v)
  | Expm1 => let v := exp a - 1 in (v, v + 1, v + 1)
  | Log => let v := ln a in (v, 1 / a, -1 / (a * a))
  | Log1p => let v := ln (1 + a) in (v, 1 / (a + 1), -1 / ((a + 1) * (a + 1)))
  | Sqrt => let v := sqrt a in (v, on 1%nat (1 / (2 * v)), on 2%nat (-1 / (4 * v * a)))
  | Cbrt => let v := std_cbrt a in (v, on 1%nat (1 / (3 * v * v)), on 2%nat (-2 / (9 * v * v * a)))
  | Sin => let v := sin a in (v, on 1%nat (cos a), - v)
  | Cos => let v := cos a in (v, on 1%nat (- sin a), - v)
  | Tan => let v := tan a in let q := if (1 <=? d)%nat then cos a else 1 in let t := q * q in
           (v, on 1%nat (1 / t), on 2%nat (2 * v / t))
  | Atan => let v := atan a in (v, on 1%nat (1 / (1 + a * a)), on 2%nat (-2 * a / ((1 + a * a) * (1 + a * a))))
  | Asin => let v := asin a in let t := if (1 <=? d)%nat then sqrt (1 - a * a) else 1 in
            (v, on 1%nat (1 / t), on 2%nat (a / ((1 - a * a) * t)))
  | Acos => let v := acos a in let t := if (1 <=? d)%nat then sqrt (1 - a * a) else 1 in
            (v, on 1%nat (-1 / t), on 2%nat (- a / ((1 - a * a) * t)))
  | Sinh => let v := sinh a in (v, on 1%nat (cosh a), v)
  | Cosh => let v := cosh a in (v, on 1%nat (sinh a), v)
  | Tanh => let v := tanh a in let q := if (1 <=? d)%nat then cosh a else 1 in let t := q * q in
            (v, on 1%nat (1 / t), on 2%nat (-2 * v / t))
  end.

(** EvalPow<EX1, EX2, CASE>: autodiff.inl:254-296.  The loop over r writes the
    element at the iterator from the gradient elements its index splits into;
    br[q], ar[q] is the same element (continuous_index of index) *)
Definition ad_pow (a b : ad) : ad :=
  match nt1 a, nt1 b with
  | true, true =>
      let d := Nat.max (dif a) (dif b) in
      let av := val a in let bv := val b in
      let v := std_pow av bv in
      if (d =? 0)%nat then Ad 0 v gz hz true true
      else
        let am := D a in let bm := D b in
        let ln_a := ln av in
        let m := vscale v (vadd (vscale ln_a bm) (vscale (bv / av) am)) in
        let r := if (2 <=? d)%nat then
                   let ar := if nt2 a then DD a else hz in
                   let br := if nt2 b then DD b else hz in
                   let c1 := v * ln_a * ln_a in
                   let c2 := v * (bv * ln_a + 1) / av in
                   let c3 := v * bv * (bv - 1) / (av * av) in
                   let c4 := v * ln_a in
                   let c5 := v * bv / av in
                   map2 (fun p q => let '(i, j) := p in
                     c1 * nth i bm 0 * nth j bm 0 + c2 * (nth i bm 0 * nth j am 0 + nth i am 0 * nth j bm 0)
                     + c3 * nth i am 0 * nth j am 0 + c4 * snd q + c5 * fst q) (hidx st) (combine ar br)
                 else hz in
        Ad d v m r true true
  | false, true => ad_unary (op_of Exp) (ad_mul (param (ln (val a))) b)
  | true, false => ad_powr a (val b)
  | false, false => param (std_pow (val a) (val b))
  end.

(** std::atan2 *)
Definition std_atan2 (y x : R) : R :=
  if Rlt_dec 0 x then atan (y / x)
  else if Rlt_dec x 0 then if Rle_dec 0 y then atan (y / x) + PI else atan (y / x) - PI
  else if Rlt_dec 0 y then PI / 2 else if Rlt_dec y 0 then - (PI / 2) else 0.
(** atan2: autodiff.inl:300-339 *)
Definition ad_atan2 (y x : ad) : ad :=
  let d := Nat.max (dif y) (dif x) in
  let vy := val y in let vx := val x in
  let r2 := vy * vy + vx * vx in
  let c1 := vx / r2 in let c2 := vy / r2 in
  let my := if nt1 y && (1 <=? d)%nat then D y else gz in
  let mx := if nt1 x && (1 <=? d)%nat then D x else gz in
  let m := if (1 <=? d)%nat then
             if nt1 y then vsub (vscale c1 my) (vscale c2 mx)
             else if nt1 x then vscale (- c2) mx else gz
           else gz in
  let ry := if nt2 y then DD y else hz in
  let rx := if nt2 x then DD x else hz in
  let c3 := (vy * vy - vx * vx) / (r2 * r2) in
  let c4 := 2 * vx * vy / (r2 * r2) in
  let r := if (2 <=? d)%nat then
             map2 (fun p q => let '(i, j) := p in
               c1 * fst q - c2 * snd q + c3 * (nth i mx 0 * nth j my 0 + nth i my 0 * nth j mx 0)
               - c4 * (nth i my 0 * nth j my 0 - nth i mx 0 * nth j mx 0)) (hidx st) (combine ry rx)
           else hz in
  Ad d (std_atan2 vy vx) m r (nt1 y || nt1 x) (nt1 y || nt1 x).

(** hypot: autodiff.inl:341-367.  The elements have one type EX1, so one State;
    std::hypot(x, y) is sqrt(x*x + y*y), which joins the branches of lines 347-351.
    The default-constructed value of line 344 has m_dif = -1 as an unsigned char *)
Definition ad_hypot (vec : list ad) : ad :=
  match vec with
  | [] => Ad 255 0 gz hz true true
  | [a] => Ad (dif a) (val a) (D a) (DD a) (nt1 a) (nt1 a)
  | a :: _ =>
      let v := sqrt (fold_left (fun s e => s + val e * val e) vec 0) in
      let d := dif a in
      let m := if nt1 a && (1 <=? d)%nat then
                 vdiv v (fold_left (fun s e => vadd s (vscale (val e) (D e))) vec gz)
               else gz in
      let r := if nt1 a && (2 <=? d)%nat then
                 let r := if nt2 a then fold_left (fun s e => vadd s (vscale (val e) (DD e))) vec hz else hz in
                 let r := vadd r (fold_left (fun s e => vadd s (tsquare (D e))) vec hz) in
                 vdiv v (vsub r (tsquare m))
               else hz in
      Ad d v m r (nt1 a) (nt1 a)
  end.

(** abs: autodiff.h:255 *)
Definition ad_abs (a : ad) : ad := if Rle_dec 0 (val a) then make_ADVal a else ad_neg a.
(** sign: autodiff.h:257 *)
Definition ad_sign (a : ad) : ad :=
  Ad (dif a) ((if Rlt_dec 0 (val a) then 1 else 0) - (if Rlt_dec (val a) 0 then 1 else 0)) gz hz false false.

(** The result of min and max with the chosen argument: autodiff.inl:398-405, 407-414 *)
Definition take (a : ad) (n1 n2 : bool) : ad :=
  Ad (dif a) (val a) (if nt1 a && (1 <=? dif a)%nat then D a else gz)
     (if nt2 a && (2 <=? dif a)%nat then DD a else hz) n1 n2.
(** min: autodiff.inl:392-417 *)
Definition ad_min (a b : ad) : ad :=
  take (if Rle_dec (val a) (val b) then a else b) (nt1 a || nt1 b) (nt2 a || nt2 b).
(** max: autodiff.inl:418-443 *)
Definition ad_max (a b : ad) : ad :=
  take (if Rle_dec (val b) (val a) then a else b) (nt1 a || nt1 b) (nt2 a || nt2 b).

End Ops.

(** *** Expressions: a C++ expression over named leaves (Var, Param or ADVal
    objects, or any other ADExpr), evaluated bottom-up by the overloads *)
Inductive expr :=
| Leaf (n : nat)
| Const (c : R)
| Neg (a : expr) | Add (a b : expr) | Sub (a b : expr) | Mul (a b : expr) | Div (a b : expr)
| PowR (a : expr) (q : R) | PowZ (a : expr) (q : Z) | Pow (a b : expr) | Sq (a : expr)
| Fn (f : fn) (a : expr) | Atan2 (y x : expr) | Hypot (l : list expr)
| Abs (a : expr) | Sign (a : expr) | Min (a b : expr) | Max (a b : expr) | Shell (a : expr).

Fixpoint run (st : storage) (leaf : nat -> ad) (e : expr) : ad :=
  match e with
  | Leaf n => leaf n
  | Const c => param st c
  | Neg a => ad_neg st (run st leaf a)
  | Add a b => ad_add st (run st leaf a) (run st leaf b)
  | Sub a b => ad_sub st (run st leaf a) (run st leaf b)
  | Mul a b => ad_mul st (run st leaf a) (run st leaf b)
  | Div a b => ad_div st (run st leaf a) (run st leaf b)
  | PowR a q => ad_powr st (run st leaf a) q
  | PowZ a q => ad_powz st (run st leaf a) q
  | Pow a b => ad_pow st (run st leaf a) (run st leaf b)
  | Sq a => ad_sq st (run st leaf a)
  | Fn f a => ad_unary st (op_of f) (run st leaf a)
  | Atan2 y x => ad_atan2 st (run st leaf y) (run st leaf x)
  | Hypot l => ad_hypot st (map (run st leaf) l)
  | Abs a => ad_abs st (run st leaf a)
  | Sign a => ad_sign st (run st leaf a)
  | Min a b => ad_min st (run st leaf a) (run st leaf b)
  | Max a b => ad_max st (run st leaf a) (run st leaf b)
  | Shell a => make_shell st (run st leaf a)
  end.
