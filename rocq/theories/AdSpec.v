(** Specification vocabulary for C50: derivatives along a direction, the function
    an expression denotes, and where it is differentiable.  Only [expr], [fn] and
    [storage] are taken from the model. *)
From Coq Require Import Reals.
From Verif Require Import Prelude AdModel.
Open Scope R_scope.

(** The point x moved by s along v *)
Definition line (x v : nat -> R) (s : R) : nat -> R := fun i => x i + s * v i.
(** d is the derivative of f at x along v *)
Definition D1 (f : (nat -> R) -> R) (v x : nat -> R) (d : R) : Prop :=
  derivable_pt_lim (fun s => f (line x v s)) 0 d.
(** d is the second derivative of f at x along v and w: along the line from x in the direction w
    the derivative of f along v exists near x, and d is its derivative at x *)
Definition D2 (f : (nat -> R) -> R) (v w x : nat -> R) (d : R) : Prop :=
  exists eps G, 0 < eps /\ (forall t, Rabs t < eps -> D1 f v (line x w t) (G t)) /\ derivable_pt_lim G 0 d.

(** The i-th unit vector *)
Definition unit_dir (k : nat) : nat -> R := fun i => if (i =? k)%nat then 1 else 0.

(** *** The function an expression denotes over the functions u of its leaves *)

Definition fn_val (f : fn) (a : R) : R :=
  match f with
  | Exp => exp a | Expm1 => exp a - 1 | Log => ln a | Log1p => ln (1 + a) | Sqrt => sqrt a | Cbrt => std_cbrt a
  | Sin => sin a | Cos => cos a | Tan => tan a | Atan => atan a | Asin => asin a | Acos => acos a
  | Sinh => sinh a | Cosh => cosh a | Tanh => tanh a
  end.

Definition integer_power (a : R) (q : Z) : R := powerRZ a q.

Fixpoint denote (u : nat -> (nat -> R) -> R) (e : expr) (x : nat -> R) : R :=
  match e with
  | Leaf n => u n x
  | Const c => c
  | Neg a => - denote u a x
  | Add a b => denote u a x + denote u b x
  | Sub a b => denote u a x - denote u b x
  | Mul a b => denote u a x * denote u b x
  | Div a b => denote u a x / denote u b x
  | PowR a q => if Req_EM_T q 0 then 1 else std_pow (denote u a x) q
  | PowZ a q => integer_power (denote u a x) q
  | Pow a b => std_pow (denote u a x) (denote u b x)
  | Sq a => denote u a x * denote u a x
  | Fn f a => fn_val f (denote u a x)
  | Atan2 y z => std_atan2 (denote u y x) (denote u z x)
  | Hypot l => sqrt (fold_right (fun e s => denote u e x * denote u e x + s) 0 l)
  | Abs a => Rabs (denote u a x)
  | Sign a => if Rlt_dec 0 (denote u a x) then 1 else if Rlt_dec (denote u a x) 0 then -1 else 0
  | Min a b => Rmin (denote u a x) (denote u b x)
  | Max a b => Rmax (denote u a x) (denote u b x)
  | Shell a => denote u a x
  end.

(** *** Where that function is smooth *)

Definition fn_dom (f : fn) (a : R) : Prop :=
  match f with
  | Log | Sqrt => 0 < a
  | Log1p => -1 < a
  | Cbrt => a <> 0
  | Tan => cos a <> 0
  | Asin | Acos => -1 < a < 1
  | _ => True
  end.

Definition all {A} (P : A -> Prop) := fix all (l : list A) : Prop := match l with [] => True | a :: r => P a /\ all r end.

Fixpoint smooth (u : nat -> (nat -> R) -> R) (x : nat -> R) (e : expr) : Prop :=
  match e with
  | Leaf _ | Const _ => True
  | Neg a | Sq a | Shell a => smooth u x a
  | Add a b | Sub a b | Mul a b => smooth u x a /\ smooth u x b
  | Div a b => smooth u x a /\ smooth u x b /\ denote u b x <> 0
  | PowR a q => smooth u x a /\ (q <> 0 -> 0 < denote u a x)
  | PowZ a q => smooth u x a /\ ((q < 0)%Z -> denote u a x <> 0)
  | Pow a b => smooth u x a /\ smooth u x b /\ 0 < denote u a x
  | Fn f a => smooth u x a /\ fn_dom f (denote u a x)
  | Atan2 y z => smooth u x y /\ smooth u x z /\ (denote u y x <> 0 \/ 0 < denote u z x)
  | Hypot l => all (smooth u x) l /\ 0 < fold_right (fun e s => denote u e x * denote u e x + s) 0 l
  | Abs a | Sign a => smooth u x a /\ denote u a x <> 0
  | Min a b | Max a b => smooth u x a /\ smooth u x b /\ denote u a x <> denote u b x
  end.

(** *** Side conditions the code needs *)

(** The operations whose result is right, when derivatives up to order n are
    wanted: a divisor that varies has the flag NotTrivialSecondDeriv (or n < 2);
    hypot gets at least two values, of one type, the first of which carries
    derivatives up to order n *)
Fixpoint admissible (st : storage) (leaf : nat -> ad) (n : nat) (e : expr) : Prop :=
  match e with
  | Leaf _ | Const _ => True
  | Neg a | Sq a | Shell a | PowR a _ | PowZ a _ | Fn _ a | Abs a | Sign a => admissible st leaf n a
  | Add a b | Sub a b | Mul a b | Pow a b | Atan2 a b | Min a b | Max a b =>
      admissible st leaf n a /\ admissible st leaf n b
  | Div a b => admissible st leaf n a /\ admissible st leaf n b /\
      ((n < 2)%nat \/ nt1 (run st leaf b) = false \/ nt2 (run st leaf b) = true)
  | Hypot l => all (admissible st leaf n) l /\
      match l with
      | a :: _ :: _ => (n <= dif (run st leaf a))%nat /\
          all (fun b => nt1 (run st leaf b) = nt1 (run st leaf a) /\ nt2 (run st leaf b) = nt2 (run st leaf a)) l
      | _ => False
      end
  end.

(** *** What is claimed of a value a, for the function f at x: the value, the
    stored gradient elements as derivatives along the directions v k and the
    stored Hessian elements as second derivatives, up to the order n *)
Definition carries (st : storage) (v : nat -> nat -> R) (x : nat -> R) (n : nat) (f : (nat -> R) -> R) (a : ad) : Prop :=
  val a = f x /\
  length (D a) = ng st /\ length (DD a) = length (hidx st) /\
  ((1 <= n)%nat -> forall k, (k < ng st)%nat -> D1 f (v k) x (nth k (D a) 0)) /\
  ((2 <= n)%nat -> forall c k l, nth_error (hidx st) c = Some (k, l) ->
     D2 f (v k) (v l) x (nth c (DD a) 0) /\ D2 f (v l) (v k) x (nth c (DD a) 0)).

(** The flags of a value never hide a derivative that is stored as non-zero, and
    a value computed to a lower order than n is constant *)
Definition flags_sound (st : storage) (n : nat) (a : ad) : Prop :=
  (nt1 a = false -> D a = repeat 0 (ng st) /\ DD a = repeat 0 (length (hidx st))) /\
  (nt2 a = false -> DD a = repeat 0 (length (hidx st))) /\
  ((dif a < n)%nat -> D a = repeat 0 (ng st) /\ DD a = repeat 0 (length (hidx st))).

(** Every index pair of the storage refers to gradient elements *)
Definition pairs_ok (st : storage) : Prop :=
  forall c k l, nth_error (hidx st) c = Some (k, l) -> (k < ng st)%nat /\ (l < ng st)%nat.

(** The direction (e_i e_j + e_j e_i) / 2 of a symmetric 3x3 tensor in the six elements
    00, 01, 02, 11, 12, 22 that are stored for it *)
Definition sym_dir (k : nat) : nat -> R :=
  fun i => if (i =? k)%nat then (if (k =? 0)%nat || (k =? 3)%nat || (k =? 5)%nat then 1 else / 2) else 0.
