(** Model of operator++ of the iterators of ext_range_array_enum (anifem++/interval/ext_array_enum.h:58-69,
    ext_array_enum.inl:560-714).  Iterators into the tables are positions in the lists; keys of the tables are distinct, so a position
    and the key there determine each other. *)
From Verif Require Import Prelude ExtModel ExtModel2.

(** ext_array_enum.h:58-68; the member qit is a union, its part h is written and never read and is left out *)
Record iter := Iter { pos : nat; elem : key; kst : nat; ked : nat; rit : nat; wit : nat; pit : nat; qit : nat }.

Section Next.
Variable N : nat.
Variable rg : nat -> nat.
Variables n m : nat.
Variable E : enum.
Notation A := (m_ord E).
Notation keys := (map fst).
(** std::lower_bound(A.begin() + lo, A.end(), v) *)
Definition from_ (l : list key) (lo : nat) (v : key) : nat := lb_in l lo (length l) v.
(** v[n-1]++; fill(v + n, 0): ext_array_enum.inl:606-608, 627-628, 650-651 *)
Definition beyond (v : key) : key := fill n (set (n - 1) (S (at_ (n - 1) v)) v).

(** The iterator made by begin(p), p < size(): the element and the positions in the tables, ext_array_enum.inl:310-466:
    x.wit line 327, x.rit lines 341 and 455, x.pit line 366, x.kst and x.ked lines 371-373, 465, 468, x.qit.q line 377.
    Simplified: the positions are given by the keys they point to (the element found is [a]); members that begin leaves
    unset for these n and m are 0 *)
Definition place (p : nat) (a : key) (b : key) : iter :=
  Iter p b (lb A (fill (Nat.max n (S m)) a)) (lb A a) (S (lbk (m_r E) (fill (S m) a)))
       (if 0 <? Nat.min n m then lbk (m_w E) (fill (Nat.min n m) a) else 0)
       (if S m <? n then lb A (after n a) else 0) (if n <=? m then lbk (m_qr E) (fill n a) else 0).
Definition begin_ (p : nat) : option iter := do b <- reverse N rg n m E p; Some (place p (strip n b) b).

(** The first of the entries (with their positions) of a range that satisfies a condition, as long as another one holds *)
Fixpoint first_of (go_on ok : key -> bool) (l : mapk) (j : nat) : option (key * nat) :=
  match l with
  | [] => None
  | (k, _) :: r => if go_on k then if ok k then Some (k, j) else first_of go_on ok r (S j) else None
  end.
(** for (; rit != end && go_on && !ok; ++rit); *rit: ext_array_enum.inl:685-686 *)
Fixpoint skip_to (go_on ok : key -> bool) (l : mapk) (j : nat) : option (key * nat) :=
  match l with
  | [] => None
  | (k, _) :: r => if go_on k && negb (ok k) then skip_to go_on ok r (S j) else Some (k, j)
  end.

(** next_it, ext_array_enum.inl:560-714.  The end of the function, assert of a string, is never reached in the model's
    theorems and is [None] *)
Definition next_it (x : iter) : option iter :=
  let p := S (pos x) in
  let res := elem x in
  if m_size E <=? p then Some (Iter p res (kst x) (ked x) (rit x) (wit x) (pit x) (qit x)) else
  let beta := at_ n res in
  let id := strip n res in
  let t := Nat.max n (S m) in
  match (if t <? N then match nth_error A (S (ked x)) with Some v => if same t id v then Some v else None | None => None end else None) with
  | Some v => Some (Iter p (firstn (S t) res ++ skipn t v) (kst x) (S (ked x)) (rit x) (wit x) (pit x) (qit x))
  | None =>
    if m <? n then
      if S beta <? rg (at_ m id) then
        do v <- nth_error A (kst x);
        Some (Iter p (firstn n res ++ S beta :: skipn n v) (kst x) (kst x) (rit x) (wit x) (pit x) (qit x))
      else
        match (if S m <? n then match nth_error A (pit x) with Some w => if same (S m) id w then Some w else None | None => None end else None) with
        | Some w => Some (Iter p (firstn (S m) res ++ firstn (n - S m) (skipn (S m) w) ++ 0 :: skipn n w) (pit x) (pit x) (rit x) (wit x) (from_ A (pit x) (beyond w)) (qit x))
        | None =>
          match (match nth_error (m_r E) (rit x) with Some (k, _) => if same m id k then Some k else None | None => None end) with
          | Some k =>
              let st := from_ A (ked x) (fill (S m) (set m (at_ m k) id)) in
              do vv <- nth_error A st;
              Some (Iter p (firstn m res ++ at_ m k :: firstn (n - S m) (skipn (S m) vv) ++ 0 :: skipn n vv) st st (S (rit x)) (wit x)
                         (if S m <? n then from_ A (S st) (beyond vv) else pit x) (qit x))
          | None =>
              if (0 <? m) && negb (wit x =? length (m_w E)) then
                do (k, _) <- nth_error (m_w E) (S (wit x));
                let v := fill m k in
                let st := from_ A (S (ked x)) v in
                do vv <- nth_error A st;
                Some (Iter p (firstn n vv ++ 0 :: skipn n vv) st st (S (from_ (keys (m_r E)) (rit x) (set m (at_ m vv) v))) (S (wit x))
                           (if S m <? n then from_ A (S st) (beyond vv) else pit x) (qit x))
              else None
          end
        end
    else
      match first_of (same n id) (fun k => beta <? rg (at_ m k)) (skipn (rit x) (m_r E)) (rit x) with
      | Some (k, j) =>
          let st := from_ A (S (ked x)) (fill (S m) k) in
          do vv <- nth_error A st;
          Some (Iter p (firstn (S n) res ++ firstn (S m - n) (skipn n k) ++ skipn (S m) vv) st st (S j) (wit x) (pit x) (qit x))
      | None =>
          let more := match nth_error (m_qr E) (qit x) with
                      | Some (_, bs) => match rev bs with (b, _) :: _ => S beta <? b | [] => false end
                      | None => false end in
          if more then
            let v := fill n id in
            do (k, j) <- skip_to (same n v) (fun k => S beta <? rg (at_ m k)) (skipn (lbk (m_r E) v) (m_r E)) (lbk (m_r E) v);
            let st := lb A (firstn n v ++ firstn (S m - n) (skipn n k) ++ skipn (S m) v) in
            do vv <- nth_error A st;
            Some (Iter p (firstn n res ++ S beta :: skipn n vv) st st (S j) (wit x) (pit x) (qit x))
          else if (0 <? n) && negb (wit x =? length (m_w E)) then
            do (k, _) <- nth_error (m_w E) (S (wit x));
            let v := fill n k in
            let st := from_ A (ked x) v in
            do vv <- nth_error A st;
            Some (Iter p (firstn n vv ++ 0 :: skipn n vv) st st (S (lbk (m_r E) (fill n vv))) (S (wit x)) (pit x) (lbk (m_qr E) v))
          else None
      end
  end.
(** ++ k times *)
Fixpoint steps (k : nat) (x : iter) : option iter := match k with 0 => Some x | S k => do y <- next_it x; steps k y end.
End Next.
