(** Model of the searches and of the moves of iterators of ext_range_array_enum (anifem++/interval/ext_array_enum.h:69-121,
    ext_array_enum.inl:736-846).  An iterator is represented by its number id.first; what it points to is [reverse] of it
    (ext_array_enum.inl:295-466), and end() has the number size() (ext_array_enum.h:112).  [None] is a failed assertion or a
    dereferenced end of a container. *)
From Verif Require Import Prelude ExtModel.

Section Search.
Variable N : nat.
Variable rg : nat -> nat.
Variables n m : nat.

Section Bound.
Variable E : enum.
(** The given array without the inserted value, and the inserted value, ext_array_enum.inl:748-754 *)
Variable id : key.
Variable beta : nat.
(** begin(operator[](res)) where res has the first n numbers of k, the inserted value b and then the rest of k' *)
Definition go2 (k : key) (b : nat) (k' : key) : option nat := forward N rg n m E (firstn n k ++ b :: skipn n k').
Definition go (k : key) (b : nat) : option nat := go2 k b k.
(** std::lower_bound(jt, m_ord.end(), x) *)
Definition from (jt : nat) (x : key) : nat := lb_in (m_ord E) jt (length (m_ord E)) x.
(** The array after all those with the first n numbers of id: fill(n) and ++ of the number n-1, inl:772-774, 800-803 *)
Definition after : key := set (n - 1) (S (at_ (n - 1) id)) (fill n id).
(** if (it == end) return end(); beta = 0; alpha = *it: inl:775-780, 804-809 *)
Definition start_at (it : nat) : option nat := match nth_error (m_ord E) it with None => Some (m_size E) | Some a => go a 0 end.
(** set_next_start, ext_array_enum.inl:798-811 *)
Definition next_start (jt : nat) : option nat := if n =? 0 then Some (m_size E) else start_at (from jt after).
(** The case n > m, ext_array_enum.inl:770-796 *)
Definition lower_gt (jt : nat) : option nat :=
  if rg (at_ m id) <=? beta then start_at (from jt after)
  else
    let it := from jt id in
    match nth_error (m_ord E) it with
    | Some a => if same n id a then go2 id beta a
                else if S beta <? rg (at_ m id) then do j <- nth_error (m_ord E) jt; go2 id (S beta) j else go a 0
    | None => if S beta <? rg (at_ m id) then do j <- nth_error (m_ord E) jt; go2 id (S beta) j else Some (m_size E)
    end.
(** The loop over m_r and what follows it, ext_array_enum.inl:821-845; [add] is it_add *)
Fixpoint scan (jt : nat) (l : mapk) (add : option key) : option nat :=
  let fin := match add with Some k => do a <- nth_error (m_ord E) (from jt k); go a (S beta) | None => next_start jt end in
  match l with
  | [] => fin
  | (k, _) :: r =>
      if negb (same n k (fill (S m) id)) then fin
      else if rg (at_ m k) <=? beta then scan jt r add
      else
        let next := scan jt r (match add with Some _ => add | None => if S beta <? rg (at_ m k) then Some k else None end) in
        if negb (lexb k (fill (S m) id)) then
          do a <- nth_error (m_ord E) (from jt (if keyb k (fill (S m) id) then id else k));
          if same (S m) a k then go a beta else next
        else next
  end.
(** The case n <= m, ext_array_enum.inl:797-846 *)
Definition lower_le (jt : nat) : option nat :=
  do (_, bs) <- nth_error (m_qr E) (lbk (m_qr E) (fill n id));
  match rev bs with
  | [] => None
  | (b, _) :: _ => if b <=? beta then next_start jt else scan jt (skipn (lbk (m_r E) (fill n id)) (m_r E)) None
  end.
Definition lower_from (jt : nat) : option nat := if m <? n then lower_gt jt else lower_le jt.
Definition lower : option nat :=
  if 0 <? n then
    let jt := lb (m_ord E) (fill n id) in
    match nth_error (m_ord E) jt with
    | None => Some (m_size E)
    | Some a => if negb (same n id a) then go a 0 else lower_from jt
    end
  else lower_from 0.
End Bound.

(** lower_bound(i), ext_array_enum.inl:736-846 *)
Definition lower_bound (E : enum) (i : key) : option nat := lower E (strip n i) (at_ n i).
(** upper_bound(i), ext_array_enum.h:118: ++j[N] *)
Definition upper_bound (E : enum) (i : key) : option nat := lower_bound E (set N (S (at_ N i)) i).
(** find(i), ext_array_enum.h:113-114 *)
Definition find_number (E : enum) (i : nat) : nat := if i <? m_size E then i else m_size E.
Definition find_array (E : enum) (i : key) : option nat := if contains rg n m E i then forward N rg n m E i else Some (m_size E).
End Search.

(** The moves and comparisons of iterators, ext_array_enum.h:80-101: += and -= both add, >= is < *)
Definition it_plus (p k : nat) : nat := p + k.
Definition it_minus (p k : nat) : nat := p + k.
Definition it_prev (p : nat) : nat := p - 1.
Definition it_eq (p q : nat) : bool := p =? q.
Definition it_lt (p q : nat) : bool := p <? q.
Definition it_gt (p q : nat) : bool := q <? p.
Definition it_le (p q : nat) : bool := p <=? q.
Definition it_ge (p q : nat) : bool := p <? q.
