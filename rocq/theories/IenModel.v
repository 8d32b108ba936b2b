(** Model of interval_enum (anifem++/interval/interval_enum.h, interval_enum.inl): numbers stored by intervals.
    The storage is an array of pairs (number of the first element, first element) closed by a pair past the end.
    Memory is modelled for interval_own_memory; positions are iterators.  std::upper_bound is the first position satisfying the predicate.
    [None] is an access outside the array. *)
From Verif Require Import Prelude.
Open Scope Z_scope.

Definition mem := list (Z * Z).
(** const_iterator, interval_enum.h:99-134: m_it, m_end, m_shift *)
Record iter := It { m_it : nat; m_end : nat; m_shift : Z }.

(** begin, end: interval_enum.h:147-148; an empty storage gives position 0 *)
Definition begin (m : mem) : iter := It 0 (length m - 1) 0.
Definition end_ (m : mem) : iter := It (length m - 1) (length m - 1) 0.
(** operator++, interval_enum.inl:12-25 *)
Definition incr (m : mem) (i : iter) : option iter :=
  if negb (m_it i =? m_end i)%nat then
    do a <- nth_error m (m_it i);
    do b <- nth_error m (S (m_it i));
    Some (if m_shift i + 1 <? fst b - fst a then It (m_it i) (m_end i) (m_shift i + 1) else It (S (m_it i)) (m_end i) 0)
  else Some (It (m_it i) (m_end i) (m_shift i + 1)).
(** operator--, interval_enum.inl:27-36 *)
Definition decr (m : mem) (i : iter) : option iter :=
  if 0 <? m_shift i then Some (It (m_it i) (m_end i) (m_shift i - 1)) else
  match m_it i with
  | O => None
  | S p => do b <- nth_error m (S p); do a <- nth_error m p; Some (It p (m_end i) (fst b - 1 - fst a))
  end.
(** operator*, interval_enum.h:122-123 *)
Definition deref (m : mem) (i : iter) : option (Z * Z) := do a <- nth_error m (m_it i); Some (fst a + m_shift i, snd a + m_shift i).
(** operator==, interval_enum.h:124 *)
Definition eq_it (a b : iter) : bool := (m_it a =? m_it b)%nat && (m_shift a =? m_shift b).
(** operator<, interval_enum.h:126 *)
Definition lt_it (a b : iter) : bool := (m_it a <? m_it b)%nat || ((m_it a =? m_it b)%nat && (m_shift a <? m_shift b)).
(** operator-, interval_enum.h:121 *)
Definition diff (m : mem) (a b : iter) : option Z :=
  do x <- nth_error m (m_it a); do y <- nth_error m (m_it b); Some (fst x - fst y + m_shift a - m_shift b).
(** size, interval_enum.h:143 *)
Definition size (m : mem) : option Z := match m with [] => Some 0 | _ => diff m (end_ m) (begin m) end.

(** std::upper_bound by the number, by the value *)
Fixpoint ub_left (m : mem) (x : Z) : nat := match m with [] => O | a :: r => if x <? fst a then O else S (ub_left r x) end.
Fixpoint ub_right (m : mem) (x : Z) : nat := match m with [] => O | a :: r => if x <? snd a then O else S (ub_right r x) end.

(** find_left, interval_enum.inl:38-47 *)
Definition find_left (m : mem) (left : Z) : option iter :=
  match m with
  | [] => Some (end_ m)
  | _ =>
    let it := ub_left m left in
    if (it =? 0)%nat || (it =? length m)%nat then Some (end_ m) else
    do a <- nth_error m (it - 1); Some (It (it - 1) (length m - 1) (left - fst a))
  end.
(** find_right, interval_enum.inl:48-61 *)
Definition find_right (m : mem) (right : Z) : option iter :=
  match m with
  | [] => Some (end_ m)
  | _ =>
    let it := ub_right m right in
    if (it =? 0)%nat || (it =? length m)%nat then Some (end_ m) else
    do next_v <- nth_error m it;
    do a <- nth_error m (it - 1);
    let shift := right - snd a in
    Some (if fst next_v <=? fst a + shift then end_ m else It (it - 1) (length m - 1) shift)
  end.
(** lower_bound_right, interval_enum.inl:62-73 *)
Definition lower_bound_right (m : mem) (right : Z) : option iter :=
  match m with
  | [] => Some (end_ m)
  | _ =>
    let it := ub_right m right in
    if (it =? 0)%nat then Some (begin m) else
    if (it =? length m)%nat then Some (end_ m) else
    do next_v <- nth_error m it;
    do a <- nth_error m (it - 1);
    let shift := right - snd a in
    Some (if fst next_v <=? fst a + shift then It it (length m - 1) 0 else It (it - 1) (length m - 1) shift)
  end.
(** lower_bound_left, upper_bound_left, upper_bound_right, contains_left, contains_right: interval_enum.h:145-155 *)
Definition lower_bound_left (m : mem) (left : Z) : option iter := if left <? 0 then Some (begin m) else find_left m left.
Definition upper_bound_left (m : mem) (left : Z) : option iter := lower_bound_left m (left + 1).
Definition upper_bound_right (m : mem) (right : Z) : option iter := lower_bound_right m (right + 1).
Definition contains_left (m : mem) (left : Z) : option bool := do n <- size m; Some ((0 <=? left) && (left <? n)).
Definition contains_right (m : mem) (right : Z) : option bool := do i <- find_right m right; Some (negb (eq_it i (end_ m))).

(** k increments *)
Fixpoint advance (m : mem) (k : nat) (i : iter) : option iter := match k with O => Some i | S k => do j <- incr m i; advance m k j end.
