(** Model of interval_map (anifem++/interval/interval_map.h, interval_map.inl).
    Keys are integers compared with <, values have a decidable equality.  Iterators are positions in the vector.
    std::upper_bound and std::lower_bound are replaced by their specified result, the first position satisfying the
    predicate.  [None] is undefined behaviour: front() or back() of an empty vector. *)
From Verif Require Import Prelude.
Open Scope Z_scope.

Section Map.
Variable V : Type.
Variable veqb : V -> V -> bool.

(** interval_map.h:29-38, 129: std::pair<interval<Key>, T> *)
Record entry := Entry { m_start : Z; m_end : Z; second : V }.
(** interval_map.h:125-130: m_map_list; boundary_status: bit 1 is [left_inf], bit 2 is [right_inf] *)
Record imap := IMap { entries : list entry; left_inf : bool; right_inf : bool }.
Definition empty_map : imap := IMap [] false false.

(** std::upper_bound(begin, end, key, key < m_end) *)
Fixpoint ub (l : list entry) (key : Z) : nat := match l with [] => O | x :: r => if key <? m_end x then O else S (ub r key) end.
(** std::lower_bound(begin, end, key, m_start < key) *)
Fixpoint lb (l : list entry) (key : Z) : nat := match l with [] => O | x :: r => if m_start x <? key then S (lb r key) else O end.

(** internal_find, interval_map.inl:141-153: position of the entry, or none *)
Definition internal_find (m : imap) (key : Z) : option nat :=
  let l := entries m in
  let n := length l in
  let search (ed : nat) :=
    let it := ub (firstn ed l) key in
    match nth_error (firstn ed l) it with
    | Some x => if (left_inf m && (it =? 0)%nat) || negb (key <? m_start x) then Some it else None
    | None => None
    end in
  match l with
  | [] => None
  | _ =>
    if right_inf m then
      match nth_error l (n - 1) with
      | Some x => if negb (key <? m_start x) then Some (n - 1)%nat else search (n - 1)%nat
      | None => None
      end
    else search n
  end.
(** at, interval_map.inl:70-76; [None] is the exception out_of_range *)
Definition at_key (m : imap) (key : Z) : option V :=
  match internal_find m key with Some i => match nth_error (entries m) i with Some x => Some (second x) | None => None end | None => None end.
(** contains(key), interval_map.inl:58-68, written as in the code *)
Definition contains (m : imap) (key : Z) : bool :=
  let l := entries m in
  let n := length l in
  let search (ed : nat) :=
    let it := ub (firstn ed l) key in
    match nth_error (firstn ed l) it with
    | Some x => (left_inf m && (it =? 0)%nat) || negb (key <? m_start x)
    | None => false
    end in
  match l with
  | [] => false
  | _ =>
    if right_inf m then
      match nth_error l (n - 1) with
      | Some x => if negb (key <? m_start x) then true else search (n - 1)%nat
      | None => false
      end
    else search n
  end.
(** contains(it, key), interval_map.inl:128-139 *)
Definition iter_contains (m : imap) (i : nat) (key : Z) : option bool :=
  do x <- nth_error (entries m) i;
  Some (if right_inf m && (i =? length (entries m) - 1)%nat then negb (key <? m_start x)
        else if left_inf m && (i =? 0)%nat then key <? m_end x
        else negb (key <? m_start x) && (key <? m_end x)).

(** front().first.m_start = min(...), back().first.m_end = max(...), interval_map.inl:198-201 *)
Definition lower_front (l : list entry) (s : Z) : option (list entry) :=
  match l with [] => None | x :: r => Some (Entry (Z.min (m_start x) s) (m_end x) (second x) :: r) end.
Fixpoint raise_back (l : list entry) (e : Z) : option (list entry) :=
  match l with
  | [] => None
  | [x] => Some [Entry (m_start x) (Z.max (m_end x) e) (second x)]
  | x :: r => do r' <- raise_back r e; Some (x :: r')
  end.

(** it_st0: first entry ending after the start, interval_map.inl:203-214 *)
Definition ends_at (l : list entry) (i : nat) (s : Z) : bool := match nth_error l i with Some x => m_end x =? s | None => false end.
Definition find_start (right : bool) (l : list entry) (s e : Z) (bnd : nat) : nat :=
  let it_st := ub l s in
  let it_st := if (bnd =? 1)%nat && (s =? e) && negb (it_st =? 0)%nat && ends_at l (it_st - 1) s then (it_st - 1)%nat else it_st in
  if right && (it_st =? length l)%nat &&
     match nth_error l (length l - 1) with Some b => (m_end b =? m_start b) && (m_end b =? s) && negb ((bnd =? 1)%nat && (s =? e)) | None => false end
  then (it_st - 1)%nat else it_st.
(** it_end0: first entry starting at or after the end, interval_map.inl:221-228 *)
Definition find_end (left : bool) (l : list entry) (e : Z) (it_st0 : nat) : nat :=
  let it_end := if (it_st0 =? length l)%nat then length l else (it_st0 + lb (skipn it_st0 l) e)%nat in
  if left && (it_end =? 0)%nat && match l with b :: _ => (m_start b =? m_end b) && (m_start b =? e) | [] => false end
  then S it_end else it_end.
(** Conflict check and merge, interval_map.inl:215-220, 229-243; the list is returned in both cases *)
Definition finish (l : list entry) (s e : Z) (v : V) (it_st0 it_end0 : nat) : option (list entry * bool) :=
  let it_st :=
    if negb (it_st0 =? 0)%nat && ends_at l (it_st0 - 1) s && match nth_error l (it_st0 - 1) with Some x => veqb (second x) v | None => false end
    then (it_st0 - 1)%nat else it_st0 in
  let it_end := match nth_error l it_end0 with Some x => if (m_start x =? e) && veqb (second x) v then S it_end0 else it_end0 | None => it_end0 end in
  if negb (forallb (fun x => veqb (second x) v) (firstn (it_end0 - it_st0) (skipn it_st0 l))) then Some (l, false) else
  if (it_st =? it_end)%nat then Some (firstn it_end l ++ Entry s e v :: skipn it_end l, true) else
  do x <- nth_error l it_st;
  do y <- nth_error l (it_end - 1);
  Some (firstn it_st l ++ Entry (Z.min (m_start x) s) (Z.max (m_end y) e) (second x) :: skipn it_end l, true).
(** The core of the insertion, interval_map.inl:193-244; the result is the map and the returned flag *)
Definition insert_core (m : imap) (s e : Z) (v : V) (bnd : nat) : option (imap * bool) :=
  if (e <? s) || ((bnd =? 0)%nat && (s =? e)) then Some (m, false) else
  do l1 <- (if left_inf m then lower_front (entries m) s else Some (entries m));
  do l <- (if right_inf m then raise_back l1 e else Some l1);
  let it_st0 := find_start (right_inf m) l s e bnd in
  let it_end0 := find_end (left_inf m) l e it_st0 in
  do (l', ok) <- finish l s e v it_st0 it_end0;
  Some (IMap l' (left_inf m) (right_inf m), ok).

(** An insertion: the ends of the interval, none is tag_inf *)
Record ivl_op := Op { lo : option Z; hi : option Z; value : V }.
(** insert, interval_map.inl:78-126 *)
Definition insert (m : imap) (o : ivl_op) : option (imap * bool) :=
  match lo o, hi o with
  | Some s, Some e => insert_core m s e (value o) 0
  | Some s, None =>
      let e := match rev (entries m) with [] => s | x :: _ => if s <? m_end x then m_end x else s end in
      do (m', ok) <- insert_core m s e (value o) 2;
      Some (if ok then IMap (entries m') (left_inf m') true else m', ok)
  | None, Some e =>
      let s := match entries m with [] => e | x :: _ => if m_start x <? e then m_start x else e end in
      do (m', ok) <- insert_core m s e (value o) 1;
      Some (if ok then IMap (entries m') true (right_inf m') else m', ok)
  | None, None =>
      if forallb (fun x => veqb (second x) (value o)) (entries m) then Some (IMap [Entry 0 0 (value o)] true true, true) else Some (m, false)
  end.
(** A history of insertions and the returned flags *)
Fixpoint inserts (m : imap) (ops : list ivl_op) : option (imap * list bool) :=
  match ops with
  | [] => Some (m, [])
  | o :: ops => do (m1, b) <- insert m o; do (m2, bs) <- inserts m1 ops; Some (m2, b :: bs)
  end.
End Map.
Arguments Entry {V}. Arguments m_start {V}. Arguments m_end {V}. Arguments second {V}. Arguments IMap {V}. Arguments entries {V}. Arguments left_inf {V}. Arguments right_inf {V}.
Arguments empty_map {V}. Arguments ub {V}. Arguments lb {V}. Arguments internal_find {V}. Arguments at_key {V}. Arguments contains {V}. Arguments iter_contains {V}. Arguments lower_front {V}. Arguments raise_back {V}.
Arguments ends_at {V}. Arguments find_start {V}. Arguments find_end {V}. Arguments finish {V}. Arguments insert_core {V}. Arguments Op {V}. Arguments lo {V}. Arguments hi {V}. Arguments value {V}. Arguments insert {V}. Arguments inserts {V}.
