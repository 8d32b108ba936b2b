(** Model of ext_range_array_enum (anifem++/interval/ext_array_enum.h:38-130, ext_array_enum.inl:11-805): numbering in
    lexicographic order of the arrays obtained from the arrays of a stored set by inserting at position n every value below rg(a[m]).
    Arrays std::array<UInt, N> are lists of length N; numbers are natural numbers without overflow.
    std::map is a list sorted by the key.  std::lower_bound is the length of the longest prefix of smaller elements, its
    specified result on a sorted range.  [None] is a failed assertion or an access outside of a container. *)
From Verif Require Import Prelude.

Definition key := list nat.
(** std::lexicographical_compare *)
Fixpoint lexb (a b : key) : bool :=
  match a, b with
  | _, [] => false
  | [], _ :: _ => true
  | x :: a, y :: b => (x <? y) || ((x =? y) && lexb a b)
  end.
(** == of arrays *)
Fixpoint keyb (a b : key) : bool :=
  match a, b with [], [] => true | x :: a, y :: b => (x =? y) && keyb a b | _, _ => false end.
(** make_check(t)(a, b), ext_array_enum.inl:13-19: the first t numbers are equal *)
Definition same (t : nat) (a b : key) : bool := keyb (firstn t a) (firstn t b).
(** a[i]; all uses have i < N *)
Definition at_ (i : nat) (a : key) : nat := nth i a 0.
(** a[i] = v *)
Fixpoint set (i v : nat) (a : key) : key := match a, i with [], _ => [] | _ :: r, O => v :: r | x :: r, S i => x :: set i v r end.
(** std::fill(a.data() + t, a.data() + a.size(), 0) *)
Definition fill (t : nat) (a : key) : key := firstn t a ++ repeat 0 (length a - t).

(** std::lower_bound on arrays, and on pairs by the key *)
Fixpoint lb (l : list key) (x : key) : nat := match l with [] => 0 | a :: r => if lexb a x then S (lb r x) else 0 end.
Definition lbk {V} (l : list (key * V)) (x : key) : nat := lb (map fst l) x.
(** std::lower_bound(begin + lo, begin + hi, x) as a position *)
Definition lb_in (l : list key) (lo hi : nat) (x : key) : nat := lo + lb (firstn (hi - lo) (skipn lo l)) x.
(** The elements visited by for (it = start; it != end && p(it); ++it) *)
Fixpoint while_ {X} (p : X -> bool) (l : list X) : list X := match l with [] => [] | x :: r => if p x then x :: while_ p r else [] end.
(** A sum over visited elements *)
Definition sm {X} (f : X -> nat) (l : list X) : nat := fold_right (fun x t => f x + t) 0 l.

(** std::map: [upd_ f k v]: apply f to the value of key k, insert v if there is none *)
Fixpoint upd_ {K V} (ltb : K -> K -> bool) (f : V -> V) (k : K) (v : V) (M : list (K * V)) : list (K * V) :=
  match M with
  | [] => [(k, v)]
  | (k', v') :: r => if ltb k k' then (k, v) :: M else if ltb k' k then (k', v') :: upd_ ltb f k v r else (k', f v') :: r
  end.
(** map.emplace(k, v) *)
Definition emplace {K V} (ltb : K -> K -> bool) (k : K) (v : V) M := upd_ ltb (fun x => x) k v M.
(** jt = map.find(k); if (jt != end) jt->second += v; else map.emplace(k, v) *)
Definition add_to {K} (ltb : K -> K -> bool) (k : K) (v : nat) M := upd_ ltb (fun x => x + v) k v M.
Definition mapk := list (key * nat).

(** sum_part_ids, ext_array_enum.inl:20-69; state: a_ext, s_prev, w1 *)
Definition sp_state : Type := key * list (nat * nat) * mapk.
Definition sp_has (s : list (nat * nat)) (x : nat) : bool := existsb (fun p => fst p =? x) s.
Definition sp_first (a : key) (at' v : nat) (w1 : mapk) : sp_state := (a, [(at_ at' a, v)], emplace lexb a 0 w1).
Definition sp_step (st ed at' : nat) (s : sp_state) (e : key * nat) : sp_state :=
  let '(a_ext, s_prev, w1) := s in
  let '(k, v) := e in
  let touch (a : key) (w : mapk) : sp_state :=
    (a, add_to Nat.ltb (at_ at' k) v s_prev, if sp_has s_prev (at_ at' k) then w else emplace lexb k 0 w) in
  if same ed a_ext k then touch a_ext w1
  else if negb (same st a_ext k) then sp_first k at' v w1
  else touch k (fold_left (fun w p => emplace lexb (set at' (fst p) (fill ed k)) (snd p) w) s_prev w1).
Definition sum_part_ids (st ed at' : nat) (rw : mapk) : option mapk :=
  match rw with
  | [] => None
  | (k, v) :: r => Some (snd (fold_left (sp_step st ed at') r (sp_first k at' v [])))
  end.

Section Enum.
Variable N : nat.
Variable rg : nat -> nat.
(** insert_pos, depends_on *)
Variables n m : nat.

(** r, ext_array_enum.inl:76-86; the fuel is the length of the list *)
Fixpoint build_r (fuel : nat) (l : list key) (r : mapk) : mapk :=
  match fuel, l with
  | S fuel, x :: l =>
      let b := fill (S m) x in
      let a := set m (S (at_ m b)) b in
      let c := lb l a in
      build_r fuel (skipn c l) (emplace lexb b (S c) r)
  | _, _ => r
  end.
(** ww, ext_array_enum.inl:89-101: ww[i] from ww[i+1] by clearing entry i *)
Definition coarse (i : nat) (M : mapk) : mapk := fold_left (fun w e => add_to lexb (set i 0 (fst e)) (snd e) w) M [].
Definition ww (r : mapk) (l : nat) : mapk := fold_left (fun M i => coarse i M) (rev (seq l (m - l))) r.
(** _w from x, ext_array_enum.inl:109-120 *)
Definition weigh (x : mapk) : mapk := fold_left (fun w e => add_to lexb (set m 0 (fst e)) (rg (at_ m (fst e)) * snd e) w) x [].
(** beta_sz, ext_array_enum.inl:146-156, 165-174: for every range the number of elements with a smaller inserted value *)
Definition beta_sz (q : mapk) : list (nat * nat) :=
  let rgs := fold_left (fun s e => emplace Nat.ltb (rg (at_ m (fst e))) tt s) q [] in
  map (fun v => (fst v, sm (fun e => Nat.min (rg (at_ m (fst e))) (fst v) * snd e) q)) rgs.
(** _qr, ext_array_enum.inl:131-179: the groups of q with the same first n numbers; the loop over st with the iterators into q
    visits consecutive groups: modelled by recursion over q *)
Fixpoint groups (fuel : nat) (q : mapk) : list mapk :=
  match fuel, q with
  | S fuel, e :: q => let g := while_ (fun e' => same n (fst e) (fst e')) q in (e :: g) :: groups fuel (skipn (length g) q)
  | _, _ => []
  end.
Definition build_qr (q : mapk) : list (key * list (nat * nat)) :=
  map (fun g => (match g with (k, _) :: _ => fill n k | [] => [] end, beta_sz g)) (groups (length q) q).

(** The object after setup(), ext_array_enum.h:49-57; m_qrb is kept in m_qr *)
Record enum := Enum { m_ord : list key; m_r : mapk; m_w : mapk; m_p : mapk; m_q : mapk; m_qr : list (key * list (nat * nat)); m_size : nat }.
(** setup, ext_array_enum.inl:12-204 *)
Definition setup (A : list key) : option enum :=
  let r := build_r (length A) A [] in
  let q := if (0 <? m) && (n <? m) then ww r n else r in
  do p <- (if (0 <? m) && (n <? m) then sum_part_ids n m m r else Some []);
  let l := Nat.min m n in
  do w <- (if (0 <? m) && (0 <? l) then do x <- sum_part_ids 0 l m (ww r l); Some (weigh x) else Some []);
  let size := sm (fun e => rg (at_ m (fst e)) * snd e) q in
  let qr := if (n <=? m) then build_qr q else [] in
  Some (Enum A r w p q qr size).

(** std::sort and std::unique of _setBaseSet, ext_array_enum.inl:716-721 *)
Fixpoint put (x : key) (l : list key) : list key :=
  match l with [] => [x] | y :: r => if lexb x y then x :: l else if lexb y x then y :: put x r else l end.
Definition base_set (l : list key) : list key := fold_left (fun s x => put x s) l [].

(** The stored array and the inserted value of an array, ext_array_enum.inl:208-211 *)
Definition strip (i : key) : key := firstn n i ++ skipn (S n) i.
(** std::find *)
Fixpoint find_key (l : list key) (x : key) : option nat :=
  match l with [] => None | a :: r => if keyb a x then Some 0 else do j <- find_key r x; Some (S j) end.

(** operator[](array), ext_array_enum.inl:206-293 *)
Definition forward (E : enum) (i : key) : option nat :=
  let id := strip i in
  let s := at_ n i in
  let A := m_ord E in
  if negb (s <? rg (at_ m id)) then None else
  do it_id <- find_key A id;
  let k_id := if n =? N then id else fill (if m <? n then n else S m) id in
  let it_kid := if n =? N then it_id else lb_in A 0 (S it_id) k_id in
  let kn := it_id - it_kid in
  let pn :=
    if m <? n then s * (lb_in A (S it_id) (length A) (set (n - 1) (S (at_ (n - 1) k_id)) k_id) - it_kid)
    else if S n <=? m then
      let p_id := set m 0 k_id in
      sm (fun e => if s <? rg (at_ m (fst e)) then snd e else 0) (while_ (fun e => same m (fst e) p_id) (skipn (lbk (m_p E) p_id) (m_p E)))
    else 0 in
  let qn :=
    if S m <? n then rg (at_ m id) * (it_kid - lb_in A 0 (S it_kid) (fill (S m) k_id))
    else if (n <=? m) && negb (s =? 0) then
      let q_id := fill n k_id in
      sm (fun e => Nat.min s (rg (at_ m (fst e))) * snd e) (while_ (fun e => same m (fst e) q_id) (skipn (lbk (m_q E) q_id) (m_q E)))
    else 0 in
  let rn :=
    sm (fun e => (if n <=? m then (if s <? rg (at_ m (fst e)) then 1 else 0) else rg (at_ m (fst e))) * snd e)
       (while_ (fun e => same m (fst e) k_id && (at_ m (fst e) <? at_ m id)) (skipn (lbk (m_r E) (fill m k_id)) (m_r E))) in
  let l := Nat.min m n in
  let wn :=
    if 0 <? l then
      let w_id := fill l k_id in
      match nth_error (m_w E) (lbk (m_w E) w_id) with Some (k, v) => if keyb k w_id then v else 0 | None => 0 end
    else 0 in
  Some (wn + rn + qn + pn + kn).

(** contains, ext_array_enum.inl:723-734 *)
Definition contains (E : enum) (i : key) : bool :=
  let id := strip i in
  if negb (at_ n i <? rg (at_ m id)) then false else
  match nth_error (m_ord E) (lb (m_ord E) id) with Some a => keyb a id | None => false end.

(** std::lower_bound(rbegin, rend, i, a.second > i) on a list with nondecreasing second components: the last entry with the
    second component at most i, and the entry after it, ext_array_enum.inl:320, 389-390; the list is scanned from its end *)
Fixpoint rfind {K} (i : nat) (next : option (K * nat)) (l : list (K * nat)) : option (K * nat) * option (K * nat) :=
  match l with [] => (None, next) | e :: r => if i <? snd e then rfind i (Some e) r else (Some e, next) end.
(** The search in r, ext_array_enum.inl:338-350 (g v = rg v), 452-464 (g v is 1 if beta < rg v and 0 otherwise) *)
Fixpoint rloop (g : nat -> nat) (l : mapk) (res : key) (sum i : nat) : key * nat :=
  match l with
  | (k, v) :: r =>
      if same m k res then
        if i <? sum + g (at_ m k) * v then (set m (at_ m k) res, i - sum)
        else rloop g r (set m (at_ m k) res) (sum + g (at_ m k) * v) i
      else (res, i)
  | [] => (res, i)
  end.
(** The search in p, ext_array_enum.inl:417-446: the result is the chosen array and pn *)
Fixpoint ploop (beta : nat) (l : mapk) (p_id prev_id : key) (sum prev_sum i : nat) : key * nat :=
  match l with
  | (k, v) :: r =>
      let c := if beta <? rg (at_ m k) then v else 0 in
      if same n k p_id then
        if same m p_id k then (if i <? sum + c then (prev_id, prev_sum) else ploop beta r p_id prev_id (sum + c) prev_sum i)
        else (if i <? c then (p_id, sum) else ploop beta r k p_id c sum i)
      else (p_id, sum)
  | [] => (p_id, sum)
  end.
(** std::copy(v.data() + lo, v.data() + hi, res.data() + lo) *)
Definition copyr (lo hi : nat) (v res : key) : key := firstn lo res ++ firstn (hi - lo) (skipn lo v) ++ skipn hi res.

(** begin(i).id.second for i < size(), ext_array_enum.inl:295-466, and operator[](GInt), inl:468-472 *)
Definition reverse (E : enum) (i : nat) : option key :=
  let A := m_ord E in
  if negb (i <? m_size E) then None else
  let l := Nat.min n m in
  do (res, i) <- (if 0 <? l then
                    match fst (rfind i None (rev (m_w E))) with Some (k, v) => Some (copyr 0 l k (repeat 0 N), i - v) | None => None end
                  else Some (repeat 0 N, i));
  do (res, beta) <-
    (if m <? n then
       let (res, i) := rloop rg (skipn (lbk (m_r E) res) (m_r E)) res 0 i in
       let it := lb A res in
       do a <- nth_error A it;
       let jt := lb_in A (S it) (length A) (set m (S (at_ m res)) res) in
       do (it, jt, res, i) <-
         (if S m <? n then
            let lrg := rg (at_ m a) in
            if lrg =? 0 then None else
            let pp := it + i / lrg in
            do v <- nth_error A pp;
            let pit := lb_in A it pp (fill n v) in
            let res := copyr (S m) n v res in
            Some (pit, lb_in A (S pit) jt (set (n - 1) (S (at_ (n - 1) res)) res), res, i - lrg * (pit - it))
          else Some (it, jt, res, i));
       let sh := jt - it in
       if sh =? 0 then None else
       do v <- nth_error A (it + i mod sh);
       Some (copyr n N v res, i / sh)
     else
       do (_, bs) <- nth_error (m_qr E) (lbk (m_qr E) res);
       let (q, nq) := rfind i None (rev bs) in
       do (v', s') <- nq;
       let (v, s) := match q with Some e => e | None => (0, 0) end in
       if v' - v =? 0 then None else
       let w := (s' - s) / (v' - v) in
       if w =? 0 then None else
       let beta := v + (i - s) / w in
       let i := (i - s) mod w in
       do (res, i) <-
         (if S n <=? m then
            match skipn (lbk (m_p E) res) (m_p E) with
            | [] => None
            | (k, c) :: r => let (pid, pn) := ploop beta r k k (if beta <? rg (at_ m k) then c else 0) 0 i in Some (copyr n m pid res, i - pn)
            end
          else Some (res, i));
       let (res, i) := rloop (fun x => if beta <? rg x then 1 else 0) (skipn (lbk (m_r E) res) (m_r E)) res 0 i in
       if S m <? N then do v <- nth_error A (lb A res + i); Some (copyr (S m) N v res, beta)
       else Some (res, beta));
  Some (firstn n res ++ beta :: skipn n res).
End Enum.
