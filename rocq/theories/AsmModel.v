(** Global assembly: the scatter of the element matrices and element vectors
    into the distributed sparse matrix and right-hand side
    (anifem++/inmost_interface/assembler.inl:48-190, 313-860).

    Doubles that are finite are modelled as reals; NaN and infinities are [None].
    Outcomes: [Abort] is a call of abort(), a violated assertion or an access
    outside an array; [Fail] is the error status -1; [Ok] the normal end. *)
From Verif Require Import Prelude.
From Coq Require Import Reals.
Open Scope nat_scope.

Inductive res (A : Type) : Type :=
| Abort : res A
| Fail : res A
| Ok : A -> res A.
Arguments Abort {A}.
Arguments Fail {A}.
Arguments Ok {A} _.

Definition rbind {A B} (x : res A) (f : A -> res B) : res B :=
  match x with Abort => Abort | Fail => Fail | Ok a => f a end.
Notation "'run' x <- e ; f" := (rbind e (fun x => f)) (at level 200, x pattern, e at level 100, f at level 200).

(** An array access; outside the array the behaviour is undefined. *)
Definition get {A} (x : option A) : res A := match x with Some a => Ok a | None => Abort end.

(** for (x : l) body *)
Fixpoint each {X S} (body : X -> S -> res S) (l : list X) (s : S) : res S :=
  match l with
  | [] => Ok s
  | x :: r => run s' <- body x s ; each body r s'
  end.

(** *** INMOST::Sparse::Row: a vector of (column, value) pairs (library class, not in /repo) *)
Definition row := list (nat * R).

(** Row::get_safe(c): the value of column c, 0 when the row has no such column. *)
Fixpoint get_safe (q : row) (c : nat) : R :=
  match q with
  | [] => 0%R
  | (k, x) :: t => if k =? c then x else get_safe t c
  end.

(** row[c] += v: Row::operator[] searches for the column and appends (c, 0) when it is missing. *)
Fixpoint row_add (q : row) (c : nat) (v : R) : row :=
  match q with
  | [] => [(c, (0 + v)%R)]
  | (k, x) :: t => if k =? c then (k, (x + v)%R) :: t else (k, x) :: row_add t c v
  end.

(** row[c] = v *)
Fixpoint row_set (q : row) (c : nat) (v : R) : row :=
  match q with
  | [] => [(c, v)]
  | (k, x) :: t => if k =? c then (k, v) :: t else (k, x) :: row_set t c v
  end.

(** std::lower_bound(begin + p, begin + e, c, first <): the first position in
    [p, e) whose column is not below c, or e.  (The binary search is replaced by
    its specified result on a sorted range.) *)
Fixpoint lower_bound_from (q : row) (p e c : nat) (n : nat) : nat :=
  match n with
  | 0 => e
  | S n' => match nth_error q p with
            | Some (k, _) => if k <? c then lower_bound_from q (S p) e c n' else p
            | None => e
            end
  end.
Definition lower_bound (q : row) (p e c : nat) : nat := lower_bound_from q p e c (e - p).

(** std::sort with a key (the order of equal keys, unspecified in C++, is that of insertion sort). *)
Fixpoint insert_by {A} (key : A -> nat) (x : A) (l : list A) : list A :=
  match l with
  | [] => [x]
  | y :: r => if key x <=? key y then x :: y :: r else y :: insert_by key x r
  end.
Fixpoint sort_by {A} (key : A -> nat) (l : list A) : list A :=
  match l with [] => [] | x :: r => insert_by key x (sort_by key r) end.

(** *** Codes of the index tables: assembler.inl:48-56 *)
Open Scope Z_scope.
Definition encode (sign : Z) (index : Z) : Z := sign * (index + 1).
Definition CODE_UNDEF : Z := 0.
Definition decode (code : Z) : Z * Z := (Z.abs code - 1, if code <? 0 then -1 else 1).
Close Scope Z_scope.

(** *** What the assembler knows about one cell

    [c_dof i]: the number OrderC gives to the dof in position i of the local
    table; [c_flip i]: the sign of an oriented dof is -1; [c_ghost i]: the mesh
    entity of that dof has status Ghost; A (column-major), F: what the elemental
    function computed; [c_mask]: the sparsity mask of A (filled by fillTemplate).
    How the table position of a dof is found is C44; here the table is given. *)
Record cell := mkCell {
  c_dof : list nat;
  c_flip : list bool;
  c_ghost : list bool;
  c_A : list (option R);
  c_F : list (option R);
  c_mask : list bool }.

(** AssmOpts: assembler.h:210-231 *)
Record opts := mkOpts {
  drop_val : R;
  is_mtx_sorted : bool;
  is_mtx_include_template : bool;
  use_ordered_insert : bool }.

(** The global data: local interval [beg, beg + rows), number of rows/columns of
    the whole matrix, size of the local table, equality of trial and test spaces. *)
Record prob := mkProb {
  p_n : nat;
  p_beg : nat;
  p_size : nat;
  p_same : bool }.

(** fill_assemble_templates: assembler.inl:141-185.  With equal spaces the rows of
    ghost entities are undefined; otherwise OrderR, which is the same function as
    OrderC (global_enumerator.h:208), fills the row table. *)
Definition codes_C (e : cell) : list Z :=
  map (fun d : nat * bool => encode (if snd d then -1 else 1)%Z (Z.of_nat (fst d))) (List.combine (c_dof e) (c_flip e)).
Definition codes_R (p : prob) (e : cell) : list Z :=
  if p_same p then map (fun d : Z * bool => if snd d then CODE_UNDEF else fst d) (List.combine (codes_C e) (c_ghost e))
  else codes_C e.
Definition has_active (e : cell) : bool := existsb negb (c_ghost e).

(** m_w.m_Ab[j*nRows+i] && fabs(m_w.m_A[j*nRows+i]) > drp_val.  A NaN compares
    false; an infinity does not reach a use of this test (the status is set first). *)
Definition gt_drop (o : opts) (a : option R) : bool :=
  match a with Some x => if Rlt_dec (drop_val o) (Rabs x) then true else false | None => false end.
Definition value (a : option R) : R := match a with Some x => x | None => 0%R end.

Definition signR (s : Z) : R := IZR s.

(** One pass over the columns: assembler.inl:418-437.  Checks every column, adds
    to the row when the insertion is not ordered, stops on a number that is not finite. *)
Definition column_step (p : prob) (o : opts) (e : cell) (rs : Z) (i j : nat) (q : row) : res row :=
  run code <- get (rd (codes_C e) j) ;
  let (cid, cs) := decode code in
  if ((cid <? 0) || (Z.of_nat (p_size p) <=? cid))%Z then Abort else
  run a <- get (rd (c_A e) (j * p_n p + i)) ;
  run b <- get (rd (c_mask e) (j * p_n p + i)) ;
  let q' := if negb (use_ordered_insert o) && b && gt_drop o a
            then row_add q (Z.to_nat cid) (signR rs * signR cs * value a)%R else q in
  match a with
  | None => if b then Fail else Ok q'
  | Some _ => Ok q'
  end.

(** row_index_buffer: the local columns sorted by their global number, assembler.inl:396-400. *)
Definition sorted_columns (p : prob) (e : cell) : list nat :=
  sort_by (fun j => Z.to_nat (fst (decode (nth j (codes_C e) 0%Z)))) (seq 0 (p_n p)).

(** What the ordered insertions read of local column j: number, signed value, whether it is inserted. *)
Definition local_entry (p : prob) (o : opts) (e : cell) (rs : Z) (i j : nat) : res (nat * R * bool) :=
  run code <- get (rd (codes_C e) j) ;
  let (cid, cs) := decode code in
  run a <- get (rd (c_A e) (j * p_n p + i)) ;
  run b <- get (rd (c_mask e) (j * p_n p + i)) ;
  Ok (Z.to_nat cid, (signR rs * signR cs * value a)%R, b && gt_drop o a).

Fixpoint local_entries (p : prob) (o : opts) (e : cell) (rs : Z) (i : nat) (js : list nat) : res (list (nat * R * bool)) :=
  match js with
  | [] => Ok []
  | j :: r => run x <- local_entry p o e rs i j ; run l <- local_entries p o e rs i r ; Ok (x :: l)
  end.

(** Ordered insertion into a row that has every position: assembler.inl:440-451.
    The iterator is a position; the unsigned difference wraps when it is negative,
    which makes it larger than any distance. *)
Definition template_step (x : nat * R * bool) (s : row * nat) : res (row * nat) :=
  let '(ind_loc, val, act) := x in
  let '(q, it) := s in
  if act then
    run h <- get (rd q it) ;
    let ind_q := fst h in
    let cur_end := if (ind_loc <? ind_q) || (length q - it <=? ind_loc - ind_q) then length q
                   else it + (ind_loc - ind_q + 1) in
    let it' := lower_bound q it cur_end ind_loc in
    run g <- get (if it' =? cur_end then None else rd q it') ;
    if fst g =? ind_loc then
      run q' <- get (wr q it' (fst g, (snd g + val)%R)) ; Ok (q', it')
    else Abort
  else Ok s.
Definition template_insert (l : list (nat * R * bool)) (q : row) : res row :=
  run s <- each template_step l (q, 0) ; Ok (fst s).

(** Ordered insertion by merging: assembler.inl:452-487.  The two running indices
    into qrow and into the sorted columns are the remaining parts of two lists; the
    buffer swap_row has room for every entry of both.  [n] bounds the number of
    passes of the while loop. *)
Definition inserted (l : list (nat * R * bool)) : row :=
  map fst (filter (fun x => snd x) l).
Fixpoint merge (n : nat) (q : row) (l : list (nat * R * bool)) : res row :=
  match q, l with
  | (ind_q, vq) :: q', (ind_loc, vl, act) :: l' =>
      match n with
      | 0 => Abort
      | S n' =>
          let ind := if ind_q <? ind_loc then ind_q else ind_loc in
          let val := if ind_q <=? ind_loc then vq else vl in
          let val := if (ind_q =? ind_loc) && act then (val + vl)%R else val in
          run r <- merge n' (if ind_q <=? ind_loc then q' else q) (if ind_loc <=? ind_q then l' else l) ;
          Ok (if (ind_q <=? ind_loc) || act then (ind, val) :: r else r)
      end
  | _, _ => Ok (q ++ inserted l)
  end.

(** The update of one row of the matrix by row i of the element matrix. *)
Definition row_update (p : prob) (o : opts) (e : cell) (rs : Z) (i : nat) (q : row) : res row :=
  run q1 <- each (column_step p o e rs i) (seq 0 (p_n p)) q ;
  if use_ordered_insert o then
    run l <- local_entries p o e rs i (sorted_columns p e) ;
    if is_mtx_include_template o then template_insert l q1
    else merge (length q1 + length l) q1 l
  else Ok q1.

(** Position of a global row in the local interval (checked: assembler.inl:406-411). *)
Definition local_row (p : prob) (rows : nat) (rid : Z) : res nat :=
  if ((Z.of_nat (p_beg p) <=? rid) && (rid <? Z.of_nat (p_beg p + rows)))%Z
  then Ok (Z.to_nat rid - p_beg p) else Abort.

Definition state := (list row * list R)%type.

(** Body of the loop over local rows, between Lock and UnLock of the global row:
    assembler.inl:402-480. *)
Definition row_step (p : prob) (o : opts) (ei : cell * nat) (s : state) : res state :=
  let (e, i) := ei in
  let (m, rhs) := s in
  run code <- get (rd (codes_R p e) i) ;
  if (code =? CODE_UNDEF)%Z then Ok s else
  let (rid, rs) := decode code in
  run k <- local_row p (length m) rid ;
  run f <- get (rd (c_F e) i) ;
  run y <- get (rd rhs k) ;
  run rhs' <- get (wr rhs k (y + signR rs * value f)%R) ;
  run q <- get (rd m k) ;
  run q' <- row_update p o e rs i q ;
  run m' <- get (wr m k q') ;
  match f with None => Fail | Some _ => Ok (m', rhs') end.

(** cycle_body_func: assembler.inl:350-482 (valid cells only). *)
Definition cell_step (p : prob) (o : opts) (e : cell) (s : state) : res state :=
  if has_active e then each (row_step p o) (map (fun i => (e, i)) (seq 0 (p_n p))) s else Ok s.

(** set_elements_on_matrix_diagonal: assembler.inl:113-138, for row number i. *)
Definition insert_at (q : row) (k : nat) (x : nat * R) : row := firstn k q ++ x :: skipn k q.
Definition set_diag (o : opts) (i : nat) (q : row) : row :=
  if is_mtx_include_template o then q else
  if negb (is_mtx_sorted o) then (if Req_EM_T (get_safe q i) 0 then row_set q i 0%R else q)
  else let k := lower_bound q 0 (length q) i in
       match rd q k with
       | None => q ++ [(i, 0%R)]
       | Some (c, _) => if c =? i then q else insert_at q k (i, 0%R)
       end.

Fixpoint map_from {A B} (f : nat -> A -> B) (k : nat) (l : list A) : list B :=
  match l with [] => [] | x :: r => f k x :: map_from f (S k) r end.

(** What is done before the loop over the cells: assembler.inl:323-331. *)
Definition prepare (p : prob) (o : opts) (m : list row) : list row :=
  let m1 := map_from (set_diag o) (p_beg p) m in
  if use_ordered_insert o && negb (is_mtx_sorted o) then map (sort_by fst) m1 else m1.

(** Assemble: assembler.inl:313-490 (one thread; rhs already has the interval). *)
Definition assemble (p : prob) (o : opts) (cells : list cell) (s : state) : res state :=
  each (cell_step p o) cells (prepare p o (fst s), snd s).

(** With several threads the row updates are executed in an order that depends on
    the schedule; each is atomic, its row being locked. *)
Definition row_updates (p : prob) (cells : list cell) : list (cell * nat) :=
  flat_map (fun e => if has_active e then map (fun i => (e, i)) (seq 0 (p_n p)) else []) cells.
Definition assemble_sched (p : prob) (o : opts) (sched : list (cell * nat)) (s : state) : res state :=
  each (row_step p o) sched (prepare p o (fst s), snd s).

(** AssembleRHS: assembler.inl:500-580 *)
Definition rhs_step (p : prob) (ei : cell * nat) (rhs : list R) : res (list R) :=
  let (e, i) := ei in
  run code <- get (rd (codes_R p e) i) ;
  if (code =? CODE_UNDEF)%Z then Ok rhs else
  let (rid, rs) := decode code in
  run k <- local_row p (length rhs) rid ;
  run f <- get (rd (c_F e) i) ;
  run y <- get (rd rhs k) ;
  run rhs' <- get (wr rhs k (y + signR rs * value f)%R) ;
  match f with None => Fail | Some _ => Ok rhs' end.
Definition assemble_rhs (p : prob) (cells : list cell) (rhs : list R) : res (list R) :=
  each (fun e r => if has_active e then each (rhs_step p) (map (fun i => (e, i)) (seq 0 (p_n p))) r else Ok r) cells rhs.

(** AssembleMatrix: assembler.inl:703-855 *)
Definition mat_step (p : prob) (o : opts) (ei : cell * nat) (m : list row) : res (list row) :=
  let (e, i) := ei in
  run code <- get (rd (codes_R p e) i) ;
  if (code =? CODE_UNDEF)%Z then Ok m else
  let (rid, rs) := decode code in
  run k <- local_row p (length m) rid ;
  run q <- get (rd m k) ;
  run q' <- row_update p o e rs i q ;
  get (wr m k q').
Definition assemble_matrix (p : prob) (o : opts) (cells : list cell) (m : list row) : res (list row) :=
  each (fun e r => if has_active e then each (mat_step p o) (map (fun i => (e, i)) (seq 0 (p_n p))) r else Ok r)
    cells (prepare p o m).

(** AssembleTemplate: assembler.inl:590-694.  The merge inserts zeros at the masked
    positions; the values of the row are kept. *)
Definition template_entry (p : prob) (e : cell) (i j : nat) : res (nat * R * bool) :=
  run code <- get (rd (codes_C e) j) ;
  let (cid, cs) := decode code in
  run b <- get (rd (c_mask e) (j * p_n p + i)) ;
  Ok (Z.to_nat cid, 0%R, b).
Fixpoint template_entries (p : prob) (e : cell) (i : nat) (js : list nat) : res (list (nat * R * bool)) :=
  match js with
  | [] => Ok []
  | j :: r => run x <- template_entry p e i j ; run l <- template_entries p e i r ; Ok (x :: l)
  end.
Fixpoint merge_zero (n : nat) (q : row) (l : list (nat * R * bool)) : res row :=
  match q, l with
  | (ind_q, vq) :: q', (ind_loc, vl, act) :: l' =>
      match n with
      | 0 => Abort
      | S n' =>
          let ind := if ind_q <? ind_loc then ind_q else ind_loc in
          let val := if ind_q <=? ind_loc then vq else 0%R in
          run r <- merge_zero n' (if ind_q <=? ind_loc then q' else q) (if ind_loc <=? ind_q then l' else l) ;
          Ok (if (ind_q <=? ind_loc) || act then (ind, val) :: r else r)
      end
  | _, _ => Ok (q ++ inserted l)
  end.
Definition templ_step (p : prob) (ei : cell * nat) (m : list row) : res (list row) :=
  let (e, i) := ei in
  run code <- get (rd (codes_R p e) i) ;
  if (code =? CODE_UNDEF)%Z then Ok m else
  let (rid, rs) := decode code in
  run k <- local_row p (length m) rid ;
  run q <- get (rd m k) ;
  run l <- template_entries p e i (sorted_columns p e) ;
  run q' <- merge_zero (length q + length l) q l ;
  get (wr m k q').
Definition templ_diag (i : nat) (q : row) : row :=
  if Req_EM_T (get_safe q i) 0 then row_set q i 0%R else q.
Definition assemble_template (p : prob) (cells : list cell) (m : list row) : res (list row) :=
  each (fun e r => if has_active e then each (templ_step p) (map (fun i => (e, i)) (seq 0 (p_n p))) r else Ok r)
    cells (map (sort_by fst) (map_from templ_diag (p_beg p) m)).
