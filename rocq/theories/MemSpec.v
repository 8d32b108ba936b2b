(** Vocabulary for C12-C16. *)
From Verif Require Import Prelude MemModel.

(** Blocks of memory as half-open address ranges. *)
Definition inside (b : nat * nat) (base len : nat) : Prop := base <= fst b /\ fst b + snd b <= base + len.
Definition apart (a b : nat * nat) : Prop := forall x, ~ (fst a <= x < fst a + snd a /\ fst b <= x < fst b + snd b).
Definition aligned (a x : nat) : Prop := x mod a = 0.
Definition pow2 (a : nat) : Prop := exists k, a = 2 ^ k.
(* C++ guarantees for every object type: positive power of two alignment that divides the size *)
Definition ok_type (t : ctype) : Prop := pow2 (ct_align t) /\ ct_size t mod ct_align t = 0 /\ 0 < ct_size t.

(* a block that was asked for is present, aligned, inside the buffer and has the length asked for *)
Definition placed_block (t : ctype) (ptr : option nat) (n base len : nat) : Prop :=
  0 < n -> exists a, ptr = Some a /\ aligned (ct_align t) a /\ inside (a, ct_size t * n) base len.
Definition blocks_apart (t1 t2 : ctype) (p1 p2 : option nat) (n1 n2 : nat) : Prop :=
  forall a b, 0 < n1 -> 0 < n2 -> p1 = Some a -> p2 = Some b -> apart (a, ct_size t1 * n1) (b, ct_size t2 * n2).

(** *** Pool histories *)
Inductive dop :=
| DAlloc (want : kind -> nat)
| DRelease (k : nat)            (* release the k-th live part, counting from the newest *)
| DDefrag.

(* what the program asked for and has not released yet, newest first *)
Fixpoint drop_nth {A} (k : nat) (l : list A) : list A :=
  match k, l with
  | _, [] => []
  | O, _ :: r => r
  | S k', x :: r => x :: drop_nth k' r
  end.
Definition dstep (st : dynmem * list part) (o : dop) : option (dynmem * list part) :=
  let '(s, live) := st in
  match o with
  | DAlloc want => do ps <- dm_alloc want s; Some (snd ps, fst ps :: live)
  | DRelease k => do x <- nth_error live k; do s' <- dm_release x s; Some (s', drop_nth k live)
  | DDefrag => Some (fst (dm_defragment s), live)
  end.
Fixpoint drun (st : dynmem * list part) (h : list dop) : option (dynmem * list part) :=
  match h with
  | [] => Some st
  | o :: r => do st' <- dstep st o; drun st' r
  end.
(* the sizes that are live after a history, newest first; independent of the pool *)
Definition wants_step (l : list (kind -> nat)) (o : dop) : list (kind -> nat) :=
  match o with DAlloc w => w :: l | DRelease k => drop_nth k l | DDefrag => l end.
Definition wants (h : list dop) : list (kind -> nat) := fold_left wants_step h [].

(** A history is legal when every release names a live part.  It is scoped when
    moreover no part is requested after an out-of-order release, until all parts
    are gone: strict stack use, plus releases in any order at the end. *)
Fixpoint legal (n : nat) (h : list dop) : Prop :=
  match h with
  | [] => True
  | DAlloc _ :: r => legal (S n) r
  | DRelease k :: r => k < n /\ legal (n - 1) r
  | DDefrag :: r => legal n r
  end.
Fixpoint scoped (n : nat) (disorder : bool) (h : list dop) : Prop :=
  match h with
  | [] => True
  | DAlloc _ :: r => disorder = false /\ scoped (S n) false r
  | DRelease k :: r => k < n /\ scoped (n - 1) (if n - 1 =? 0 then false else disorder || negb (k =? 0)) r
  | DDefrag :: r => scoped n disorder r
  end.

(** Memory cells: kind of vector, heap block, index. *)
Definition cell := (kind * nat * nat)%type.
(* the cells a part may use through the pointer and the size it was given *)
Definition owns (x : part) (c : cell) : Prop :=
  let '(k, h, i) := c in
  exists p, pt_piece x k = Some p /\ pc_heap p = h /\ pc_off p <= i < pc_off p + pc_len p.
(* the cells that exist: inside the vector that currently owns the heap block *)
Definition exists_cell (s : dynmem) (c : cell) : Prop :=
  let '(k, h, i) := c in
  exists ck, In ck (dm_chunks s) /\ p_heap (ck_pool ck k) = h /\ i < p_size (ck_pool ck k).
(* a part has, for every kind, a block of the wanted size *)
Definition has_size (x : part) (w : kind -> nat) : Prop :=
  forall k, match pt_piece x k with Some p => pc_len p = w k /\ 0 < w k | None => w k = 0 end.
Definition good_pool (s : dynmem) (live : list part) (w : list (kind -> nat)) : Prop :=
  Forall2 has_size live w /\
  (forall x c, In x live -> owns x c -> exists_cell s c) /\
  (forall i j x y c, nth_error live i = Some x -> nth_error live j = Some y -> i <> j -> ~ (owns x c /\ owns y c)).

(** *** Histories of the shared pool; every operation runs under the mutex, so
    an execution of many threads is a list of operations with thread numbers. *)
Inductive pop :=
| PAlloc (t : nat)
| PRange (t n : nat)
| PRelease (t id : nat)
| PReleaseRange (t lo hi : nat)
| PReleaseAll
| PClear.
(* [own] : the slots handed out, with the thread that received them *)
Definition pstate := (parmem * list (nat * nat))%type.
Definition other (t id : nat) (o : nat * nat) : bool := negb ((fst o =? t) && (snd o =? id)).
Definition pstep (st : pstate) (o : pop) : option pstate :=
  let '(s, own) := st in
  match o with
  | PAlloc t => let '(id, s') := par_alloc s in Some (s', (t, id) :: own)
  | PRange t n => do rs <- par_alloc_range n s; let '((lo, hi), s') := rs in
                  Some (s', map (fun id => (t, id)) (seq lo (hi - lo)) ++ own)
  | PRelease t id => Some (par_release id s, filter (other t id) own)
  | PReleaseRange t lo hi => Some (par_release_range lo hi s,
        filter (fun o => negb ((fst o =? t) && (lo <=? snd o) && (snd o <? hi))) own)
  | PReleaseAll => Some (par_release_all s, [])
  | PClear => Some (par_clear s, [])
  end.
(* a thread releases only what it owns *)
Definition pallowed (own : list (nat * nat)) (o : pop) : Prop :=
  match o with
  | PRelease t id => In (t, id) own
  | PReleaseRange t lo hi => lo <= hi /\ forall id, lo <= id < hi -> In (t, id) own
  | _ => True
  end.
Inductive reach : pstate -> Prop :=
| reach_init : reach (par_init, [])
| reach_step st o st' : reach st -> pallowed (snd st) o -> pstep st o = Some st' -> reach st'.

(** *** Iterations executed by a thread *)
Definition runs (niters n t k : Z) : Prop :=
  let '(lo, hi) := thread_range niters n t in (lo <= k < hi)%Z.

(** *** Views *)
Definition real_views (a : animem) : list view :=
  [v_XYG a; v_XYP a; v_PSI a; v_DET a; v_MES a; v_NRM a; v_XYL a; v_WG a; v_DU a; v_DIFF a; v_U a; v_V a; v_extraR a; v_Dfn a].
Definition int_views (a : animem) : list view := [v_extraI a; v_ROW a; v_COL a].
Definition views_ok (l : list view) (len : nat) : Prop :=
  (forall v, In v l -> 0 < snd v -> inside v 0 len) /\ ForallOrdPairs apart l.
Definition layout_ok (a : animem) (m : memreq) : Prop :=
  views_ok (real_views a) (mr_d m) /\ views_ok (int_views a) (mr_i m) /\ views_ok [v_MTX a] (mr_m m).

(* the lengths the integration code relies on; [nd] is 3 when normals are used *)
Definition geometry_sizes (a : animem) (q f : nat) : Prop :=
  snd (v_XYG a) = 3 * q * f /\ snd (v_XYP a) = 12 * f /\ snd (v_PSI a) = 9 * f /\ snd (v_DET a) = f /\ snd (v_MES a) = f.
(* [n] reals starting where the scratch array starts may be overwritten without
   touching the other arrays (the tensor's own memory is dead by then) *)
Definition scratch_ok (a : animem) (m : memreq) (n : nat) : Prop :=
  fst (v_extraR a) + n <= mr_d m /\
  Forall (apart (fst (v_extraR a), n))
    [v_XYG a; v_XYP a; v_PSI a; v_DET a; v_MES a; v_NRM a; v_XYL a; v_WG a; v_DU a; v_DIFF a; v_U a; v_V a].
