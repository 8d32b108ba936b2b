(** Model of TetGeomSparsity (tetdofmap.h:144-196, tetdofmap.cpp:32-168,
    tetdofmap.inl:7-30) and of iteration over the dofs of a map restricted to a
    sparsity (tetdofmap.cpp:9-27, 170-193, 362-413, 473-554, 695-785).
    A byte is an [N]; positions are (dimension, number) pairs and the end
    position (6,6) is [None]; an end iterator (gid = -1) is [None] inside the
    [option LocalOrder]; the outer [option] is assertion failure. *)
From Coq Require Import NArith.
From Verif Require Import Prelude DofModel.

(* tetdofmap.h:146 elems[4] *)
Record sparsity := Sp { e0 : N; e1 : N; e2 : N; e3 : N }.
Definition elems (s : sparsity) (d : nat) : N :=
  match d with 0 => e0 s | 1 => e1 s | 2 => e2 s | _ => e3 s end.
Definition upd (s : sparsity) (d : nat) (v : N) : sparsity :=
  match d with
  | 0 => Sp v (e1 s) (e2 s) (e3 s)
  | 1 => Sp (e0 s) v (e2 s) (e3 s)
  | 2 => Sp (e0 s) (e1 s) v (e3 s)
  | _ => Sp (e0 s) (e1 s) (e2 s) v
  end.
Definition sp_empty_set : sparsity := Sp 0 0 0 0.                      (* h:146 default *)
Definition bit (i : nat) : N := N.shiftl 1 (N.of_nat i).
Definition lookup_sz (d : nat) : nat := nth d [4; 6; 4; 1] 0.          (* cpp:127, 135, 143, 153 *)

(* cpp:50-52, 61-63, 74, 82 *)
Definition face_nds (f : nat) : list nat := nth f [[0;1;2]; [1;2;3]; [0;2;3]; [0;1;3]] [].
Definition face_eds (f : nat) : list nat := nth f [[0;1;3]; [3;4;5]; [1;2;5]; [0;2;4]] [].
Definition edge_nds (e : nat) : list nat := nth e [[0;1]; [0;2]; [0;3]; [1;2]; [1;3]; [2;3]] [].
Definition bits (l : list nat) : N := fold_right (fun i a => N.lor (bit i) a) 0%N l.

(* cpp:32-40 *)
Definition set_cell (cl : bool) (s : sparsity) : sparsity :=
  let s := upd s 3 (bits [0]) in
  if cl then upd (upd (upd s 0 (bits [0;1;2;3])) 1 (bits [0;1;2;3;4;5])) 2 (bits [0;1;2;3]) else s.
(* cpp:41-46 *)
Definition unset_cell (cl : bool) (s : sparsity) : sparsity :=
  if cl then sp_empty_set else upd s 3 0%N.
(* cpp:47-57 *)
Definition set_face (f : nat) (cl : bool) (s : sparsity) : sparsity :=
  let s := upd s 2 (N.lor (elems s 2) (bit f)) in
  if cl then
    let s := upd s 0 (N.lor (elems s 0) (bits (face_nds f))) in
    upd s 1 (N.lor (elems s 1) (bits (face_eds f)))
  else s.
(* cpp:58-68; [x &= ~y] is ldiff *)
Definition unset_face (f : nat) (cl : bool) (s : sparsity) : sparsity :=
  let s := upd s 2 (N.ldiff (elems s 2) (bit f)) in
  if cl then
    let s := upd s 0 (N.ldiff (elems s 0) (bits (face_nds f))) in
    upd s 1 (N.ldiff (elems s 1) (bits (face_eds f)))
  else s.
(* cpp:71-78 *)
Definition set_edge (e : nat) (cl : bool) (s : sparsity) : sparsity :=
  let s := upd s 1 (N.lor (elems s 1) (bit e)) in
  if cl then upd s 0 (N.lor (elems s 0) (bits (edge_nds e))) else s.
(* cpp:79-86 *)
Definition unset_edge (e : nat) (cl : bool) (s : sparsity) : sparsity :=
  let s := upd s 1 (N.ldiff (elems s 1) (bit e)) in
  if cl then upd s 0 (N.ldiff (elems s 0) (bits (edge_nds e))) else s.
(* cpp:89-96 *)
Definition set_node (i : nat) (s : sparsity) : sparsity := upd s 0 (N.lor (elems s 0) (bit i)).
Definition unset_node (i : nat) (s : sparsity) : sparsity := upd s 0 (N.ldiff (elems s 0) (bit i)).
(* cpp:69-70, 87-88, 97-103 (setFaces, setEdges, setNodes are set(2), set(1), set(0)) *)
Definition set_dim (d : nat) (s : sparsity) : sparsity := upd s d (nth d [15; 63; 15; 1]%N 0%N).
Definition unset_dim (d : nat) (s : sparsity) : sparsity := upd s d 0%N.   (* h:175 *)
(* cpp:104-123; a dimension above 3 throws *)
Definition set_ent (d i : nat) (cl : bool) (s : sparsity) : option sparsity :=
  match d with
  | 0 => Some (set_node i s) | 1 => Some (set_edge i cl s) | 2 => Some (set_face i cl s)
  | 3 => Some (set_cell cl s) | _ => None
  end.
Definition unset_ent (d i : nat) (cl : bool) (s : sparsity) : option sparsity :=
  match d with
  | 0 => Some (unset_node i s) | 1 => Some (unset_edge i cl s) | 2 => Some (unset_face i cl s)
  | 3 => Some (unset_cell cl s) | _ => None
  end.
(* h:171-172 and inl:7-30 *)
Definition sp_map2 (f : N -> N -> N) (a b : sparsity) : sparsity :=
  Sp (f (e0 a) (e0 b)) (f (e1 a) (e1 b)) (f (e2 a) (e2 b)) (f (e3 a) (e3 b)).
Definition sp_or := sp_map2 N.lor.
Definition sp_and := sp_map2 N.land.
Definition sp_xor := sp_map2 N.lxor.
Definition sp_diff := sp_map2 N.ldiff.       (* unset(TetGeomSparsity) *)
Definition sp_not (a : sparsity) : sparsity :=
  Sp (N.lnot (e0 a) 8) (N.lnot (e1 a) 8) (N.lnot (e2 a) 8) (N.lnot (e3 a) 8).
(* h:149-150 *)
Definition empty_dim (s : sparsity) (d : nat) : bool := N.eqb (elems s d) 0.
Definition is_empty (s : sparsity) : bool := N.eqb (N.lor (N.lor (N.lor (e0 s) (e1 s)) (e2 s)) (e3 s)) 0.

(* elems[d] & (1 << k) *)
Definition tst (s : sparsity) (d k : nat) : bool := N.testbit (elems s d) (N.of_nat k).
(* for (uchar k = lo; k < lo + n; ++k) if (f(k)) return k; *)
Fixpoint scan (f : nat -> bool) (lo n : nat) : option nat :=
  match n with O => None | S n' => if f lo then Some lo else scan f (S lo) n' end.
(* cpp:124-132 getElemsIds *)
Definition get_elems_ids (s : sparsity) (d : nat) : list nat := filter (tst s d) (seq 0 (lookup_sz d)).
(* cpp:142-150 *)
Definition begin_pos_dim (s : sparsity) (d : nat) : option (nat * nat) :=
  if empty_dim s d then None else option_map (pair d) (scan (tst s d) 0 (lookup_sz d)).
Fixpoint first_dim (s : sparsity) (d n : nat) : option (nat * nat) :=
  match n with
  | O => None
  | S n' => match begin_pos_dim s d with Some p => Some p | None => first_dim s (S d) n' end
  end.
(* cpp:134-141 *)
Definition begin_pos (s : sparsity) : option (nat * nat) := first_dim s 0 4.
(* cpp:151-161 *)
Definition next_pos (s : sparsity) (p : nat * nat) : option (nat * nat) :=
  let '(d, k) := p in
  match scan (tst s d) (S k) (lookup_sz d - S k) with
  | Some k' => Some (d, k')
  | None => first_dim s (S d) (4 - S d)
  end.
(* cpp:162-168 *)
Definition next_pos_on_dim (s : sparsity) (p : nat * nat) : option (nat * nat) :=
  let '(d, k) := p in option_map (pair d) (scan (tst s d) (S k) (lookup_sz d - S k)).

(** *** Iteration *)
(* unset dimensions below d: the loops at cpp:409, 542, 778 *)
Fixpoint unset_below (d : nat) (s : sparsity) : sparsity :=
  match d with O => s | S d' => unset_dim d' (unset_below d' s) end.
(* cpp:543, 779: for (i < elem_num) ss.unset(elem_dim, i) *)
Fixpoint unset_ents (d n : nat) (s : sparsity) : sparsity :=
  match n with
  | O => s
  | S n' => let s' := unset_ents d n' s in match unset_ent d n' false s' with Some r => r | None => s' end
  end.
(* TetDofIDExt(LocGeomOrder) with asserts, giving the LocalOrder at that locus *)
Definition at_locus (d : dmap) (t e p : nat) : option (option LocalOrder) :=
  do r <- tet_dof_id true d t e p; Some (Some (LO (fst r) t e p (snd r))).

(* cpp:170-189 BaseDofMap::BeginByGeomSparsity *)
Definition begin_type (d : dmap) (i : nat) : nat :=
  match i with
  | 0 => 0
  | 1 => if 0 <? num_dof d 1 then 1 else 2
  | 2 => if 0 <? num_dof d 3 then 3 else 4
  | _ => 5
  end.
Definition ndofs_compact (d : dmap) (i : nat) : nat :=
  match i with
  | 0 => num_dof d 0
  | 1 => num_dof d 1 + num_dof d 2
  | 2 => num_dof d 3 + num_dof d 4
  | _ => num_dof d 5
  end.
Fixpoint base_begin_from (d : dmap) (s : sparsity) (i n : nat) : option (option LocalOrder) :=
  match n with
  | O => Some None
  | S n' =>
      if negb (ndofs_compact d i =? 0) && negb (empty_dim s i) then
        at_locus d (begin_type d i) (match begin_pos_dim s i with Some (_, k) => k | None => 6 end) 0
      else base_begin_from d s (S i) n'
  end.
Definition base_begin (d : dmap) (s : sparsity) : option (option LocalOrder) := base_begin_from d s 0 4.

(* cpp:695-723 ComplexDofMap::BeginByGeomSparsity; Unite and Vector inherit the
   base version.  [pref] is preferGeomOrdering. *)
Definition shift_lo (g : nat) (f : nat -> nat) (lo : LocalOrder) : LocalOrder :=
  LO (lo_gid lo + g) (lo_type lo) (lo_elem lo) (lo_leid lo + f (lo_type lo)) (lo_sym lo).
Definition comp_tet (l : list dmap) (v : nat) : nat := nth v (prefix (map num_dof_tet l)) 0.
Definition comp_elem (l : list dmap) (v t : nat) : nat := nth v (prefix (map (fun b => num_dof b t) l)) 0.
(* default order: first component with a non-empty range *)
Fixpoint complex_begin (l : list dmap) (v : nat) (bs : list (option (option LocalOrder))) : option (option LocalOrder) :=
  match bs with
  | [] => Some None
  | b :: r => do x <- b;
              match x with
              | Some lo => Some (Some (shift_lo (comp_tet l v) (comp_elem l v) lo))
              | None => complex_begin l (S v) r
              end
  end.
(* preferred order: the first type with a selected entity and a component
   defined on it; cpp:709-719 adds the shift of that type to the component's own
   begin without looking at what the component returned *)
Definition defined_on (d : dmap) (t : nat) : bool := 0 <? num_dof d t.    (* h:310, h:639 *)
Fixpoint first_def (l : list dmap) (t v : nat) : option nat :=
  match l with [] => None | b :: r => if defined_on b t then Some v else first_def r t (S v) end.
Fixpoint complex_begin_pref (l : list dmap) (s : sparsity) (bs : list (option (option LocalOrder))) (t n : nat)
  : option (option LocalOrder) :=
  match n with
  | O => Some None
  | S n' =>
      match begin_pos_dim s (geom_dim t) with
      | None => complex_begin_pref l s bs (S t) n'
      | Some _ =>
          match first_def l t 0 with
          | None => complex_begin_pref l s bs (S t) n'
          | Some v =>
              do b <- nth_error bs v; do x <- b;
              match x with
              | Some lo => Some (Some (LO (lo_gid lo + comp_tet l v) (lo_type lo) (lo_elem lo) (lo_leid lo + comp_elem l v t) (lo_sym lo)))
              | None => None   (* -1 + shift: not an end marker; treated as failure *)
              end
          end
      end
  end.
Fixpoint sp_begin (pref : bool) (d : dmap) (s : sparsity) : option (option LocalOrder) :=
  match d with
  | Complex l =>
      if pref then complex_begin_pref l s (map (fun b => sp_begin pref b s) l) 0 ngeom
      else complex_begin l 0 (map (fun b => sp_begin pref b s) l)
  | _ => base_begin d s
  end.

(* isValidIndex(LocalOrder), inl:32-39 without symmetry check *)
Definition valid_lo (d : dmap) (lo : LocalOrder) : bool :=
  (lo_gid lo <? num_dof_tet d) && valid_locus d (lo_type lo) (lo_elem lo) (lo_leid lo).

(* cpp:362-413 UniteDofMap::IncrementByGeomSparsity *)
Definition incr_unite (nd : list nat) (sy : option (list nat)) (s : sparsity) (lo : LocalOrder) : option (option LocalOrder) :=
  let d := Unite nd sy in
  do _ <- guard (valid_lo d lo);
  let t := lo_type lo in
  let start t' e := nth t' (shiftTetDof nd) 0 + (nth (t' + 1) (shiftDof nd) 0 - nth t' (shiftDof nd) 0) * e in
  if lo_leid lo <? num_dof d t - 1 then
    Some (Some (LO (S (lo_gid lo)) t (lo_elem lo) (S (lo_leid lo)) (loc_sym sy t (S (lo_leid lo)))))
  else if (t =? 1) && (0 <? num_dof d 2) then
    Some (Some (LO (start 2 (lo_elem lo)) 2 (lo_elem lo) 0 (loc_sym sy 2 0)))
  else if (t =? 3) && (0 <? num_dof d 4) then
    Some (Some (LO (start 4 (lo_elem lo)) 4 (lo_elem lo) 0 (loc_sym sy 4 0)))
  else
    match next_pos s (geom_dim t, lo_elem lo) with
    | None => Some None
    | Some (dim, k) =>
        if geom_dim t =? dim then
          let t' := if dim =? 1 then (if 0 <? num_dof d 1 then 1 else t)
                    else if dim =? 2 then (if 0 <? num_dof d 3 then 3 else t) else t in
          Some (Some (LO (start t' k) t' k 0 (loc_sym sy t' 0)))
        else base_begin d (unset_below dim s)
    end.

(* cpp:473-554 VectorDofMap::IncrementByGeomSparsity; [inc] and [beg] are the
   base map's Increment and Begin *)
Definition incr_vector (pref : bool) (k : nat) (b : dmap)
    (inc : sparsity -> LocalOrder -> option (option LocalOrder)) (beg : sparsity -> option (option LocalOrder))
    (s : sparsity) (lo : LocalOrder) : option (option LocalOrder) :=
  do _ <- guard (valid_lo (Vector k b) lo);
  let nOdf := num_dof_tet b in
  let lOdf := num_dof b (lo_type lo) in
  let dim := lo_gid lo / nOdf in
  let ll := LO (lo_gid lo mod nOdf) (lo_type lo) (lo_elem lo) (lo_leid lo mod lOdf) (lo_sym lo) in
  let put c l := Some (Some (shift_lo (c * nOdf) (fun t => c * num_dof b t) l)) in
  if negb pref then
    do r <- inc s ll;
    match r with
    | Some l => put dim l
    | None => if negb (S dim =? k) then
                do r' <- beg s;
                match r' with Some l => put (S dim) l | None => Some None end
              else Some None
    end
  else
    let gdim := geom_dim (lo_type lo) in
    do ss <- set_ent gdim (lo_elem lo) false sp_empty_set;
    do r <- inc ss ll;
    match r with
    | Some l => put dim l
    | None =>
        if negb (S dim =? k) then
          let t' := if (lo_type lo =? 2) && (0 <? num_dof b 1) then 1
                    else if (lo_type lo =? 4) && (0 <? num_dof b 3) then 3 else lo_type lo in
          do x <- tet_dof_id true b t' (lo_elem lo) 0;
          Some (Some (LO (fst x + S dim * nOdf) t' (lo_elem lo) (0 + S dim * num_dof b t') (snd x)))
        else
          match next_pos s (gdim, lo_elem lo) with
          | None => Some None
          | Some (d', k') =>
              do r' <- beg (unset_ents d' k' (unset_below d' s));
              match r' with Some l => put 0 l | None => Some None end
          end
    end.

(* cpp:724-785 ComplexDofMap::IncrementByGeomSparsity *)
Fixpoint next_def (l : list dmap) (t v : nat) : nat :=
  match l with [] => v | b :: r => if defined_on b t then v else next_def r t (S v) end.
Definition incr_complex (pref : bool) (l : list dmap)
    (incs : list (sparsity -> LocalOrder -> option (option LocalOrder)))
    (begs : list (sparsity -> option (option LocalOrder))) (self_beg : sparsity -> option (option LocalOrder))
    (s : sparsity) (lo : LocalOrder) : option (option LocalOrder) :=
  do _ <- guard (valid_lo (Complex l) lo);
  let dim := upper_bound (prefix (map (fun b => num_dof b (lo_type lo)) l)) (lo_leid lo) - 1 in
  do _ <- guard (comp_tet l dim <=? lo_gid lo);
  let ll := LO (lo_gid lo - comp_tet l dim) (lo_type lo) (lo_elem lo) (lo_leid lo - comp_elem l dim (lo_type lo)) (lo_sym lo) in
  let put v x := Some (Some (shift_lo (comp_tet l v) (comp_elem l v) x)) in
  do inc <- nth_error incs dim;
  if negb pref then
    do r <- inc s ll;
    match r with
    | Some x => put dim x
    | None => if negb (S dim =? length l) then
                do beg <- nth_error begs (S dim);
                do r' <- beg s;
                match r' with Some x => put (S dim) x | None => Some None end
              else Some None
    end
  else
    let gdim := geom_dim (lo_type lo) in
    do ss <- set_ent gdim (lo_elem lo) false sp_empty_set;
    do r <- inc ss ll;
    match r with
    | Some x => put dim x
    | None =>
        let v := next_def (skipn (S dim) l) (lo_type lo) (S dim) in
        if negb (v =? length l) then
          do b <- nth_error l v;
          do x <- tet_dof_id true b (lo_type lo) (lo_elem lo) 0;
          put v (LO (fst x) (lo_type lo) (lo_elem lo) 0 (snd x))
        else
          match next_pos s (gdim, lo_elem lo) with
          | None => Some None
          | Some (d', k') => self_beg (unset_ents d' k' (unset_below d' s))
          end
    end.
Fixpoint sp_incr (pref : bool) (d : dmap) (s : sparsity) (lo : LocalOrder) : option (option LocalOrder) :=
  match d with
  | Unite nd sy => incr_unite nd sy s lo
  | Vector k b => incr_vector pref k b (sp_incr pref b) (sp_begin pref b) s lo
  | Complex l => incr_complex pref l (map (fun b => sp_incr pref b) l) (map (fun b => sp_begin pref b) l)
                   (sp_begin pref d) s lo
  end.

(** for (auto it = m.beginBySparsity(s); it != m.endBySparsity(); ++it) visit the element
    (cpp:9-27, h:364-369), with a bound on the number of visits. *)
Fixpoint sp_collect (pref : bool) (d : dmap) (s : sparsity) (fuel : nat) (cur : option LocalOrder) : option (list LocalOrder) :=
  match cur with
  | None => Some []
  | Some lo => match fuel with
               | O => None
               | S f => do nxt <- sp_incr pref d s lo; do r <- sp_collect pref d s f nxt; Some (lo :: r)
               end
  end.
Definition sp_iterate (pref : bool) (d : dmap) (s : sparsity) : option (list LocalOrder) :=
  do b <- sp_begin pref d s; sp_collect pref d s (num_dof_tet d) b.
