(** Global numbering of dofs.
    Sources: inmost_interface/global_enumerator.h (h), global_enumerator.cpp (cpp),
    inmost_interface/ordering.h:20-23.  The list of variables is FemVarContainer
    (elemental_assembler.h:18), a ComplexDofMap of the variables' dof maps.
    Geometric types are numbers as in DofModel; long and unsigned are nat.
    A mesh element is its dimension and its GlobalID. *)
From Verif Require Import Prelude DofModel.

(** h:34-47 IsoElementIndex: (elem_type, var_id, dim_id, dim_elem_dof_id) *)
Record desc := Desc { x_type : nat; x_var : nat; x_dim : nat; x_pos : nat }.
(** h:66-81 NaturalIndexExt *)
Record desc_ext := DescExt { e_desc : desc; e_tshift : nat; e_tvshift : nat; e_vshift : nat; e_dshift : nat }.
(* h:76 GetElemDofId *)
Definition elem_dof_id (e : desc_ext) : nat := e_tshift e + e_vshift e + e_dshift e + x_pos (e_desc e).
(* h:78 GetSingleVarDofId *)
Definition single_dof_id (e : desc_ext) : nat := e_tvshift e + e_dshift e + x_pos (e_desc e).

(* cpp:227-229 elem_num from the dimension of the element *)
Definition first_type (e : nat) : nat := nth e [0; 1; 3; 5] 0.
(* vars.m_spaceNumDof[t][v] (tetdofmap.cpp:593-597) *)
Definition var_shift (l : list dmap) (t v : nat) : nat := nth v (prefix (map (fun b => num_dof b t) l)) 0.
(* cpp:247-255, 297-305 and cpp:270-274: a VectorType variable is split into its
   components, any other variable has component 0 only *)
Definition split_dim (b : dmap) (t p : nat) : option (nat * nat * nat) :=
  match b with
  | Vector k _ =>
      do _ <- guard (0 <? k);
      let nd := num_dof b t / k in
      do _ <- guard (0 <? nd);
      Some (p / nd, p mod nd, nd * (p / nd))
  | _ => Some (0, p, 0)
  end.

(* cpp:226-259 getFullIndex(elem, elem_dof_id); the comparison lnumdofs < elem_dof_id
   is the one of the code; vars.ComponentID asserts its argument *)
Definition full_index (l : list dmap) (e k : nat) : option desc_ext :=
  let t0 := first_type e in
  let ln := num_dof (Complex l) t0 in
  let jump := ((e =? 1) || (e =? 2)) && (ln <? k) in
  let tshift := if jump then ln else 0 in
  let t := if jump then t0 + 1 else t0 in
  do c <- component_elem (Complex l) t (k - tshift);
  do b <- nth_error l (fst c);
  let tvshift := if 0 <? tshift then num_dof b (t - 1) else 0 in
  do s <- split_dim b t (snd c);
  let '(dim, pos, dshift) := s in
  Some (DescExt (Desc t (fst c) dim pos) tshift tvshift (var_shift l t (fst c)) dshift).

(* cpp:261-276 getFullIndex(NaturalIndex) *)
Definition full_desc (l : list dmap) (x : desc) : option desc_ext :=
  do b <- nth_error l (x_var x);
  let t := x_type x in
  let oriented := (t =? 2) || (t =? 4) in
  let tshift := if oriented then num_dof (Complex l) (t - 1) else 0 in
  let tvshift := if oriented then num_dof b (t - 1) else 0 in
  do dshift <- (if 0 <? x_dim x then
                  match b with
                  | Vector k _ => do _ <- guard (0 <? k); Some (num_dof b t / k * x_dim x)
                  | _ => None
                  end
                else Some 0);
  Some (DescExt x tshift tvshift (var_shift l t (x_var x)) dshift).

(* cpp:278-307 getFullIndex(elem, var_id, var_loc_elem_dof_id) *)
Definition full_index_var (l : list dmap) (e v k : nat) : option desc_ext :=
  do b <- nth_error l v;
  let t0 := first_type e in
  let ln := num_dof b t0 in
  let jump := ((e =? 1) || (e =? 2)) && (ln <? k) in
  let tvshift := if jump then ln else 0 in
  let tshift := if jump then num_dof (Complex l) t0 else 0 in
  let t := if jump then t0 + 1 else t0 in
  do s <- split_dim b t (k - tvshift);
  let '(dim, pos, dshift) := s in
  Some (DescExt (Desc t v dim pos) tshift tvshift (var_shift l t v) dshift).

(* ordering.h:21-23 DofTNumDofsToInmostNumDofs *)
Definition i_nd (l : list dmap) (d : nat) : nat :=
  let n t := num_dof (Complex l) t in
  match d with 0 => n 0 | 1 => n 1 + n 2 | 2 => n 3 + n 4 | 3 => n 5 | _ => 0 end.

(** What one process knows after setupIGlobEnumeration (h:277-283). *)
Record rank := Rank { r_beg : nat -> nat; r_num : nat -> nat; r_matr : nat; r_begind : nat; r_endind : nat }.
(* cpp:579-590 BegElemID of one dimension: smallest owned GlobalID, or the total
   number of elements if the process owns none.  LONG_MAX is [None]. *)
Definition beg_elem (total : nat) (gids : list nat) : nat :=
  match fold_left (fun (m : option nat) g => match m with None => Some g | Some b => if g <? b then Some g else Some b end) gids None with
  | None => total
  | Some b => b
  end.
Definition sum_types (f : nat -> nat) : nat := list_sum (map f (seq 0 ngeom)).
(* cpp:562-605 setupIGlobEnumeration; [gids d] are the GlobalIDs of the owned (not
   ghost) elements of dimension d, [total d] is TotalNumberOf *)
Definition setup_rank (l : list dmap) (total : nat -> nat) (gids : nat -> list nat) : rank :=
  let beg d := beg_elem (total d) (gids d) in
  let num d := length (gids d) in
  let nd t := num_dof (Complex l) t in
  let b := sum_types (fun t => beg (geom_dim t) * nd t) in
  Rank beg num (sum_types (fun t => total (geom_dim t) * nd t)) b
       (b + sum_types (fun t => num (geom_dim t) * nd t)).

(* cpp:676-680 InitElemIndex *)
Definition init_index (l : list dmap) (r : rank) (d : nat) : nat :=
  r_begind r + list_sum (map (fun i => i_nd l i * r_num r i) (seq 0 d)).

Inductive assembling := ANITYPE | MINIBLOCKS.
(* cpp:823-835 SimpleEnumerator::operator()(NaturalIndex) for an owned element of
   dimension d with GlobalID g; a GlobalID below BegElemID is not owned *)
Definition simple_index (m : assembling) (l : list dmap) (r : rank) (d g : nat) (x : desc) : option nat :=
  do e <- full_desc l x;
  do _ <- guard (r_beg r d <=? g);
  Some (match m with
        | ANITYPE => init_index l r d + (g - r_beg r d) + elem_dof_id e * r_num r d
        | MINIBLOCKS => init_index l r d + (g - r_beg r d) * i_nd l d + elem_dof_id e * r_num r d
        end).
(* cpp:838-843 search of the dimension *)
Fixpoint find_dim (init : nat -> nat) (id fuel i : nat) : nat :=
  match fuel with
  | O => i
  | S f => if (i <? 4) && (init i <=? id) then find_dim init id f (i + 1) else i
  end.
(* cpp:836-864 SimpleEnumerator::operator()(EnumerateIndex): dimension, offset of the
   element from BegElemID, description.  glob_to_loc sends the offset to the element
   with GlobalID BegElemID + offset (cpp:519-523); [gid] must index that table.
   The asserts are included. *)
Definition simple_inverse (m : assembling) (l : list dmap) (r : rank) (id : nat) : option (nat * nat * desc) :=
  let d := find_dim (init_index l r) id 3 1 - 1 in
  let off := id - init_index l r d in
  do _ <- guard (init_index l r d <=? id);
  do p <- (match m with
           | ANITYPE => do _ <- guard (0 <? r_num r d); do _ <- guard (off / r_num r d <? i_nd l d); Some (off / r_num r d, off mod r_num r d)
           | MINIBLOCKS => do _ <- guard (0 <? i_nd l d); do _ <- guard (off / i_nd l d <? r_beg r d + r_num r d); Some (off mod i_nd l d, off / i_nd l d)
           end);
  do _ <- guard (snd p <? r_num r d);
  do e <- full_index l d (fst p);
  Some (d, r_beg r d + snd p, e_desc e).

(* cpp:690-698 contents of the index tag of one owned element *)
Fixpoint all_some {A} (l : list (option A)) : option (list A) :=
  match l with [] => Some [] | x :: r => do y <- x; do ys <- all_some r; Some (y :: ys) end.
Definition tag_row (m : assembling) (l : list dmap) (r : rank) (d g : nat) : option (list nat) :=
  all_some (map (fun k => do e <- full_index l d k; simple_index m l r d g (e_desc e)) (seq 0 (i_nd l d))).
(* cpp:818-822 SimpleEnumerator::OrderC *)
Definition simple_order (m : assembling) (l : list dmap) (r : rank) (d g : nat) (x : desc) : option nat :=
  do row <- tag_row m l r d g;
  do e <- full_desc l x;
  rd row (elem_dof_id e).

(* cpp:624-638 OrderedEnumerator::setArrangment; [None] is the exception.  The value
   255 of an unset slot is represented by [None]. *)
Definition set_arrangement (order : list nat) : option (list nat) :=
  do p <- for_ (length order) (fun i p => do j <- rd order i; wr p j (Some i)) (repeat None 5);
  all_some p.
(* cpp:640-649 getArrangement *)
Definition get_arrangement (perm : list nat) : option (list (option nat) * bool) :=
  do o <- for_ (length perm) (fun i o => do j <- rd perm i; if j <? 5 then wr o j (Some i) else Some o) (repeat None 5);
  Some (o, forallb (fun x => match x with Some _ => true | None => false end) o).
