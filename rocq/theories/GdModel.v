(** Gathering the values of a variable on a cell: inmost_interface/ordering.inl:220-353
    (takeElementDOF, takeElementDOFifAvailable and GatherDataOnElement for one tag and for
    one tag per component), called by the assembler from assembler.inl:870-909.

    Simplifications: the nodes, edges, faces and the cell are given by what the tag stores
    on them, [data q e] for entity [e] of dimension [q] ([None]: the tag is not defined
    there); the local indices are the default identity ones; values are real numbers; a read
    outside the data, a write outside the output and a failed check are [None]. *)
From Coq Require Import Reals.
From Verif Require Import Prelude DofModel SymModel OrdModel SparsityModel.

Definition stored := nat -> nat -> option (list R).

(* inl:220-225 takeElementDOF: l.sign * l.elem.RealArray(tag)[l.elem_data_index] *)
Definition take_dof (data : stored) (d : dmap) (lo : LocalOrder) (perm : list nat) : option R :=
  do i <- locus_index d lo perm;
  do s <- locus_sign (lo_type lo) (lo_elem lo) perm;
  do a <- data (geom_dim (lo_type lo)) (lo_elem lo);
  do v <- rd a i;
  Some (IZR s * v)%R.
(* inl:231-245 takeElementDOFifAvailable: the inner [None] is avail_data = false *)
Definition take_avail (data : stored) (d : dmap) (lo : LocalOrder) (perm : list nat) : option (option R) :=
  do i <- locus_index d lo perm;
  do s <- locus_sign (lo_type lo) (lo_elem lo) perm;
  match data (geom_dim (lo_type lo)) (lo_elem lo) with
  | None => Some None
  | Some a => if i <? length a then do v <- rd a i; Some (Some (IZR s * v)%R) else Some None
  end.
(* inl:277-284 GDOTAssign over GDOTTake, inl:253-276 *)
Definition put_dof (avail : bool) (data : stored) (d : dmap) (lo : LocalOrder) (perm : list nat) (at_ : nat) (out : list R) : option (list R) :=
  if avail then do x <- take_avail data d lo perm; match x with Some v => wr out at_ v | None => Some out end
  else do v <- take_dof data d lo perm; wr out at_ v.
(* the loop over an iteration *)
Fixpoint each {A S} (f : A -> S -> option S) (l : list A) (s : S) : option S :=
  match l with [] => Some s | x :: r => do s' <- f x s; each f r s' end.
(* NestedDofMapBase::BeginByGeomSparsity / IncrementByGeomSparsity, tetdofmap.cpp:975-997:
   the iteration of the base map with shifted numbers *)
Definition view_lo (v : view) (lo : LocalOrder) : LocalOrder :=
  shift_lo (v_shift_tet v) (fun t => nth t (v_shift_elem v) 0) lo.
(* inl:286-313 GatherDataOnElement for one tag; [path] is component[0..ncomp-1] and
   [off] the offset of the output iterator in the output array *)
Definition gather (avail : bool) (data : stored) (d : dmap) (path : list nat) (perm : list nat) (off : nat) (out : list R) : option (list R) :=
  do v <- nested_view d path;
  for_ 4 (fun dim out =>
    do L <- sp_iterate true (v_base v) (set_dim dim sp_empty_set);
    each (fun lo0 out => let lo := view_lo v lo0 in
            put_dof avail data d lo perm (off + (lo_gid lo - v_shift_tet v)) out) L out) out.
(* NestedDim(): tetdofmap.h:612, 641, 681 *)
Definition nested_dim (d : dmap) : nat := match d with Unite _ _ => 0 | Vector k _ => k | Complex l => length l end.
(* inl:324-343 GatherDataOnElement for a tag per component *)
Definition gather_tags (avail : bool) (datas : list stored) (d : dmap) (path : list nat) (perm : list nat) (out : list R) : option (list R) :=
  let ndim := match path with [] => nested_dim d | c :: _ => c + 1 end in
  do _ <- guard (ndim <=? length datas);
  let v_st := match path with [] => 0 | c :: _ => c end in
  let next := match path with [] => [] | _ :: r => r end in
  for_range v_st (ndim - v_st) (fun v out =>
    do vw <- nested_view d [v];
    do data <- rd datas v;
    gather avail data (v_base vw) next perm (v_shift_tet vw) out) out.
