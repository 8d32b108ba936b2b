(** Validity tests and checked access of dof maps: fem/tetdofmap.h:98-138, 302, 313-322,
    fem/tetdofmap.inl:32-39.

    Simplifications: geometric types are single types by their number (a mask of several types
    is not an index); unset symmetry numbers are 255. *)
From Coq Require Import NArith.
From Verif Require Import Prelude DofModel SymModel TsModel.

(* h:102 LocGeomOrder::isValid: the number of the dof is compared with the number of entities, nelem is not looked at *)
Definition geom_order_is_valid (t e p : nat) : bool := (t <? ngeom) && (p <? tet_elems t).
(* h:138 LocalOrder::isValid(), of an order with a number (gid set) *)
Definition order_is_valid (lo : LocalOrder) : bool := geom_order_is_valid (lo_type lo) (lo_elem lo) (lo_leid lo).
(* h:313 isValidIndex(TetOrder) *)
Definition valid_tet (d : dmap) (i : nat) : bool := i <? num_dof_tet d.
(* inl:61-66 symmetries_amount *)
Definition symmetries_amount (t : nat) : nat := nth t [1; 2; 2; 3; 3; 5] 0.
(* inl:32-39 isValidIndex(LocalOrder, with_sym_order) *)
Definition valid_order (d : dmap) (lo : LocalOrder) (with_sym : bool) : bool :=
  let r := valid_tet d (lo_gid lo) && valid_locus d (lo_type lo) (lo_elem lo) (lo_leid lo) in
  if r && with_sym then
    let m := sym_components d (lo_type lo) in
    let s := match lo_sym lo with Some s => s | None => (255, 255) end in
    if negb (N.lor m mask_undef =? 0)%N || (symmetries_amount (lo_type lo) <=? snd s) then false
    else negb (N.lor m (N.shiftl 1 (N.of_nat (fst s))) =? 0)%N
  else r.
(* outcome of at: the exception out_of_range, or a value *)
Inductive checked (A : Type) := OutOfRange | Got (a : A).
Arguments OutOfRange {A}. Arguments Got {A}.
(* h:321 at(TetOrder) *)
Definition at_tet (d : dmap) (i : nat) : option (checked LocalOrder) :=
  if valid_tet d i then do lo <- local_order d i; Some (Got lo) else Some OutOfRange.
(* h:302, 322 at(LocGeomOrder) *)
Definition at_locus (chk : bool) (d : dmap) (t e p : nat) : option (checked LocalOrder) :=
  if valid_locus d t e p then do id <- tet_dof_id chk d t e p; Some (Got (LO (fst id) t e p (snd id))) else Some OutOfRange.
(* h:435 isValidOutputIndex(LocGeomOrder) of a view: the unsigned difference of a position below the shift is huge, hence rejected *)
Definition view_valid_place (v : view) (t e p : nat) : bool :=
  (t <? ngeom) && (nth t (v_shift_elem v) 0 <=? p) && valid_locus (v_base v) t e (p - nth t (v_shift_elem v) 0).
(* cpp:921-927 isValidOutputIndex(LocalOrder) *)
Definition view_valid_order (v : view) (lo : LocalOrder) : bool :=
  if negb (lo_type lo <? ngeom) then false
  else if negb (view_valid_output v (lo_gid lo)) then false
  else (nth (lo_type lo) (v_shift_elem v) 0 <=? lo_leid lo) && valid_locus (v_base v) (lo_type lo) (lo_elem lo) (lo_leid lo - nth (lo_type lo) (v_shift_elem v) 0).
(* cpp:1005-1010 LocalOrderOnTet(LocGeomOrder) of a view *)
Definition view_order_at (chk : bool) (v : view) (t e p : nat) : option LocalOrder :=
  do id <- tet_dof_id chk (v_base v) t e p;
  Some (LO (fst id + v_shift_tet v) t e (p + nth t (v_shift_elem v) 0) (snd id)).
