(** Iteration over the dofs of a view: fem/tetdofmap.cpp:975-997, with
    isValidOutputIndex as ValModel.view_valid_order. The end record is [None]. *)
From Verif Require Import Prelude DofModel SparsityModel ValModel.

Definition out_lo (v : view) (lo : LocalOrder) : LocalOrder := shift_lo (v_shift_tet v) (fun t => nth t (v_shift_elem v) 0) lo.
(* cpp:975-984 *)
Definition view_begin (pref : bool) (v : view) (s : sparsity) : option (option LocalOrder) :=
  do b <- sp_begin pref (v_base v) s; Some (option_map (out_lo v) b).
(* cpp:985-997 *)
Definition view_incr (pref : bool) (v : view) (s : sparsity) (lo : LocalOrder) : option (option LocalOrder) :=
  do _ <- guard (view_valid_order v lo);
  let lo' := LO (lo_gid lo - v_shift_tet v) (lo_type lo) (lo_elem lo) (lo_leid lo - nth (lo_type lo) (v_shift_elem v) 0) (lo_sym lo) in
  do r <- sp_incr pref (v_base v) s lo'; Some (option_map (out_lo v) r).
(* for (auto it = view.beginBySparsity(s); it != view.endBySparsity(); ++it), as sp_iterate *)
Fixpoint view_collect (pref : bool) (v : view) (s : sparsity) (fuel : nat) (cur : option LocalOrder) : option (list LocalOrder) :=
  match cur with
  | None => Some []
  | Some lo => match fuel with
               | O => None
               | S f => do nxt <- view_incr pref v s lo; do r <- view_collect pref v s f nxt; Some (lo :: r)
               end
  end.
Definition view_iterate (pref : bool) (v : view) (s : sparsity) : option (list LocalOrder) :=
  do b <- view_begin pref v s; view_collect pref v s (num_dof_tet (v_base v)) b.
