(** Views of views and stored submaps: fem/tetdofmap.cpp:467-472, 690-694, 929-973 and
    fem/tetdofmap.h:570-573, 613-614.

    Simplification: the path of a view of a view is not empty (an empty path wraps the view
    once more, h:564-566). *)
From Verif Require Import Prelude DofModel.

(* cpp:929-936, 952-959 GetNestedComponent of a map that is itself a view, into a fresh view *)
Definition view_nested (v : view) (path : list nat) : option view :=
  match path with
  | [] => None
  | c :: rest =>
      do _ <- guard (c =? 0);
      let se := add_shift zero_shift (fun t => nth t (v_shift_elem v) 0) in
      let st := 0 + v_shift_tet v in
      match rest with [] => Some (View (v_base v) se st) | _ => nested_from (v_base v) rest se st end
  end.
(* cpp:467-472 (Vector), 690-694 (Complex), h:614 (Unite) *)
Fixpoint sub_from (d : dmap) (path : list nat) {struct path} : option dmap :=
  match path with
  | [] => None
  | c :: rest =>
      match d with
      | Unite _ _ => None
      | Vector k b => do _ <- guard (c <? k); match rest with [] => Some b | _ => sub_from b rest end
      | Complex l => do b <- nth_error l c; match rest with [] => Some b | _ => sub_from b rest end
      end
  end.
(* h:570-573 DofMap::GetSubDofMap *)
Definition sub_map (d : dmap) (path : list nat) : option dmap := match path with [] => Some d | _ => sub_from d path end.
(* cpp:938-950, 961-973 GetSubDofMap of a view *)
Definition view_sub (v : view) (path : list nat) : option dmap :=
  match path with
  | [] => None
  | c :: rest => do _ <- guard (c =? 0); match rest with [] => Some (v_base v) | _ => sub_from (v_base v) rest end
  end.
