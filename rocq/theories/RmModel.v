(** Renumbering of the data of a whole mesh: reorder_mesh_function_data,
    inmost_interface/ordering.inl:354-400, on top of the model of one element (OrdModel.v).

    Simplifications: the elements of the mesh are a list; the values of one dof are a block
    of block_sz values, copied as one; the negation at inl:393 changes nothing (its result is
    dropped); assert is a failed check. *)
From Coq Require Import NArith.
From Verif Require Import Prelude DofModel SymModel OrdModel TsModel.

(* identifiers of the nodes by the old and the new enumerator, data of the element in each tag *)
Record element (A : Type) := Elem { el_dim : nat; el_old : list Z; el_new : list Z; el_data : list (option (list A)) }.
Arguments Elem {A}. Arguments el_dim {A}. Arguments el_old {A}. Arguments el_new {A}. Arguments el_data {A}.
(* DofTNumDofsToInmostNumDofs *)
Definition inum_dofs (d : dmap) (dim : nat) : nat :=
  match dim with 0 => num_dof d 0 | 1 => num_dof d 1 + num_dof d 2 | 2 => num_dof d 3 + num_dof d 4 | _ => num_dof d 5 end.
(* inl:358-363 the dimensions with types of nontrivial symmetry: SymComponents & ~1 *)
Definition in_gmask (d : dmap) (dim : nat) : bool :=
  existsb (fun t => (geom_dim t =? dim) && negb (N.shiftr (sym_components d t) 1 =? 0)%N) (seq 0 ngeom).
(* [n] blocks of [b] values *)
Definition chunks {A} (b n : nat) (l : list A) : list (list A) := map (fun k => firstn b (skipn (b * k) l)) (seq 0 n).
(* inl:385-395 the data of one tag *)
Definition renumber_tag {A} (d : dmap) (big : Z) (block shift : nat) (compressed : bool) (el : element A) (tv : list A) : option (list A) :=
  let n := inum_dofs d (el_dim el) in
  if compressed && (length tv <? shift + 2 * block) then Some tv
  else
    do _ <- guard (shift + block * n <=? length tv);
    do r <- renumber d (el_dim el) big (el_old el) (el_new el) (chunks block n (skipn shift tv));
    Some (firstn shift tv ++ concat r ++ skipn (shift + block * n) tv).
Fixpoint omap {A B} (f : A -> option B) (l : list A) : option (list B) :=
  match l with [] => Some [] | x :: r => do y <- f x; do ys <- omap f r; Some (y :: ys) end.
(* inl:385 for (Tag t: ts) if (e->HaveData(t)) *)
Definition renumber_elem {A} (d : dmap) (big : Z) (block : nat) (shifts : nat -> nat) (compressed : bool) (el : element A) : option (element A) :=
  do data <- omap (fun x => match x with
                            | Some tv => do tv' <- renumber_tag d big block (shifts (el_dim el)) compressed el tv; Some (Some tv')
                            | None => Some None end) (el_data el);
  Some (Elem (el_dim el) (el_old el) (el_new el) data).
(* inl:354-400 *)
Definition reorder_mesh {A} (d : dmap) (big : Z) (block : nat) (shifts : nat -> nat) (compressed : bool) (m : list (element A)) : option (list (element A)) :=
  omap (fun el => if in_gmask d (el_dim el) then renumber_elem d big block shifts compressed el else Some el) m.
