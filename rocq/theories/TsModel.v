(** When the order of the vertices is needed: symmetry masks of maps of degrees of freedom,
    fem/tetdofmap.inl:78-86 and SymComponents; areVarsTriviallySymmetric,
    inmost_interface/global_enumerator.cpp:615-622; the choice made by the assembler,
    inmost_interface/assembler.inl:344, 517, 614, 737, 879-886, 898-905.

    Simplifications: masks are numbers without the bound of 8 bits (the largest bit is 5);
    the variables of the enumerator and the test functions of the assembler are one map. *)
From Coq Require Import NArith.
From Verif Require Import Prelude DofModel SymModel.

Definition mask_undef : N := 32.                                   (* tetdofmap.h:200 *)
(* tetdofmap.inl:78-86 GetSymMask_by_geom_num; a table that is not inited is [None] *)
Definition leaf_mask (sy : option (list nat)) (t : nat) : N :=
  match sy with
  | None => mask_undef
  | Some s => fold_left (fun m i => if 0 <? nth (nth t sym_offs 0 + i) s 0 then N.lor m (N.shiftl 1 (N.of_nat i)) else m)
                (seq 0 (nth (t + 1) sym_offs 0 - nth t sym_offs 0)) 0%N
  end.
(* tetdofmap.h:609 (Unite), h:637 (Vector), cpp:656-661 (Complex) *)
Fixpoint sym_components (d : dmap) (t : nat) : N :=
  match d with
  | Unite _ sy => leaf_mask sy t
  | Vector _ b => sym_components b t
  | Complex l => fold_left (fun m b => N.lor m (sym_components b t)) l 0%N
  end.
(* global_enumerator.cpp:615-622 areVarsTriviallySymmetric *)
Definition trivially_symmetric (d : dmap) : bool :=
  forallb (fun t => if 0 <? num_dof d t then
                      let m := sym_components d t in
                      negb ((m =? mask_undef)%N || negb (N.shiftr m 1 =? 0)%N)
                    else true) (seq 0 ngeom).
(* assembler.inl:879 comp_node_perm *)
Definition comp_node_perm (d : dmap) : bool :=
  negb (trivially_symmetric d) || ((0 <? num_dof d 2) || (0 <? num_dof d 4)).
(* assembler.inl:880-886 canonical_node_indexes for the vertex numbers [g] *)
Definition canonical_indexes (d : dmap) (g : list Z) : option (list nat) :=
  if comp_node_perm d then order_permutation g else Some [0; 1; 2; 3].
