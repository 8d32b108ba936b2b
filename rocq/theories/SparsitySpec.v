(** Specification vocabulary for tetrahedron sparsities: selected entities,
    closure by inclusion of vertex sets, dofs sitting on selected entities. *)
From Verif Require Import Prelude DofModel DofSpec SparsityModel.

(** The 15 entities of a tetrahedron by (dimension, number), and their vertices. *)
Definition ent_count (d : nat) : nat := nth d [4; 6; 4; 1] 0.
Definition entity (d k : nat) : Prop := d < 4 /\ k < ent_count d.
Definition verts (d k : nat) : list nat :=
  nth k (nth d [ [[0];[1];[2];[3]]; [[0;1];[0;2];[0;3];[1;2];[1;3];[2;3]];
                 [[0;1;2];[1;2;3];[2;3;0];[3;0;1]]; [[0;1;2;3]] ] []) [].
Definition in_closure (d' k' d k : nat) : Prop := incl (verts d' k') (verts d k).
(** Order: by dimension, then by number. *)
Definition all_entities : list (nat * nat) :=
  flat_map (fun d => map (pair d) (seq 0 (ent_count d))) (seq 0 4).

(** Selected: reported by getElemsIds. *)
Definition sel (s : sparsity) (d k : nat) : Prop := In k (get_elems_ids s d).
Definition selb (s : sparsity) (d k : nat) : bool := existsb (Nat.eqb k) (get_elems_ids s d).

(** The positions visited by for (p = beginPos(); p.isValid(); p = nextPos(p)). *)
Fixpoint walk (s : sparsity) (fuel : nat) (p : option (nat * nat)) : option (list (nat * nat)) :=
  match p with
  | None => Some []
  | Some q => match fuel with O => None | S f => option_map (cons q) (walk s f (next_pos s q)) end
  end.

(** A history of calls, and what it should do to the set of selected entities. *)
Inductive spop :=
| OSet (d k : nat) (cl : bool) | OUnset (d k : nat) (cl : bool)
| OSetDim (d : nat) | OUnsetDim (d : nat) | OClear
| OUnion (t : sparsity) | OInter (t : sparsity) | OXor (t : sparsity) | ODiff (t : sparsity) | ONot.
Definition op_ok (o : spop) : Prop :=
  match o with
  | OSet d k _ | OUnset d k _ => entity d k
  | OSetDim d | OUnsetDim d => d < 4
  | _ => True
  end.
Definition run_op (s : sparsity) (o : spop) : option sparsity :=
  match o with
  | OSet d k cl => set_ent d k cl s | OUnset d k cl => unset_ent d k cl s
  | OSetDim d => Some (set_dim d s) | OUnsetDim d => Some (unset_dim d s) | OClear => Some sp_empty_set
  | OUnion t => Some (sp_or s t) | OInter t => Some (sp_and s t) | OXor t => Some (sp_xor s t)
  | ODiff t => Some (sp_diff s t) | ONot => Some (sp_not s)
  end.
Definition op_spec (o : spop) (P : nat -> nat -> Prop) (d' k' : nat) : Prop :=
  match o with
  | OSet d k true => P d' k' \/ in_closure d' k' d k
  | OSet d k false => P d' k' \/ (d' = d /\ k' = k)
  | OUnset d k true => P d' k' /\ ~ in_closure d' k' d k
  | OUnset d k false => P d' k' /\ ~ (d' = d /\ k' = k)
  | OSetDim d => P d' k' \/ d' = d
  | OUnsetDim d => P d' k' /\ d' <> d
  | OClear => False
  | OUnion t => P d' k' \/ sel t d' k'
  | OInter t => P d' k' /\ sel t d' k'
  | OXor t => (P d' k' /\ ~ sel t d' k') \/ (~ P d' k' /\ sel t d' k')
  | ODiff t => P d' k' /\ ~ sel t d' k'
  | ONot => ~ P d' k'
  end.
Fixpoint run_ops (s : sparsity) (l : list spop) : option sparsity :=
  match l with [] => Some s | o :: r => do s' <- run_op s o; run_ops s' r end.
Fixpoint ops_spec (l : list spop) (P : nat -> nat -> Prop) : nat -> nat -> Prop :=
  match l with [] => P | o :: r => ops_spec r (op_spec o P) end.

(** No bit outside the entity ranges is set (every history without complement
    starting from the default object keeps this). *)
Definition in_range (s : sparsity) : Prop := (e0 s < 16 /\ e1 s < 64 /\ e2 s < 16 /\ e3 s < 2)%N.

(** The dofs of [d] sitting on selected entities. *)
Definition on_sel (s : sparsity) (lo : LocalOrder) : Prop := sel s (geom_dim (lo_type lo)) (lo_elem lo).
Definition sel_dof (d : dmap) (s : sparsity) (lo : LocalOrder) : Prop :=
  local_order d (lo_gid lo) = Some lo /\ on_sel s lo.
(** Exactly the selected dofs, each once. *)
Definition exact_visit (d : dmap) (s : sparsity) (L : list LocalOrder) : Prop :=
  NoDup L /\ forall lo, In lo L <-> sel_dof d s lo.
(** Maps whose default-order iteration is exact: repetitions are over maps
    without composition; in a composition the components having selected dofs
    are consecutive. *)
Definition consecutive (P : nat -> Prop) (n : nat) : Prop :=
  forall i j k, i < j -> j < k -> k < n -> P i -> P k -> P j.
Fixpoint iter_safe (s : sparsity) (d : dmap) : Prop :=
  match d with
  | Unite _ _ => True
  | Vector _ b => complex_free b
  | Complex l => fold_right (fun b P => iter_safe s b /\ P) True l /\
      consecutive (fun v => exists b lo, nth_error l v = Some b /\ sel_dof b s lo) (length l)
  end.
