(** Specification vocabulary for the dof maps: the ordered list of dofs a map
    stands for, written without any search or division. *)
From Verif Require Import Prelude DofModel.

(** A dof: geometric type, entity number in the tetrahedron, position among the
    dofs of that entity, and (class, index in class) under vertex symmetries. *)
Record dof := Dof { d_type : nat; d_elem : nat; d_pos : nat; d_sym : option (nat * nat) }.

(** Number of dofs one entity of type [t] carries. *)
Fixpoint cnt (d : dmap) (t : nat) : nat :=
  match d with
  | Unite nd _ => nth t nd 0
  | Vector k b => k * cnt b t
  | Complex l => list_sum (map (fun b => cnt b t) l)
  end.

(** Dofs of one entity of type [t], as (class, index): for each class, as many
    full orbits as the table says. *)
Definition sym_list (s : list nat) (t : nat) : list (nat * nat) :=
  flat_map (fun c => let i := nth t sym_offs 0 + c in
              concat (repeat (map (fun j => (c, j)) (seq 0 (nth i sym_vols 0))) (nth i s 0)))
           (seq 0 (nth (t + 1) sym_offs 0 - nth t sym_offs 0)).
Definition sym_at (sy : option (list nat)) (t p : nat) : option (nat * nat) :=
  match sy with None => None | Some s => nth_error (sym_list s t) p end.

Definition shift_pos (f : nat -> nat) (l : list dof) : list dof :=
  map (fun x => Dof (d_type x) (d_elem x) (f (d_type x) + d_pos x) (d_sym x)) l.

(** The dofs in index order.  Leaf: by type, then entity, then position.
    Repetition: copy after copy, positions of copy c start after those of the
    previous copies.  Composition: component after component, likewise. *)
Fixpoint layout (d : dmap) : list dof :=
  match d with
  | Unite nd sy =>
      flat_map (fun t => flat_map (fun e => map (fun p => Dof t e p (sym_at sy t p)) (seq 0 (nth t nd 0)))
                                  (seq 0 (tet_elems t))) (seq 0 ngeom)
  | Vector k b => flat_map (fun c => shift_pos (fun t => c * cnt b t) (layout b)) (seq 0 k)
  | Complex l =>
      (fix go (l : list dmap) (acc : nat -> nat) : list dof :=
         match l with
         | [] => []
         | b :: r => shift_pos acc (layout b) ++ go r (fun t => acc t + cnt b t)
         end) l (fun _ => 0)
  end.

Definition dof_of_lo (lo : LocalOrder) : dof := Dof (lo_type lo) (lo_elem lo) (lo_leid lo) (lo_sym lo).

(** Forget the symmetry information. *)
Definition locus (x : dof) : nat * nat * nat := (d_type x, d_elem x, d_pos x).

(** Maps on which no repetition (of two or more copies) carries dofs on nodes,
    edges or faces: the maps for which the vector lookup is right. *)
Fixpoint lookup_safe (d : dmap) : Prop :=
  match d with
  | Unite _ _ => True
  | Vector k b => lookup_safe b /\ (k <= 1 \/ forall t, t < 5 -> cnt b t = 0)
  | Complex l => fold_right (fun b P => lookup_safe b /\ P) True l
  end.

(** The dofs in index order, without labels; same dofs in the same order. *)
Definition loci (d : dmap) : list (nat * nat * nat) := map locus (layout d).
Definition same_dofs (a b : dmap) : Prop := (forall t, cnt a t = cnt b t) /\ loci a = loci b.

(** No empty composition anywhere: on such maps the product never touches
    back()/front() of an empty vector. *)
Fixpoint no_empty (d : dmap) : Prop :=
  match d with
  | Unite _ _ => True
  | Vector _ b => no_empty b
  | Complex l => l <> [] /\ fold_right (fun b P => no_empty b /\ P) True l
  end.

(** No ComplexDofMap inside. *)
Fixpoint complex_free (d : dmap) : Prop :=
  match d with Unite _ _ => True | Vector _ b => complex_free b | Complex _ => False end.
