(** OrderedEnumerator: numbering of dofs in an order chosen by the user.
    Sources: inmost_interface/global_enumerator.cpp (cpp), .h (h); interval/ext_array_enum through ExtModel.
    As in EnumModel a mesh element is its dimension and its GlobalID, long and std::size_t are nat. *)
From Verif Require Import Prelude DofModel EnumModel.
From Verif Require ExtModel.

(** perm[3] and perm[2] - (perm[3] < perm[2] ? 1 : 0), cpp:717 *)
Definition insert_pos (perm : list nat) : option nat := rd perm 3.
Definition depends_on (perm : list nat) : option nat := do p3 <- rd perm 3; do p2 <- rd perm 2; Some (p2 - (if p3 <? p2 then 1 else 0)).
(** arr_range_func over num_elem, cpp:713-717: number of owned elements of the type *)
Definition range (r : rank) (t : nat) : nat := if t <? ngeom then r_num r (geom_dim t) else 0.
(** dof_id, cpp:730-734; std::array<std::size_t, 4> without initialisation, all the slots are written *)
Definition place4 (perm : list nat) (v c t p : nat) : option (list nat) :=
  do p3 <- rd perm 3;
  let sh q := q - (if p3 <? q then 1 else 0) in
  do p0 <- rd perm 0; do a <- wr (repeat 0 4) (sh p0) v;
  do p1 <- rd perm 1; do a <- wr a (sh p1) c;
  do p2 <- rd perm 2; do a <- wr a (sh p2) t;
  do p4 <- rd perm 4; wr a (sh p4) p.
(** id, cpp:769-774, 654-659 *)
Definition place5 (perm : list nat) (v c t e p : nat) : option (list nat) :=
  do p0 <- rd perm 0; do a <- wr (repeat 0 5) p0 v;
  do p1 <- rd perm 1; do a <- wr a p1 c;
  do p2 <- rd perm 2; do a <- wr a p2 t;
  do p3 <- rd perm 3; do a <- wr a p3 e;
  do p4 <- rd perm 4; wr a p4 p.
(** vals, cpp:718-737; NestedDim of a vector variable is its number of components *)
Definition base_vals (perm : list nat) (l : list dmap) : option (list (list nat)) :=
  all_some (flat_map (fun v =>
    let b := nth v l (Complex []) in
    let ndim := match b with Vector k _ => k | _ => 1 end in
    flat_map (fun t => map (fun di => place4 perm v (di mod ndim) t (di / ndim)) (seq 0 (num_dof b t))) (seq 0 ngeom)) (seq 0 (length l))).
(** loc_emap, cpp:717-739 *)
Definition loc_emap (perm : list nat) (l : list dmap) (r : rank) : option ExtModel.enum :=
  do n <- insert_pos perm; do m <- depends_on perm;
  do vals <- base_vals perm l;
  ExtModel.setup (range r) n m (ExtModel.base_set vals).

(** index_byMap, cpp:768-777, for an element with GlobalID g *)
Definition ordered_index (perm : list nat) (rv : bool) (l : list dmap) (r : rank) (g : nat) (x : desc) : option nat :=
  do E <- loc_emap perm l r;
  do n <- insert_pos perm; do m <- depends_on perm;
  do _ <- guard (r_beg r (geom_dim (x_type x)) <=? g);
  do id <- place5 perm (x_var x) (x_dim x) (x_type x) (g - r_beg r (geom_dim (x_type x))) (x_pos x);
  do i <- ExtModel.forward 4 (range r) n m E id;
  Some ((if rv then ExtModel.m_size E - i - 1 else i) + r_begind r).
(** operator()(EnumerateIndex), cpp:779-796: the dimension and the GlobalID of the element and the description; [chk] tells whether
    the assert of cpp:780 is compiled.  glob_to_loc sends the offset to the element with GlobalID BegElemID + offset (cpp:519-523). *)
Definition ordered_inverse (chk : bool) (perm : list nat) (rv : bool) (l : list dmap) (r : rank) (id : nat) : option (nat * nat * desc) :=
  do E <- loc_emap perm l r;
  do n <- insert_pos perm; do m <- depends_on perm;
  do _ <- guard (if chk then r_begind r <? id else true);
  do _ <- guard ((r_begind r <=? id) && (id - r_begind r <? ExtModel.m_size E));
  do b <- ExtModel.reverse 4 (range r) n m E (if rv then ExtModel.m_size E - 1 - (id - r_begind r) else id - r_begind r);
  do p0 <- rd perm 0; do v <- rd b p0;
  do p1 <- rd perm 1; do c <- rd b p1;
  do p2 <- rd perm 2; do t <- rd b p2;
  do p4 <- rd perm 4; do p <- rd b p4;
  do p3 <- rd perm 3; do e <- rd b p3;
  do _ <- guard (e <? r_num r (geom_dim t));
  Some (geom_dim t, r_beg r (geom_dim t) + e, Desc t v c p).
(** The index tag of an owned element and its use, cpp:741-767 *)
Definition ordered_row (perm : list nat) (rv : bool) (l : list dmap) (r : rank) (d g : nat) : option (list nat) :=
  all_some (map (fun k => do e <- full_index l d k; ordered_index perm rv l r g (e_desc e)) (seq 0 (i_nd l d))).
Definition ordered_order (perm : list nat) (rv : bool) (l : list dmap) (r : rank) (g : nat) (x : desc) : option nat :=
  do row <- ordered_row perm rv l r (geom_dim (x_type x)) g;
  do e <- full_desc l x;
  rd row (elem_dof_id e).
