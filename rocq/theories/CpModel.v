(** Copying degrees of freedom between vectors and tags.
    Sources: inmost_interface/global_enumerator.cpp (cpp).
    Memory is a partial function of an address: [n] in a vector, [dim; lid; k] in a tag, [v; dim; lid; k] in a list of tags;
    an address without value is out of bounds.  The checks under NDEBUG (room in the tags) are hypotheses of the theorems.
    Source and target are different memory.  ExchangeData with other processes (cpp:17, 61, 156) is not modelled. *)
From Verif Require Import Prelude DofModel EnumModel GwModel.

Definition mem (A : Type) := list nat -> option A.
Definition mset {A} (m : mem A) (a : list nat) (v : A) : option (mem A) :=
  do _ <- m a; Some (fun b => if list_eq_dec Nat.eq_dec b a then Some v else m b).
Definition copy {A} (from : mem A) (src : list nat) (to : mem A) (dst : list nat) : option (mem A) := do v <- from src; mset to dst v.
Fixpoint each {X M} (L : list X) (f : X -> M -> option M) (m : M) : option M :=
  match L with [] => Some m | x :: r => do m <- f x m; each r f m end.
(** for (auto it = beginByGeom(...); it != endByGeom(); ++it), at most [fuel] steps *)
Definition by_geom {M} (l : list dmap) (m : mesh) (s : slice) (fuel : nat) (f : place -> M -> option M) (st : M) : option M :=
  do w <- walk l m s fuel; do _ <- guard (snd w); each (fst w) f st.
(** Sparse::Vector::SetInterval: cells from b up to e, with contents that are not specified *)
Definition interval {A} (b e : nat) (junk : nat -> A) : mem A :=
  fun a => match a with [n] => if (b <=? n) && (n <? e) then Some (junk n) else None | _ => None end.

Section Index.
(** GetVecInd().id: the enumeration of the unknowns *)
Variable idx : place -> option nat.
(** cpp:6-18 vector to one tag for all variables *)
Definition vec_to_tag {A} (l : list dmap) (m : mesh) (fuel : nat) (from to : mem A) : option (mem A) :=
  by_geom l m everything fuel (fun x to => do e <- full_desc l (p_desc x); do n <- idx x; copy from [n] to [p_dim x; p_lid x; elem_dof_id e]) to.
(** cpp:20-26 *)
Definition tag_to_vec {A} (l : list dmap) (m : mesh) (fuel b e : nat) (junk : nat -> A) (from : mem A) : option (mem A) :=
  by_geom l m everything fuel (fun x to => do e <- full_desc l (p_desc x); do n <- idx x; copy from [p_dim x; p_lid x; elem_dof_id e] to [n]) (interval b e junk).
(** cpp:28-35 a tag for every variable to a vector *)
Definition tags_to_vec {A} (l : list dmap) (m : mesh) (fuel b e : nat) (junk : nat -> A) (from : mem A) : option (mem A) :=
  by_geom l m everything fuel (fun x to => do n <- idx x; do e <- full_desc l (p_desc x); copy from [x_var (p_desc x); p_dim x; p_lid x; single_dof_id e] to [n]) (interval b e junk).
(** cpp:37-63 *)
Definition vec_to_tags {A} (l : list dmap) (m : mesh) (fuel : nat) (from to : mem A) : option (mem A) :=
  by_geom l m everything fuel (fun x to => do n <- idx x; do e <- full_desc l (p_desc x); copy from [n] to [x_var (p_desc x); p_dim x; p_lid x; single_dof_id e]) to.
(** cpp:143-157 vector to the tag of one variable *)
Definition vec_to_var {A} (l : list dmap) (m : mesh) (fuel v : nat) (from to : mem A) : option (mem A) :=
  do _ <- nth_error l v;
  by_geom l m (Slice (Some v) None None 63 None) fuel (fun x to => do n <- idx x; do e <- full_desc l (p_desc x); copy from [n] to [p_dim x; p_lid x; single_dof_id e]) to.
End Index.

(** ordering.h:21-23: dofs of a map on one element of the dimension *)
Definition nd_dim (b : dmap) (d : nat) : nat :=
  match d with 0 => num_dof b 0 | 1 => num_dof b 1 + num_dof b 2 | 2 => num_dof b 3 + num_dof b 4 | 3 => num_dof b 5 | _ => 0 end.
(** mesh->BeginElement(mask) to EndElement: all elements, also those of other processes, of the dimensions where the map has
    dofs (ordering.h:13-19; simplified: the mask is computed from the numbers of dofs) *)
Definition elements (m : mesh) (b : dmap) : list (nat * nat) :=
  flat_map (fun d => if 0 <? nd_dim b d then map (pair d) (filter (fun i => match status m d i with Deleted => false | _ => true end) (seq 0 (length (m d)))) else []) [0; 1; 2; 3].
(** cpp:65-76 *)
Definition tag_to_tag {A} (l : list dmap) (m : mesh) (from to : mem A) : option (mem A) :=
  each (elements m (Complex l)) (fun '(d, i) => each (seq 0 (nd_dim (Complex l) d)) (fun k to => copy from [d; i; k] to [d; i; k])) to.
(** cpp:213-225, one variable *)
Definition var_to_var {A} (l : list dmap) (m : mesh) (v : nat) (from to : mem A) : option (mem A) :=
  do b <- nth_error l v;
  each (elements m b) (fun '(d, i) => each (seq 0 (nd_dim b d)) (fun k to => copy from [d; i; k] to [d; i; k])) to.

(** cpp:91, 122, 167, 194 etnum_lookup_prt *)
Definition lookup (d : nat) : nat := nth d [0; 1; 3; 5; 6] 0.
(** conversion to unsigned char *)
Definition uchar (n : nat) : nat := n mod 256.
(** cpp:100-104, 131-135, 175-179, 202-206: tshift and tvshift are unsigned char *)
Definition tshift (l : list dmap) (d t : nat) : nat :=
  fold_left (fun a lt => uchar (a + var_shift l lt (length l))) (seq (lookup d) (t - lookup d)) 0.
Definition tvshift (l : list dmap) (d t v : nat) : nat :=
  fold_left (fun a lt => uchar (a + (var_shift l lt (v + 1) - var_shift l lt v))) (seq (lookup d) (t - lookup d)) 0.
Definition types_from (d : nat) : list nat := seq (lookup d) (lookup (d + 1) - lookup d).
(** cpp:95-106, 126-137, 171-181, 198-208: the loop over the dofs of variable v of one type on one element, [f k a b]: k-th dof, place in the
    common tag and in the tag of the variable *)
Definition per_dof {M} (l : list dmap) (d t v : nat) (f : nat -> nat -> M -> option M) : M -> option M :=
  each (seq 0 (var_shift l t (v + 1) - var_shift l t v)) (fun k => f (tshift l d t + var_shift l t v + k) (k + tvshift l d t v)).
(** cpp:78-111 one tag for all variables to tags of the variables *)
Definition tag_to_tags {A} (l : list dmap) (m : mesh) (from to : mem A) : option (mem A) :=
  each (elements m (Complex l)) (fun '(d, i) => each (types_from d) (fun t => each (seq 0 (length l)) (fun v =>
    per_dof l d t v (fun a b to => copy from [d; i; a] to [v; d; i; b])))) to.
(** cpp:113-141 *)
Definition tags_to_tag {A} (l : list dmap) (m : mesh) (from to : mem A) : option (mem A) :=
  each (elements m (Complex l)) (fun '(d, i) => each (types_from d) (fun t => each (seq 0 (length l)) (fun v =>
    per_dof l d t v (fun a b to => copy from [v; d; i; b] to [d; i; a])))) to.
(** cpp:159-184 *)
Definition tag_to_var {A} (l : list dmap) (m : mesh) (v : nat) (from to : mem A) : option (mem A) :=
  do b <- nth_error l v;
  each (elements m b) (fun '(d, i) => each (types_from d) (fun t => per_dof l d t v (fun a b to => copy from [d; i; a] to [d; i; b]))) to.
(** cpp:186-211 *)
Definition var_to_tag {A} (l : list dmap) (m : mesh) (v : nat) (from to : mem A) : option (mem A) :=
  do b <- nth_error l v;
  each (elements m b) (fun '(d, i) => each (types_from d) (fun t => per_dof l d t v (fun a b to => copy from [d; i; b] to [d; i; a]))) to.
