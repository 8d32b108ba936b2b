(** Vocabulary for data renumbered on a mesh. *)
From Coq Require Import Permutation.
From Verif Require Import Prelude DofModel DofSpec SymModel SymSpec OrdModel RmModel.

(** The values of the dof with data index [k]: block number [k] after [shift] other values. *)
Definition values_at {A} (block shift : nat) (tv : list A) (k : nat) : list A := firstn block (skipn (shift + block * k) tv).
(** Number of dofs stored on an element of dimension [q]. *)
Definition stored_dofs (d : dmap) (q : nat) : nat :=
  match q with 0 => cnt d 0 | 1 => cnt d 1 + cnt d 2 | 2 => cnt d 3 + cnt d 4 | _ => cnt d 5 end.
(** Same length, same values before the dofs and after them. *)
Definition same_around {A} (shift n : nat) (tv tv' : list A) : Prop :=
  length tv' = length tv /\ firstn shift tv' = firstn shift tv /\ skipn (shift + n) tv' = skipn (shift + n) tv.
(** Entity [e] of type [t] of a cell with old identifiers [g] and new identifiers [h] is the
    element of dimension [q] whose nodes, in some order, have the identifiers [xs] and [ys]. *)
Definition seen_from (big : Z) (q : nat) (xs ys : list Z) (g h : list Z) (t e : nat) : Prop :=
  length g = 4 /\ NoDup g /\ length h = 4 /\ NoDup h /\ (forall x, In x g -> (x < big)%Z) /\ (forall x, In x h -> (x < big)%Z) /\
  t < 6 /\ e < tet_elems t /\ geom_dim t = q /\
  exists vs, Permutation vs (corners t e) /\ xs = map (gid g) vs /\ ys = map (gid h) vs.
(** Every dof of the entity, addressed with the new identifiers, has the values it had when
    addressed with the old ones. *)
Definition values_kept {A} (d : dmap) (block shift : nat) (g h : list Z) (t e : nat) (tv tv' : list A) : Prop :=
  forall pg ph i lo, order_permutation g = Some pg -> order_permutation h = Some ph -> local_order d i = Some lo -> lo_type lo = t -> lo_elem lo = e ->
    exists a b, locus_index d lo ph = Some a /\ locus_index d lo pg = Some b /\ a < stored_dofs d (geom_dim t) /\ b < stored_dofs d (geom_dim t) /\
      values_at block shift tv' a = values_at block shift tv b.
(** The data of one tag on element [el], before and after. *)
Definition tag_renumbered {A} (d : dmap) (big : Z) (block shift : nat) (el : element A) (x x' : option (list A)) : Prop :=
  match x, x' with
  | None, None => True
  | Some tv, Some tv' =>
      let n := block * stored_dofs d (el_dim el) in
      same_around shift n tv tv' /\
      (length tv < shift + n -> tv' = tv) /\
      (shift + n <= length tv -> forall g h t e, seen_from big (el_dim el) (el_old el) (el_new el) g h t e -> values_kept d block shift g h t e tv tv')
  | _, _ => False
  end.
