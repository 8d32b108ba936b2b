(** Walking over degrees of freedom by geometry and by vector index.
    Sources: inmost_interface/global_enumerator.cpp (cpp), global_enumerator.h (h).
    A mesh gives for every dimension the states of the local IDs.  Outside of the repository, as documented by INMOST:
    LastLocalID is one more than the largest local ID, NextLocalID skips deleted elements. *)
From Verif Require Import Prelude DofModel EnumModel.

Inductive state := Deleted | Ghost | Owned.
Definition mesh := nat -> list state.
Definition status (m : mesh) (d lid : nat) : state := nth lid (m d) Deleted.
Definition is_owned (m : mesh) (d lid : nat) : bool := match status m d lid with Owned => true | _ => false end.
Fixpoint leading (l : list state) : nat := match l with Deleted :: r => S (leading r) | _ => 0 end.
Definition next_lid (m : mesh) (d lid : nat) : nat := S lid + leading (skipn (S lid) (m d)).
Definition last_lid (m : mesh) (d : nat) : nat := length (m d).

(** h:139-145 SliceIndex; ANY is [None], etype a bit mask *)
Record slice := Slice { s_var : option nat; s_dim : option nat; s_dof : option nat; s_mask : nat; s_lid : option nat }.
Definition has (s : slice) (t : nat) : bool := Nat.testbit (s_mask s) t.
(** h:48-64 NaturalIndex of a valid element; the end of the walk, an invalid element (h:58-62), is [None] *)
Record place := Place { p_dim : nat; p_lid : nat; p_desc : desc }.

(** cpp:335-341, 377-384: number of components and of dofs of one component on an element of the type; the number of
    components of a vector variable is not zero when it has dofs (cpp:334) *)
Definition comp_dofs (b : dmap) (t : nat) : nat * nat :=
  match b with Vector k _ => (k, num_dof b t / k) | _ => (1, num_dof b t) end.
(** cpp:330-347 _choose_var, [k] and [p] are j.dim_id and j.dim_elem_dof_id.  A variable without dofs of the type is skipped
    by cpp:334 and by cpp:342, as the comparison with nd = 0 *)
Definition choose_var (l : list dmap) (t k p st last : nat) : option nat :=
  find (fun v => let b := nth v l (Complex []) in
    if 0 <? num_dof b t then let '(ndim, nd) := comp_dofs b t in negb ((ndim <=? k) || (nd <=? p)) else false) (seq st (last - st)).
(** cpp:353-354, 403-404 *)
Definition var_first (s : slice) : nat := match s_var s with None => 0 | Some v => v end.
Definition var_last (l : list dmap) (s : slice) : nat := match s_var s with None => length l | Some v => S v end.
Definition unoriented (t : nat) : bool := (t =? 1) || (t =? 3).
Definition oriented (t : nat) : bool := (t =? 2) || (t =? 4).
(** cpp:355-364: what is chosen on one element *)
Definition choose_on (l : list dmap) (s : slice) (t k p : nat) : option desc :=
  match choose_var l t k p (var_first s) (var_last l s) with
  | Some v => Some (Desc t v k p)
  | None => if unoriented t && has s (S t) then
              match choose_var l (S t) k p (var_first s) (var_last l s) with Some v => Some (Desc (S t) v k p) | None => None end
            else None
  end.
(** cpp:348-368 _choose_element: the first owned element decides (the break at 365); the number of steps is at most [fuel] *)
Fixpoint choose_element (fuel : nat) (l : list dmap) (m : mesh) (s : slice) (d t k p lid ed : nat) : option place :=
  match fuel with
  | O => None
  | S f => if lid <? ed then
             if is_owned m d lid then match choose_on l s t k p with Some x => Some (Place d lid x) | None => None end
             else choose_element f l m s d t k p (next_lid m d lid) ed
           else None
  end.
Definition dim_mask (s : slice) (d : nat) : bool :=
  match d with 0 => has s 0 | 1 => has s 1 || has s 2 | 2 => has s 3 || has s 4 | _ => has s 5 end.
Definition any_or (o : option nat) (a : nat) : nat := match o with None => a | Some i => i end.

(** cpp:309-329 find_begin.  [None]: a variable that does not exist is looked up (simplified: at once, the code looks it up on the
    first owned element) *)
Fixpoint begin_dims (l : list dmap) (m : mesh) (s : slice) (ds : list nat) : option place :=
  match ds with
  | [] => None
  | d :: ds =>
      let lid := any_or (s_lid s) 0 in
      let ed := match s_lid s with None => last_lid m d | Some i => Nat.min (last_lid m d) (i + 1) end in
      match (if dim_mask s d then choose_element (S ed) l m s d (first_type d) (any_or (s_dim s) 0) (any_or (s_dof s) 0) lid ed else None) with
      | Some x => Some x
      | None => begin_dims l m s ds
      end
  end.
Definition begin_by_geom (l : list dmap) (m : mesh) (s : slice) : option (option place) :=
  do _ <- guard (match s_var s with None => true | Some v => v <? length l end);
  Some (begin_dims l m s [0; 1; 2; 3]).

(** cpp:425-439: the next dimensions *)
Fixpoint next_dims (l : list dmap) (m : mesh) (s : slice) (k p lid : nat) (ds : list nat) : option place :=
  match ds with
  | [] => None
  | d :: ds =>
      let skip := match s_lid s with None => false | Some _ => (last_lid m d <=? lid) || match status m d lid with Deleted => true | _ => false end end in
      let ed := match s_lid s with None => last_lid m d | Some _ => lid + 1 end in
      match (if dim_mask s d && negb skip then choose_element (S ed) l m s d (first_type d) k p lid ed else None) with
      | Some x => Some x
      | None => next_dims l m s k p lid ds
      end
  end.
(** cpp:418-424: the end is reached if no type from gtnum on is in the mask *)
Definition next_dim (l : list dmap) (m : mesh) (s : slice) (t k p lid : nat) : option place :=
  let g := if unoriented t then S t else t in
  if (Nat.shiftr (s_mask s) g =? 0) || (t =? 5) then None
  else next_dims l m s k p lid (seq (S (geom_dim t)) (3 - geom_dim t)).
(** cpp:407-417: the next element of the same dimension *)
Definition next_elem (l : list dmap) (m : mesh) (s : slice) (d t k p lid : nat) : option place :=
  match s_lid s with
  | None => match choose_element (S (last_lid m d)) l m s d t k p (next_lid m d lid) (last_lid m d) with
            | Some x => Some x
            | None => next_dim l m s t k p 0
            end
  | Some _ => next_dim l m s t k p lid
  end.
(** cpp:397-406: from the unoriented to the oriented dofs, and back for the next element *)
Definition next_type (l : list dmap) (m : mesh) (s : slice) (d t k p lid : nat) : option place :=
  let up := unoriented t && has s (S t) in
  match (if up then choose_var l (S t) k p (var_first s) (var_last l s) else None) with
  | Some v => Some (Place d lid (Desc (S t) v k p))
  | None =>
      let t1 := if up then S t else t in
      let t2 := if oriented t1 && has s (t1 - 1) then t1 - 1 else t1 in
      next_elem l m s d t2 k p lid
  end.
(** cpp:393-396 *)
Definition next_var (l : list dmap) (m : mesh) (s : slice) (d t v k p lid : nat) : option place :=
  match (match s_var s with None => choose_var l t k p (S v) (length l) | Some _ => None end) with
  | Some v' => Some (Place d lid (Desc t v' k p))
  | None => next_type l m s d t k p lid
  end.
(** cpp:370-392, 441 operator++ *)
Definition next_comp (l : list dmap) (m : mesh) (s : slice) (d t v k p lid ndim : nat) : option place :=
  match s_dim s with
  | None => if k + 1 <? ndim then Some (Place d lid (Desc t v (k + 1) p)) else next_var l m s d t v 0 p lid
  | Some _ => next_var l m s d t v k p lid
  end.
Definition next_by_geom (l : list dmap) (m : mesh) (s : slice) (x : place) : option place :=
  let '(Place d lid (Desc t v k p)) := x in
  let '(ndim, nd) := comp_dofs (nth v l (Complex [])) t in
  match s_dof s with
  | None => if p + 1 <? nd then Some (Place d lid (Desc t v k (p + 1))) else next_comp l m s d t v k 0 lid ndim
  | Some _ => next_comp l m s d t v k p lid ndim
  end.
(** for (it = beginByGeom(...); it != endByGeom(); ++it), at most [fuel] steps; the flag tells whether the end was reached *)
Fixpoint walk_from (l : list dmap) (m : mesh) (s : slice) (fuel : nat) (x : option place) : list place * bool :=
  match x with
  | None => ([], true)
  | Some x => match fuel with
              | O => ([], false)
              | S f => let r := walk_from l m s f (next_by_geom l m s x) in (x :: fst r, snd r)
              end
  end.
Definition walk (l : list dmap) (m : mesh) (s : slice) (fuel : nat) : option (list place * bool) :=
  do x <- begin_by_geom l m s; Some (walk_from l m s fuel x).
(** h:228-231: the defaults of beginByGeom *)
Definition everything : slice := Slice None None None 63 None.

(** h:85-134 iteratorByVector: the index only, the cached natural index is cleared by every change; long is Z *)
Definition v_add (i n : Z) : Z := (i + n)%Z.
Definition v_diff (i j : Z) : Z := (i - j)%Z.
Definition v_lt (i j : Z) : bool := (i <? j)%Z.
Definition v_gt (i j : Z) : bool := (j <? i)%Z.
Definition v_le (i j : Z) : bool := (i <=? j)%Z.
Definition v_ge (i j : Z) : bool := (i <? j)%Z.
