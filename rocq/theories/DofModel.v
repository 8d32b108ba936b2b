(** Model of the tetrahedral dof maps: anifem++/fem/tetdofmap.{h,cpp,inl}.

    Geometric types are represented by their sequential number
    0 NODE, 1 EDGE_UNORIENT, 2 EDGE_ORIENT, 3 FACE_UNORIENT, 4 FACE_ORIENT, 5 CELL
    (GeomTypeToNum, tetdofmap.h:41, is the identity here).  unsigned integers are
    unbounded [nat]; the sentinel uint(-1)/uchar(-1) is [None].  A failed assert, a
    division by zero or an out-of-range vector access gives [None].  Pointers to
    sub-maps are the sub-maps themselves (a null pointer is not a map). *)
From Verif Require Import Prelude.

Definition ngeom : nat := 6.                              (* tetdofmap.h:36 NGEOM_TYPES *)
(* tetdofmap.h:60-63 GeomTypeTetElems composed with GeomTypeDim h:43-46 *)
Definition tet_elems (t : nat) : nat := nth t [4; 6; 6; 4; 4; 1] 0.
(* tetdofmap.h:43-46 GeomTypeDim on primitive types *)
Definition geom_dim (t : nat) : nat := nth t [0; 1; 1; 2; 2; 3] 0.

(** The three storable maps: UniteDofMap (h:592-618), VectorDofMap (h:621-650),
    ComplexDofMap (h:671-704).  A UniteDofMap is determined by its per-type dof
    counts and its optional symmetry table ([None]: DofSymmetries not inited,
    inl:77); VectorDofMapC / ComplexDofMapC (inl:359-828) store the same data. *)
Inductive dmap : Type :=
| Unite (nd : list nat) (sy : option (list nat))
| Vector (k : nat) (b : dmap)
| Complex (l : list dmap).

(* inl:68-69 volumes of the 16 symmetry classes and offsets per geometric type *)
Definition sym_offs : list nat := [0; 1; 3; 5; 8; 11; 16].
Definition sym_vols : list nat := [1; 1; 2; 1; 2; 1; 3; 6; 1; 3; 6; 1; 4; 6; 12; 24].

(* cpp:287-294 NumDofs computed by UniteDofMap(DofSymmetries) *)
Definition counts_of_sym (s : list nat) : list nat :=
  let v i := nth i sym_vols 0 * nth i s 0 in
  [ v 0; v 1 + v 2; v 3 + v 4; v 5 + v 6 + v 7; v 8 + v 9 + v 10;
    v 11 + v 12 + v 13 + v 14 + v 15 ].
(* cpp:287 UniteDofMap(DofSymmetries) *)
Definition unite_of_sym (s : list nat) : dmap := Unite (counts_of_sym s) (Some s).
(* cpp:302 UniteDofMap(std::array<uint,6>) *)
Definition unite_of_counts (nd : list nat) : dmap := Unite nd None.

(** What the constructors guarantee (array sizes; counts derived from the table). *)
Fixpoint wf (d : dmap) : Prop :=
  match d with
  | Unite nd sy => length nd = 6 /\
      match sy with None => True | Some s => length s = 16 /\ nd = counts_of_sym s end
  | Vector _ b => wf b
  | Complex l => fold_right (fun b P => wf b /\ P) True l
  end.

(** m_shiftDof / m_shiftTetDof, cpp:295-299 and cpp:303-307. *)
Definition shiftDof (nd : list nat) : list nat := prefix nd.
Definition tetCounts (nd : list nat) : list nat := map (fun t => tet_elems t * nth t nd 0) (seq 0 ngeom).
Definition shiftTetDof (nd : list nat) : list nat := prefix (tetCounts nd).

(** NumDof(etype): h:601 (Unite), h:628 (Vector), h:683 with the table of
    cpp:593-597 (Complex). *)
Fixpoint num_dof (d : dmap) (t : nat) : nat :=
  match d with
  | Unite nd _ => nth (t + 1) (shiftDof nd) 0 - nth t (shiftDof nd) 0
  | Vector k b => k * num_dof b t
  | Complex l => let tab := prefix (map (fun b => num_dof b t) l) in
                 nth (length l) tab 0 - nth 0 tab 0
  end.

(** NumDofOnTet(etype) for a primitive type: cpp:309-314, h:629, h:684 with
    cpp:596. *)
Fixpoint num_dof_tet_t (d : dmap) (t : nat) : nat :=
  match d with
  | Unite nd _ => nth (t + 1) (shiftTetDof nd) 0 - nth t (shiftTetDof nd) 0
  | Vector k b => k * num_dof_tet_t b t
  | Complex l => let tab := prefix (map (fun b => num_dof_tet_t b t) l) in
                 nth (length l) tab 0 - nth 0 tab 0
  end.

(** NumDofOnTet(mask) for a union of types given as a bit mask: Unite sums the
    selected types (cpp:309-314), Vector multiplies (h:629), Complex indexes its
    table with ilogb(mask) (h:684, h:41), i.e. with the highest selected type. *)
Fixpoint num_dof_tet_mask (d : dmap) (m : nat) : nat :=
  match d with
  | Unite nd _ => list_sum (map (fun t => if Nat.testbit m t then
                     nth (t + 1) (shiftTetDof nd) 0 - nth t (shiftTetDof nd) 0 else 0) (seq 0 ngeom))
  | Vector k b => k * num_dof_tet_mask b m
  | Complex l => num_dof_tet_t d (Nat.log2 m)
  end.

(** NumDofOnTet(): h:603 (Unite), h:630 (Vector), h:685 = cpp:250-253 over
    cpp:631-635 (Complex). *)
Fixpoint num_dof_tet (d : dmap) : nat :=
  match d with
  | Unite nd _ => nth ngeom (shiftTetDof nd) 0 - nth 0 (shiftTetDof nd) 0
  | Vector k b => k * num_dof_tet b
  | Complex l => list_sum (map (num_dof_tet_t d) (seq 0 ngeom))
  end.

(** DofSymmetries::GetLocSymOrder_by_geom_num, inl:86-97.  The loop adds the
    sizes of the classes of type [t] until the running total exceeds the
    position; [cls] counts classes already added, [tot] is ndofs. *)
Fixpoint loc_sym_loop (s : list nat) (t : nat) (p : nat) (n cls tot vol : nat) : nat * nat * nat :=
  match n with
  | O => (cls, tot, vol)
  | S n' => if tot <=? p then
              let i := nth t sym_offs 0 + cls in
              let vol' := nth i sym_vols 0 in
              loc_sym_loop s t p n' (S cls) (tot + vol' * nth i s 0) vol'
            else (cls, tot, vol)
  end.
Definition loc_sym (sy : option (list nat)) (t p : nat) : option (nat * nat) :=
  match sy with
  | None => None
  | Some s =>
      let '(cls, tot, vol) := loc_sym_loop s t p (nth (t + 1) sym_offs 0 - nth t sym_offs 0) 0 0 0 in
      let i := nth t sym_offs 0 + (cls - 1) in
      Some (cls - 1, (p - (tot - vol * nth i s 0)) mod vol)
  end.

(** LocalOrder, h:117-141 (stype/lsid as one optional pair). *)
Record LocalOrder := LO { lo_gid : nat; lo_type : nat; lo_elem : nat; lo_leid : nat; lo_sym : option (nat * nat) }.

(** LocalOrderOnTet(TetOrder): cpp:327-339 (Unite), cpp:433-440 (Vector),
    cpp:636-643 (Complex). *)
Fixpoint local_order (d : dmap) (gid : nat) : option LocalOrder :=
  match d with
  | Unite nd sy =>
      do _ <- guard (gid <? num_dof_tet d);
      let num := upper_bound (shiftTetDof nd) gid - 1 in
      let enumdof := nth (num + 1) (shiftDof nd) 0 - nth num (shiftDof nd) 0 in
      do _ <- guard (0 <? enumdof);
      let off := gid - nth num (shiftTetDof nd) 0 in
      let leid := off mod enumdof in
      Some (LO gid num (off / enumdof) leid (loc_sym sy num leid))
  | Vector k b =>
      do _ <- guard (gid <? num_dof_tet d);
      let nt := num_dof_tet b in
      do _ <- guard (0 <? nt);
      do lo <- local_order b (gid mod nt);
      Some (LO gid (lo_type lo) (lo_elem lo) (lo_leid lo + (gid / nt) * num_dof b (lo_type lo)) (lo_sym lo))
  | Complex l =>
      do _ <- guard (gid <? num_dof_tet d);
      let tab := prefix (map num_dof_tet l) in
      let vid := upper_bound tab gid - 1 in
      do f <- nth_error (map local_order l) vid;
      do lo <- f (gid - nth vid tab 0);
      Some (LO gid (lo_type lo) (lo_elem lo)
               (lo_leid lo + nth vid (prefix (map (fun b => num_dof b (lo_type lo)) l)) 0) (lo_sym lo))
  end.

(** TypeOnTet: cpp:340-343, h:634, cpp:644-648. *)
Fixpoint type_on_tet (d : dmap) (gid : nat) : option nat :=
  match d with
  | Unite nd _ =>
      do _ <- guard (gid <? num_dof_tet d);
      Some (upper_bound (shiftTetDof nd) gid - 1)
  | Vector k b =>
      (* h:634 : no assert here, m_dim == 0 gives UNDEF *)
      do _ <- guard (0 <? k);
      let nt := num_dof_tet b in
      do _ <- guard (0 <? nt);
      type_on_tet b (gid mod nt)
  | Complex l =>
      do _ <- guard (gid <? num_dof_tet d);
      let tab := prefix (map num_dof_tet l) in
      let vid := upper_bound tab gid - 1 in
      do f <- nth_error (map type_on_tet l) vid;
      f (gid - nth vid tab 0)
  end.

(** isValidIndex(LocGeomOrder), h:314 *)
Definition valid_locus (d : dmap) (t e p : nat) : bool :=
  (t <? ngeom) && (e <? tet_elems t) && (p <? num_dof d t).

(** TetDofIDExt / TetDofID: cpp:344-355 (Unite), cpp:441-453 (Vector),
    cpp:649-669 (Complex); the index part of both functions is the same
    expression.  [chk] says whether asserts are compiled in: with NDEBUG
    ([chk = false]) an invalid locus is not detected. *)
Definition chk_locus (chk : bool) (d : dmap) (t e p : nat) : option unit :=
  guard (negb chk || valid_locus d t e p).
Fixpoint tet_dof_id (chk : bool) (d : dmap) (t e p : nat) {struct d} : option (nat * option (nat * nat)) :=
  match d with
  | Unite nd sy =>
      do _ <- chk_locus chk d t e p;
      Some (nth t (shiftTetDof nd) 0 + e * (nth (t + 1) (shiftDof nd) 0 - nth t (shiftDof nd) 0) + p,
            loc_sym sy t p)
  | Vector k b =>
      do _ <- chk_locus chk d t e p;
      let nOdf := num_dof_tet b in
      let lOdf := num_dof_tet_t b t in
      do _ <- guard (0 <? lOdf);
      do r <- tet_dof_id chk b t e (p mod lOdf);
      Some (p / lOdf * nOdf + fst r, snd r)
  | Complex l =>
      do _ <- chk_locus chk d t e p;
      let tab := prefix (map (fun b => num_dof b t) l) in
      let vid := upper_bound tab p - 1 in
      do f <- nth_error (map (fun b => tet_dof_id chk b) l) vid;
      do r <- f t e (p - nth vid tab 0);
      Some (nth vid (prefix (map num_dof_tet l)) 0 + fst r, snd r)
  end.

(** ComponentID: h:648-649 (Vector), cpp:787-801 (Complex): (component, index in
    the component). *)
Definition component_tet (d : dmap) (gid : nat) : option (nat * nat) :=
  match d with
  | Unite _ _ => None
  | Vector k b => let nt := num_dof_tet b in do _ <- guard (0 <? nt); Some (gid / nt, gid mod nt)
  | Complex l =>
      do _ <- guard (gid <? num_dof_tet d);
      let tab := prefix (map num_dof_tet l) in
      let vid := upper_bound tab gid - 1 in
      Some (vid, gid - nth vid tab 0)
  end.
Definition component_elem (d : dmap) (t p : nat) : option (nat * nat) :=
  match d with
  | Unite _ _ => None
  | Vector k b => let nd := num_dof b t in do _ <- guard (0 <? nd); Some (p / nd, p mod nd)
  | Complex l =>
      do _ <- guard (p <? num_dof d t);
      let tab := prefix (map (fun b => num_dof b t) l) in
      let vid := upper_bound tab p - 1 in
      Some (vid, p - nth vid tab 0)
  end.

(** Nested views: NestedDofMapBase h:415-453.  GetNestedComponent accumulates
    the shifts along the path (cpp:454-466, cpp:678-689); an invalid path clears
    the view ([None]).  Views of views: VwModel.v. *)
Record view := View { v_base : dmap; v_shift_elem : list nat; v_shift_tet : nat }.
Definition zero_shift : list nat := repeat 0 ngeom.
Definition add_shift (s : list nat) (f : nat -> nat) : list nat :=
  map (fun t => nth t s 0 + f t) (seq 0 ngeom).
Fixpoint nested_from (d : dmap) (path : list nat) (se : list nat) (st : nat) {struct path} : option view :=
  match path with
  | [] => None                                   (* ndims == 0: view.Clear() *)
  | c :: rest =>
      match d with
      | Unite _ _ => None                        (* h:613 *)
      | Vector k b =>
          do _ <- guard (c <? k);
          let se' := add_shift se (fun t => c * num_dof b t) in
          let st' := st + c * num_dof_tet b in
          match rest with [] => Some (View b se' st') | _ => nested_from b rest se' st' end
      | Complex l =>
          do b <- nth_error l c;
          let se' := add_shift se (fun t => nth c (prefix (map (fun x => num_dof x t) l)) 0 - nth 0 (prefix (map (fun x => num_dof x t) l)) 0) in
          let st' := st + (nth c (prefix (map num_dof_tet l)) 0 - nth 0 (prefix (map num_dof_tet l)) 0) in
          match rest with [] => Some (View b se' st') | _ => nested_from b rest se' st' end
      end
  end.
(** DofMap::GetNestedDofMapView(ext_dims, ndims), h:564-566 *)
Definition nested_view (d : dmap) (path : list nat) : option view :=
  match path with [] => Some (View d zero_shift 0) | _ => nested_from d path zero_shift 0 end.
(** NestedDofMapBase::LocalOrderOnTet, cpp:999-1004 *)
Definition view_local_order (v : view) (i : nat) : option LocalOrder :=
  do lo <- local_order (v_base v) i;
  Some (LO (lo_gid lo + v_shift_tet v) (lo_type lo) (lo_elem lo)
           (lo_leid lo + nth (lo_type lo) (v_shift_elem v) 0) (lo_sym lo)).
(** NestedDofMapBase::TetDofID, h:441 *)
Definition view_tet_dof_id (chk : bool) (v : view) (t e p : nat) : option nat :=
  do r <- tet_dof_id chk (v_base v) t e p; Some (fst r + v_shift_tet v).
(** isValidOutputIndex(TetOrder), h:433: unsigned subtraction wraps, so an index
    below the shift becomes huge and is rejected. *)
Definition view_valid_output (v : view) (i : nat) : bool :=
  (v_shift_tet v <=? i) && (i - v_shift_tet v <? num_dof_tet (v_base v)).

(** operator== : cpp:415-419, 556-561, 803-812.  Symmetry tables are ignored. *)
Fixpoint eqb_list (a b : list nat) : bool :=
  match a, b with
  | [], [] => true
  | x :: a', y :: b' => (x =? y) && eqb_list a' b'
  | _, _ => false
  end.
Fixpoint dmap_eqb (a b : dmap) {struct a} : bool :=
  match a, b with
  | Unite n _, Unite m _ => eqb_list (shiftDof n) (shiftDof m)
  | Vector k x, Vector j y => (k =? j) && dmap_eqb x y
  | Complex l, Complex m =>
      (length l =? length m) &&
      forallb (fun t => eqb_list (prefix (map (fun x => num_dof x t) l)) (prefix (map (fun x => num_dof x t) m))) (seq 0 ngeom) &&
      (fix go (fs : list (dmap -> bool)) (ys : list dmap) : bool :=
         match fs, ys with
         | [], [] => true
         | f :: fs', y :: ys' => f y && go fs' ys'
         | _, _ => false
         end) (map dmap_eqb l) m
  | _, _ => false
  end.

(** ComplexDofMap::makeCompressed, cpp:563-588: [j] counts how many times the
    previous space repeated. *)
Fixpoint compress_loop (prev : dmap) (j : nat) (l : list dmap) : list dmap :=
  let flush := if j =? 0 then prev else Vector (j + 1) prev in
  match l with
  | [] => [flush]
  | x :: r => if dmap_eqb x prev then compress_loop x (S j) r
              else flush :: compress_loop x 0 r
  end.
Definition make_compressed (l : list dmap) : dmap :=
  match l with
  | [] => Complex l
  | [_] => Complex l
  | x :: r => Complex (compress_loop x 0 r)
  end.

(** DofMap::operator*, cpp:814-890.  Recursion on the last/first components is
    bounded by fuel; [None] also stands for back()/front() of an empty vector
    (undefined behaviour, cpp:848, 863). *)
Definition spaces_of (d : dmap) : list dmap := match d with Complex l => l | _ => [d] end.
Definition is_vector (d : dmap) := match d with Vector _ _ => true | _ => false end.
Definition is_complex (d : dmap) := match d with Complex _ => true | _ => false end.
Definition same_kind (a b : dmap) : bool :=
  match a, b with
  | Unite _ _, Unite _ _ | Vector _ _, Vector _ _ | Complex _, Complex _ => true
  | _, _ => false
  end.
Fixpoint dmul (fuel : nat) (a b : dmap) : option dmap :=
  match fuel with
  | O => None
  | S fuel' =>
      if same_kind a b then
        if dmap_eqb a b then
          match a, b with
          | Vector k x, Vector j _ => Some (Vector (k + j) x)
          | _, _ => Some (Vector 2 a)
          end
        else match a, b with
             | Complex la, Complex lb =>
                 match rev la, lb with
                 | xa :: ra, xb :: rb =>
                     do m <- dmul fuel' xa xb;
                     Some (Complex (rev ra ++ spaces_of m ++ rb))
                 | _, _ => Some (Complex (la ++ lb))
                 end
             | _, _ => Some (Complex [a; b])
             end
      else
        match a, b with
        | Complex la, _ =>
            match rev la with
            | [] => None
            | xa :: ra => do m <- dmul fuel' xa b; Some (Complex (rev ra ++ spaces_of m))
            end
        | _, Complex lb =>
            match lb with
            | [] => None
            | xb :: rb => do m <- dmul fuel' a xb; Some (Complex (spaces_of m ++ rb))
            end
        | Vector k x, _ => if dmap_eqb x b then Some (Vector (k + 1) x) else Some (Complex [a; b])
        | _, Vector j y => if dmap_eqb y a then Some (Vector (j + 1) y) else Some (Complex [a; b])
        | _, _ => Some (Complex [a; b])
        end
  end.
Fixpoint dsize (d : dmap) : nat :=
  match d with Unite _ _ => 1 | Vector _ b => S (dsize b) | Complex l => S (list_sum (map dsize l)) end.
Definition dmap_mul (a b : dmap) : option dmap := dmul (dsize a + dsize b) a b.
(** operator^ and pow, cpp:892-903 *)
Definition dmap_pow (d : dmap) (k : nat) : dmap := Vector k d.
Definition dmap_xor (d : dmap) (k : nat) : dmap :=
  match d with Vector j b => Vector (j * k) b | _ => Vector k d end.
(** merge and merge_with_simplifications, cpp:905-919 *)
Definition dmap_merge (l : list dmap) : dmap := Complex l.
Definition dmap_merge_simpl (l : list dmap) : option dmap :=
  match l with
  | [] => None
  | x :: r => fold_left (fun acc y => do a <- acc; dmap_mul a y) r (Some x)
  end.
(** ComplexDofMap::PushBack, cpp:606-625 *)
Definition push_back (d : dmap) (x : dmap) : option dmap :=
  match d with Complex l => Some (Complex (l ++ [x])) | _ => None end.
