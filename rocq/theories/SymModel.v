(** Model of the placement of symmetric dofs under a renumbering of the vertices:
    anifem++/fem/tetdofmap.inl:98-356 (DofSymmetries::index_on_reorderd_elem and
    namespace S4), anifem++/inmost_interface/ordering.inl:137-219
    (createOrderPermutation, getDOFLocus, getDOFLocusOnElement) and the index
    table of anifem++/inmost_interface/assembler.inl:139-168.

    Simplifications: unsigned char values are natural numbers (all values stay
    below 256); the hash is computed without wrap-around ([None] if it would be
    negative); a read outside a table is [None]. *)
From Verif Require Import Prelude DofModel.

(* inl:102, 155 and 171 lookup_nds *)
Definition edge_nds : list nat := [0; 1; 0; 2; 0; 3; 1; 2; 1; 3; 2; 3].
(* inl:118 lookup_inds *)
Definition look_f6 : list nat := [0;1;2; 1;2;0; 2;0;1; 0;2;1; 2;1;0; 1;0;2].
(* inl:132-134 lookup_inds_s6 *)
Definition look_s6 : list nat := [0;0;1;1; 0;1;0;1; 1;0;0;1; 0;1;1;0; 1;0;1;0; 1;1;0;0].
(* inl:136-139 lookup_inds_s12 *)
Definition look_s12 : list nat :=
  [1;2;0;0; 2;0;1;0; 0;1;2;0; 1;0;2;0; 0;2;1;0; 2;1;0;0;
   2;0;0;1; 0;1;0;2; 1;0;0;2; 0;2;0;1; 0;0;2;1; 0;0;1;2].
(* inl:142-147 lookup_inds_s24 *)
Definition look_s24 : list nat :=
  [0;1;2;3; 1;2;0;3; 2;0;1;3; 0;2;1;3; 2;1;0;3; 1;0;2;3;
   0;1;3;2; 1;2;3;0; 2;0;3;1; 0;2;3;1; 2;1;3;0; 1;0;3;2;
   0;3;1;2; 1;3;2;0; 2;3;0;1; 0;3;2;1; 2;3;1;0; 1;3;0;2;
   3;0;1;2; 3;1;2;0; 3;2;0;1; 3;0;2;1; 3;2;1;0; 3;1;0;2].
(* inl:148-150 *)
Definition quick_s6 : list nat := [0; 25; 1; 3; 25; 25; 2; 4; 25; 5].
Definition quick_s12 : list nat := [5; 0; 1; 25; 4; 3; 2; 6; 25; 9; 25; 25; 25; 10; 25; 8; 7; 25; 11].
Definition quick_s24 : list nat :=
  [22; 19; 25; 25; 25; 16; 25; 10; 20; 25; 21; 13; 7; 14; 25; 25; 8; 23; 18; 25; 25; 25; 25; 25; 25;
   15; 9; 17; 25; 25; 11; 4; 2; 12; 25; 6; 1; 25; 5; 25; 25; 25; 3; 0].

(* inl:107-114: replace three different values by their ranks *)
Definition tria_ranks (t0 : list nat) : option (list nat) :=
  do ij <- for_range 1 2 (fun k '(i, j) =>
              do tk <- rd t0 k; do ti <- rd t0 i; do tj <- rd t0 j;
              if tk <? ti then Some (k, j) else if tj <? tk then Some (i, k) else Some (i, j)) (0, 0);
  let '(i, j) := ij in
  do t1 <- wr t0 i 0; do t2 <- wr t1 j 2; do _ <- guard (i + j <=? 3); wr t2 (3 - (i + j)) 1.

(* x - y on a hash that the code expects to be non-negative *)
Definition sub_chk (x y : nat) : option nat := do _ <- guard (y <=? x); Some (x - y).

(* inl:157-165 for cells: spread the pattern, hash it, look the hash up *)
Definition cell_index (look quick : list nat) (hash : nat -> nat -> nat -> nat -> option nat)
    (l : nat) (perm : list nat) : option nat :=
  do f0 <- rd look (4 * l); do f1 <- rd look (4 * l + 1); do f2 <- rd look (4 * l + 2); do f3 <- rd look (4 * l + 3);
  let from := [f0; f1; f2; f3] in
  do to <- for_ 4 (fun k to => do p <- rd perm k; do f <- rd from k; wr to p f) [0; 0; 0; 0];
  do t0 <- rd to 0; do t1 <- rd to 1; do t2 <- rd to 2; do t3 <- rd to 3;
  do h <- hash t0 t1 t2 t3;
  rd quick h.

(** DofSymmetries::index_on_reorderd_elem, inl:98-166.  [t] is the number of the
    geometric type (0 NODE .. 5 CELL), [e] nelem, [c] sym_num, [l]
    loc_symmetry_ind.  Nodes have one class only (c = 0). *)
Definition index_on (t e c l : nat) (perm : list nat) : option nat :=
  if c =? 0 then Some l
  else match geom_dim t with
  | 0 => None  (* a node has no class c > 0; the code would treat it as a cell *)
  | 1 =>
      do a <- rd edge_nds (2 * e); do b <- rd edge_nds (2 * e + 1);
      do pa <- rd perm a; do pb <- rd perm b;
      Some (if pa <? pb then l else (l + 1) mod 2)
  | 2 =>
      do p0 <- rd perm e; do p1 <- rd perm ((e + 1) mod 4); do p2 <- rd perm ((e + 2) mod 4);
      do tria <- tria_ranks [p0; p1; p2];
      if c =? 1 then rd tria l
      else
        do f0 <- rd look_f6 (3 * l); do f1 <- rd look_f6 (3 * l + 1); do f2 <- rd look_f6 (3 * l + 2);
        let from := [f0; f1; f2] in
        do to <- for_ 3 (fun k to => do p <- rd tria k; do f <- rd from k; wr to p f) [0; 0; 0];
        do change <- for_ 3 (fun k n => do x <- rd to k; do y <- rd to ((k + 1) mod 3);
                                        Some (if y <? x then S n else n)) 0;
        if change =? 1 then rd to 0 else do t1 <- rd to 1; sub_chk 5 t1
  | _ =>
      if c =? 1 then rd perm l
      else if c =? 2 then cell_index look_s6 quick_s6 (fun a b c d => sub_chk (d + 2 * c + 4 * b + 8 * a) 3) l perm
      else if c =? 3 then cell_index look_s12 quick_s12 (fun a b c d => sub_chk (a + 2 * b + 4 * c + 8 * d + d) 4) l perm
      else if c =? 4 then cell_index look_s24 quick_s24 (fun _ b c d => sub_chk (5 * b + 6 * c + 14 * d) 16) l perm
      else None
  end.

(** createOrderPermutation, ordering.inl:137-151, for integer identifiers. *)
Definition lookup_rest : list nat := [2;3; 1;3; 1;2; 0;3; 0;2; 0;1].
Definition order_permutation (g : list Z) : option (list nat) :=
  do ij <- for_range 1 3 (fun k '(i, j) =>
              do gk <- rd g k; do gi <- rd g i; do gj <- rd g j;
              if (gk <? gi)%Z then Some (k, j) else if (gj <? gk)%Z then Some (i, k) else Some (i, j)) (0, 0);
  let '(i, j) := ij in
  do p1 <- wr [0; 0; 0; 0] i 0; do p2 <- wr p1 j 3;
  do q <- sub_chk (i + j + (if 0 <? Nat.min i j then 1 else 0)) 1;
  do a <- rd lookup_rest (2 * q); do b <- rd lookup_rest (2 * q + 1);
  do ga <- rd g a; do gb <- rd g b;
  if (ga <? gb)%Z then do p3 <- wr p2 a 1; wr p3 b 2
  else do p3 <- wr p2 a 2; wr p3 b 1.

(** Where a dof of a cell is stored: the data index of getDOFLocus,
    ordering.inl:172-193, with the default identity local indices: the position
    of the class orbit plus the reordered index.  [lo] has a symmetry label. *)
Definition oriented (t : nat) : bool := (t =? 2) || (t =? 4).
Definition locus_index (d : dmap) (lo : LocalOrder) (perm : list nat) : option nat :=
  let shift := if oriented (lo_type lo) then num_dof d (lo_type lo - 1) else 0 in
  do cl <- lo_sym lo;
  do r <- index_on (lo_type lo) (lo_elem lo) (fst cl) (snd cl) perm;
  Some (shift + (lo_leid lo - snd cl) + r).

(** The index table of the assembler, assembler.inl:148-168: for every local dof
    i in turn, slot i - lsid + reordered(lsid) receives the number of the dof at
    the element position lde_id of dof i.  [numb] gives that number from the dof
    i (compute_order_from_nat_index), the sign is dropped.  Slots never written
    keep the initial value [None]. *)
Definition asm_slot (perm : list nat) (i : nat) (lo : LocalOrder) : option nat :=
  do cl <- lo_sym lo;
  do r <- index_on (lo_type lo) (lo_elem lo) (fst cl) (snd cl) perm;
  do b <- sub_chk i (snd cl);
  Some (b + r).
Definition asm_table {A} (d : dmap) (perm : list nat) (numb : LocalOrder -> A) : option (list (option A)) :=
  for_ (num_dof_tet d) (fun i tab =>
    do lo <- local_order d i;
    do s <- asm_slot perm i lo;
    wr tab s (Some (numb lo))) (repeat None (num_dof_tet d)).

(** *** namespace S4, inl:168-356 *)
(* inl:170-173 *)
Definition edge_vertex (e k : nat) : option nat := rd edge_nds (2 * e + k).
(* inl:174-177 *)
Definition face_vertex (f k : nat) : option nat := rd [0; 1; 2; 1; 2; 3; 0; 2; 3; 0; 1; 3] (3 * f + k).
(* inl:178-188; [None] is the answer uchar(-1) *)
Definition find_edge_elem (a b : nat) : option nat :=
  if (3 <? a) || (3 <? b) then None
  else do x <- rd [None; Some 0; Some 1; Some 2;  Some 0; None; Some 3; Some 4;
                   Some 1; Some 3; None; Some 5;  Some 2; Some 4; Some 5; None] (a * 4 + b); x.
(* inl:189-197 *)
Definition find_face_elem (a b c : nat) : option nat :=
  if (3 <? a) || (3 <? b) || (3 <? c) then None
  else if (a =? b) || (a =? c) || (b =? c) then None
  else rd [1; 2; 3; 0] (6 - a - b - c).
(* inl:217-234: the image of the entity and of the label *)
Definition remap_elem (t e : nat) (sigma : list nat) : option nat :=
  match geom_dim t with
  | 0 => rd sigma e
  | 1 => do a <- edge_vertex e 0; do b <- edge_vertex e 1;
         do sa <- rd sigma a; do sb <- rd sigma b; find_edge_elem sa sb
  | 2 => do a <- face_vertex e 0; do b <- face_vertex e 1; do c <- face_vertex e 2;
         do sa <- rd sigma a; do sb <- rd sigma b; do sc <- rd sigma c; find_face_elem sa sb sc
  | _ => Some e
  end.
(** remap_local_order keeps only type, entity and label (gid and leid are set to
    -1); the label is kept as is when it is unset. *)
Definition label : Type := nat * nat * option (nat * nat).
Definition label_of (lo : LocalOrder) : label := (lo_type lo, lo_elem lo, lo_sym lo).
Definition remap_label (x : label) (sigma : list nat) : option label :=
  let '(t, e, s) := x in
  do e' <- remap_elem t e sigma;
  match s with
  | None => Some (t, e', None)
  | Some (c, l) => do l' <- index_on t e c l sigma; Some (t, e', Some (c, l'))
  end.
(* inl:214-216 *)
Definition osym_eqb (a b : option (nat * nat)) : bool :=
  match a, b with
  | None, None => true
  | Some (c, l), Some (c', l') => (c =? c') && (l =? l')
  | _, _ => false
  end.
Definition label_eqb (a b : label) : bool :=
  let '(t, e, s) := a in let '(t', e', s') := b in
  (t =? t') && (e =? e') && osym_eqb s s'.
(* inl:235-242; [None] is -1 *)
Definition find_tet_dof (d : dmap) (x : label) : option nat :=
  find (fun j => match local_order d j with Some lo => label_eqb (label_of lo) x | None => false end)
       (seq 0 (num_dof_tet d)).
(* inl:250-264 *)
Definition perm_sign (t e : nat) (sigma : list nat) : option Z :=
  match t with
  | 2 => do a <- edge_vertex e 0; do b <- edge_vertex e 1;
         do sa <- rd sigma a; do sb <- rd sigma b; Some (if sa <? sb then 1%Z else (-1)%Z)
  | 4 => do a <- face_vertex e 0; do b <- face_vertex e 1; do c <- face_vertex e 2;
         do sa <- rd sigma a; do sb <- rd sigma b; do sc <- rd sigma c;
         let inv := (if sb <? sa then 1 else 0) + (if sc <? sa then 1 else 0) + (if sc <? sb then 1 else 0) in
         Some (if inv mod 2 =? 0 then 1%Z else (-1)%Z)
  | _ => Some 1%Z
  end.
(** One column of build_dof_permutation, inl:243-267: the row of the only
    non-zero entry and its value; [Some None] is a column of zeros (new_j < 0). *)
Definition perm_column (d : dmap) (sigma : list nat) (j : nat) : option (option (nat * Z)) :=
  do lo <- local_order d j;
  do x <- remap_label (label_of lo) sigma;
  match find_tet_dof d x with
  | None => Some None
  | Some nj => do s <- perm_sign (lo_type lo) (lo_elem lo) sigma; Some (Some (nj, s))
  end.
(** build_dof_permutation itself: n*n values, column-major. *)
Definition build_perm (d : dmap) (sigma : list nat) : option (list Z) :=
  let n := num_dof_tet d in
  for_ n (fun j P => do c <- perm_column d sigma j;
                     match c with None => Some P | Some (nj, s) => wr P (nj + j * n) s end)
       (repeat 0%Z (n * n)).

(* inl:332-351 perm_vertex_to_repr *)
Definition swap4 (i j : nat) : list nat :=
  map (fun k => if k =? i then j else if k =? j then i else k) [0; 1; 2; 3].
Definition perm_to_repr (t e : nat) : option (list nat) :=
  match geom_dim t with
  | 0 => Some (swap4 0 e)
  | 1 => do a <- edge_vertex e 0; do b <- edge_vertex e 1;
         Some (a :: b :: filter (fun x => negb ((x =? a) || (x =? b))) [0; 1; 2; 3])
  | 2 => do a <- face_vertex e 0; do b <- face_vertex e 1; do c <- face_vertex e 2;
         Some (a :: b :: c :: filter (fun x => negb ((x =? a) || (x =? b) || (x =? c))) [0; 1; 2; 3])
  | _ => Some [0; 1; 2; 3]
  end.
(* inl:286-331 stabilizer_data: the generators *)
Definition stab_gens (t e : nat) : option (list (list nat)) :=
  match geom_dim t with
  | 0 => match filter (fun x => negb (x =? e)) [0; 1; 2; 3] with
         | [a; b; c] => Some [swap4 a b; swap4 b c]
         | [a; b] => Some [swap4 a b]
         | _ => Some []
         end
  | 1 => do a <- edge_vertex e 0; do b <- edge_vertex e 1;
         match filter (fun x => negb ((x =? a) || (x =? b))) [0; 1; 2; 3] with
         | [p; q] => Some [swap4 a b; swap4 p q]
         | _ => Some [swap4 a b]
         end
  | 2 => do a <- face_vertex e 0; do b <- face_vertex e 1; do c <- face_vertex e 2;
         Some [swap4 a b; swap4 b c]
  | _ => Some [[1; 0; 2; 3]; [0; 2; 1; 3]]
  end.
(* inl:268-285 stabilizer_character *)
Definition stab_char (g : list nat) (t e : nat) : option Z :=
  match t with
  | 2 => do a <- edge_vertex e 0; do b <- edge_vertex e 1;
         do ga <- rd g a; do gb <- rd g b; Some (if (ga =? b) && (gb =? a) then (-1)%Z else 1%Z)
  | 4 => do a <- face_vertex e 0; do b <- face_vertex e 1; do c <- face_vertex e 2;
         do ga <- rd g a; do gb <- rd g b; do gc <- rd g c;
         let rk x := if x =? a then 0 else if x =? b then 1 else 2 in
         let inv := (if rk gb <? rk ga then 1 else 0) + (if rk gc <? rk ga then 1 else 0) +
                    (if rk gc <? rk gb then 1 else 0) in
         Some (if inv mod 2 =? 0 then 1%Z else (-1)%Z)
  | _ => Some 1%Z
  end.
