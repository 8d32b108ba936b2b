(** Connectivity of a cell, orientation signs and renumbering of stored data.
    Source: inmost_interface/ordering.inl.  Handles are natural numbers; the mesh is
    given by LowConn of edges (two nodes) and faces (three edges). *)
From Verif Require Import Prelude DofModel SymModel.
From Coq Require Import Reals.

(* inl:85-88, 98-99, 105-106: last position of a node among the four *)
Definition find_node (nds : list nat) (h : nat) : option nat :=
  fold_left (fun r i => match nth_error nds i with Some x => if h =? x then Some i else r | None => r end) (seq 0 4) None.
(* inl:92 etc.: slot of the edge joining local nodes k and l, after the swap *)
Definition edge_slot (k l : nat) : option nat :=
  let a := Nat.min k l in let b := Nat.max k l in
  do _ <- guard (1 <=? b);
  Some (b - 1 + (if 0 <? a then a + 1 else 0)).

(** inl:78-118 one face: [flc] its edges, [n0], [n1] the nodes of its first two edges.
    Returns the edges array and the number of the face. *)
Definition face_step (nds flc : list nat) (n0 n1 : nat * nat) (edges : list nat) : option (list nat * nat) :=
  do f0 <- rd flc 0; do f1 <- rd flc 1; do f2 <- rd flc 2;
  (* inl:82-93 first edge *)
  do k <- find_node nds (fst n0); do l <- find_node nds (snd n0);
  do s0 <- edge_slot k l;
  do edges <- wr edges s0 f0;
  (* inl:95-112 second edge: [comp] says which node of the first edge is shared *)
  let comp := (if fst n1 =? fst n0 then 1 else 0) + (if fst n1 =? snd n0 then 2 else 0) in
  do kl <- (if 0 <? comp then
              do k1 <- rd [k; l] (comp - 1);
              do l1 <- find_node nds (snd n1);
              do p <- rd [k; l] (comp mod 2);
              Some (k1, l1, p, l1)
            else
              let comp := (if snd n1 =? fst n0 then 1 else 0) + (if snd n1 =? snd n0 then 2 else 0) in
              do _ <- guard (0 <? comp);
              do l1 <- rd [k; l] (comp - 1);
              do k1 <- find_node nds (fst n1);
              do p <- rd [k; l] (comp mod 2);
              Some (k1, l1, p, k1));
  let '(k1, l1, p, q) := kl in
  do s1 <- edge_slot k1 l1;
  do edges <- wr edges s1 f1;
  (* inl:114-117 third edge *)
  do s2 <- edge_slot p q;
  do edges <- wr edges s2 f2;
  let sum := k + l + (k1 + l1) + (p + q) in
  do d <- sub_chk 7 (sum / 2);
  Some (edges, d mod 4).

(** inl:37-118 collectConnectivityInfo with prepared edges and faces; [nodes] are the
    nodes after the optional reordering, [lc] the faces of the cell, [fe] edges of a face,
    [en] nodes of an edge; the initial contents of the output arrays are arbitrary. *)
Definition collect (nodes lc : list nat) (fe : nat -> list nat) (en : nat -> nat * nat) (edges faces : list nat) : option (list nat * list nat) :=
  do st <- for_ 3 (fun fi st =>
      let '(edges, faces, fsum) := st in
      do f <- rd lc fi;
      do e0 <- rd (fe f) 0; do e1 <- rd (fe f) 1;
      do r <- face_step nodes (fe f) (en e0) (en e1) edges;
      do faces <- wr faces (snd r) f;
      Some (fst r, faces, fsum + snd r)) (edges, faces, 0);
  let '(edges, faces, fsum) := st in
  do f3 <- rd lc 3;
  do i <- sub_chk 6 fsum;
  do faces <- wr faces i f3;
  Some (edges, faces).

(** inl:119-129 overload that converts handles into Node, Edge and Face objects: only the
    first four edges are converted, [None] is an object left as it was. *)
Definition collect_elems (nodes lc : list nat) (fe : nat -> list nat) (en : nat -> nat * nat) (edges faces : list nat)
    : option (list (option nat) * list (option nat)) :=
  do r <- collect nodes lc fe en edges faces;
  Some (map Some (firstn 4 (fst r)) ++ map (fun _ => None) (skipn 4 (fst r)), map Some (firstn 4 (snd r))).

(** inl:152-171 isPositivePermutationOrient for edges (types 1, 2), faces (3, 4), nodes, cells *)
Definition positive_orient (t e : nat) (perm : list nat) : option bool :=
  match geom_dim t with
  | 0 => Some true
  | 1 => do a <- rd edge_nds (2 * e); do b <- rd edge_nds (2 * e + 1);
         do pa <- rd perm a; do pb <- rd perm b; Some (pa <? pb)
  | 2 => do n <- for_ 3 (fun k n => do x <- rd perm ((e + k) mod 4); do y <- rd perm ((e + k + 1) mod 4);
                                   Some (if y <? x then S n else n)) 0;
         Some (n =? 1)
  | _ => do n <- for_ 4 (fun k n => do x <- rd perm k; do y <- rd perm ((k + 1) mod 4);
                                   Some (if y <? x then S n else n)) 0;
         Some (n =? 1)
  end.
(* inl:172-193 sign of getDOFLocus *)
Definition locus_sign (t e : nat) (perm : list nat) : option Z :=
  if oriented t then do b <- positive_orient t e perm; Some (if b then 1%Z else (-1)%Z) else Some 1%Z.

(** inl:8-26 reorderNodesOnTetrahedron on nodes with coordinates [crd] *)
Definition tet_det (c0 c1 c2 c3 : nat -> R) : R :=
  let m i j := (match i with 0 => c0 j | 1 => c1 j | _ => c2 j end - c3 j)%R in
  (0 + m 0%nat 0%nat * (m 1%nat 1%nat * m 2%nat 2%nat - m 1%nat 2%nat * m 2%nat 1%nat)
     + m 0%nat 1%nat * (m 1%nat 2%nat * m 2%nat 0%nat - m 1%nat 0%nat * m 2%nat 2%nat)
     + m 0%nat 2%nat * (m 1%nat 0%nat * m 2%nat 1%nat - m 1%nat 1%nat * m 2%nat 0%nat))%R.
Definition reorder_nodes {A} (crd : A -> nat -> R) (nodes : A * A * A * A) : A * A * A * A :=
  let '(a, b, c, d) := nodes in
  if Rlt_dec (tet_det (crd a) (crd b) (crd c) (crd d)) 0 then (a, b, d, c) else (a, b, c, d).

(** *** Renumbering of stored dofs *)
(* inl:199-219 getDOFLocusOnElement with the default local_node_index: data index and sign;
   entries above the dimension are replaced by max + 1, max + 2, ... *)
Definition pad_perm (dim : nat) (perm : list nat) : list nat :=
  let m := fold_left Nat.max (firstn (S dim) perm) 0 in
  firstn (S dim) perm ++ map (fun k => m + S k) (seq 0 (3 - dim)).
Definition elem_locus (d : dmap) (lo : LocalOrder) (perm : list nat) : option (nat * Z) :=
  let dim := geom_dim (lo_type lo) in
  let shift := if oriented (lo_type lo) then num_dof d (lo_type lo - 1) else 0 in
  let gni := pad_perm dim perm in
  do sg <- locus_sign (lo_type lo) 0 gni;
  do cl <- lo_sym lo;
  do r <- index_on (lo_type lo) 0 (fst cl) (snd cl) gni;
  Some (shift + (lo_leid lo - snd cl) + r, sg).
(* inl:376-379 the dofs of entity number 0 of the dimension; the order does not matter *)
Definition dofs_on0 (d : dmap) (dim : nat) : list nat :=
  filter (fun i => match local_order d i with Some lo => (geom_dim (lo_type lo) =? dim) && (lo_elem lo =? 0) | None => false end) (seq 0 (num_dof_tet d)).
(* inl:380-385 the table reord: data index and sign for every data index *)
Definition reord_table (d : dmap) (dim : nat) (perm : list nat) (n : nat) : option (list (nat * Z)) :=
  let is := dofs_on0 d dim in
  for_ (length is) (fun k tab =>
    do i <- rd is k;
    do lo <- local_order d i;
    let shift := if oriented (lo_type lo) then num_dof d (lo_type lo - 1) else 0 in
    do pos <- elem_locus d lo perm;
    wr tab (shift + lo_leid lo) pos) (repeat (0, 0%Z) n).
(* inl:366-374 positions of the old identifiers in the order of the new identifiers; [xs],
   [ys] are the old and new identifiers of the nodes of the element, big is LONG_MAX *)
Definition renum_perm (big : Z) (xs ys : list Z) : option (list nat) :=
  do q <- order_permutation (ys ++ repeat big (4 - length ys));
  do old <- for_ (length xs) (fun i o => do j <- rd q i; do x <- rd xs i; wr o j x) (repeat big 4);
  order_permutation old.
(* inl:389-398 new data of the element, one value per dof (block_sz = 1): the call
   std::for_each(.., negate) at 397 changes nothing *)
Definition renumber (d : dmap) (dim : nat) (big : Z) (xs ys : list Z) {A} (tv : list A) : option (list A) :=
  let n := match dim with 0 => num_dof d 0 | 1 => num_dof d 1 + num_dof d 2 | 2 => num_dof d 3 + num_dof d 4 | _ => num_dof d 5 end in
  do perm <- renum_perm big xs ys;
  do tab <- reord_table d dim perm n;
  do r <- for_ n (fun i r => do pos <- rd tab i; do _ <- guard (negb (snd pos =? 0)%Z); do v <- rd tv (fst pos); Some (r ++ [v])) [];
  Some (r ++ skipn n tv).
