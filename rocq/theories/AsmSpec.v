(** What a user of the assembler expects: the matrix receives the sum over the
    cells of the element matrices, the right-hand side the sum of the element
    vectors, both with the signs of the oriented dofs. *)
From Verif Require Import Prelude RSum AsmModel.
From Coq Require Import Reals Sorted Permutation.
Open Scope R_scope.

Definition lsum (l : list R) : R := fold_right Rplus 0 l.

(** *** A sparse row as a function of the column *)
Definition cols (q : row) : list nat := map fst q.
Definition entry (q : row) (c : nat) : R := lsum (map snd (filter (fun x => (fst x =? c)%nat) q)).

(** Entry (r, c) of the locally stored rows beg, beg+1, ... *)
Definition row_of (beg : nat) (m : list row) (r : nat) : row := nth (r - beg) m [].
Definition mat_at (beg : nat) (m : list row) (r c : nat) : R := entry (row_of beg m r) c.
Definition vec_at (beg : nat) (v : list R) (r : nat) : R := nth (r - beg) v 0.

(** *** One cell: number, sign and owner of local dof i; element matrix and vector *)
Definition dof (e : cell) (i : nat) : nat := nth i (c_dof e) 0%nat.
Definition sgn (e : cell) (i : nat) : R := if nth i (c_flip e) false then -1 else 1.
Definition owned (e : cell) (i : nat) : bool := negb (nth i (c_ghost e) true).
Definition mat (n : nat) (e : cell) (i j : nat) : option R := nth (j * n + i) (c_A e) None.
Definition vec (e : cell) (i : nat) : option R := nth i (c_F e) None.
Definition in_mask (n : nat) (e : cell) (i j : nat) : bool := nth (j * n + i) (c_mask e) false.

(** An element-matrix entry takes part when it is in the mask and larger than the drop tolerance. *)
Definition kept (drop : R) (n : nat) (e : cell) (i j : nat) : bool :=
  in_mask n e i j &&
  match mat n e i j with Some x => if Rlt_dec drop (Rabs x) then true else false | None => false end.

(** Contribution of the rows of a cell this process owns. *)
Definition contribution (drop : R) (n : nat) (e : cell) (r c : nat) : R :=
  Rsum n (fun i => Rsum n (fun j =>
    if owned e i && (dof e i =? r)%nat && (dof e j =? c)%nat && kept drop n e i j
    then sgn e i * sgn e j * value (mat n e i j) else 0)).
Definition load (n : nat) (e : cell) (r : nat) : R :=
  Rsum n (fun i => if owned e i && (dof e i =? r)%nat then sgn e i * value (vec e i) else 0).

(** Positions of the matrix a cell touches. *)
Definition touches (drop : R) (n : nat) (e : cell) (r c : nat) : Prop :=
  exists i j, (i < n)%nat /\ (j < n)%nat /\ owned e i = true /\ dof e i = r /\ dof e j = c /\ kept drop n e i j = true.
Definition touches_mask (n : nat) (e : cell) (r c : nat) : Prop :=
  exists i j, (i < n)%nat /\ (j < n)%nat /\ owned e i = true /\ dof e i = r /\ dof e j = c /\ in_mask n e i j = true.

(** *** Meaningful input *)

(** The tables of a cell have the size of the problem, its dofs have numbers below
    the size of the matrix, and those this process owns lie in its interval. *)
Definition cell_ok (p : prob) (rows : nat) (e : cell) : Prop :=
  length (c_dof e) = p_n p /\ length (c_flip e) = p_n p /\ length (c_ghost e) = p_n p /\
  length (c_A e) = (p_n p * p_n p)%nat /\ length (c_mask e) = (p_n p * p_n p)%nat /\ length (c_F e) = p_n p /\
  (forall i, (i < p_n p)%nat -> (dof e i < p_size p)%nat) /\
  (forall i, (i < p_n p)%nat -> owned e i = true -> (p_beg p <= dof e i < p_beg p + rows)%nat).

(** Numbers that are used are finite. *)
Definition row_finite (n : nat) (e : cell) (i : nat) : Prop :=
  vec e i <> None /\ forall j, (j < n)%nat -> in_mask n e i j = true -> mat n e i j <> None.
Definition cell_finite (n : nat) (e : cell) : Prop :=
  forall i, (i < n)%nat -> owned e i = true -> row_finite n e i.

Definition sorted (q : row) : Prop := StronglySorted lt (cols q).

(** The stored matrix keeps the promises made by the options: no column twice in a
    row; columns increasing when is_mtx_sorted; and when the positions are declared
    to be present, every position some cell touches is. *)
Definition matrix_ok (p : prob) (o : opts) (cells : list cell) (m : list row) : Prop :=
  (forall q, In q m -> NoDup (cols q)) /\
  (is_mtx_sorted o = true -> forall q, In q m -> sorted q) /\
  (use_ordered_insert o = true -> is_mtx_include_template o = true ->
   forall e r c, In e cells -> touches (drop_val o) (p_n p) e r c -> In c (cols (row_of (p_beg p) m r))).

Definition input_ok (p : prob) (o : opts) (cells : list cell) (s : state) : Prop :=
  let (m, rhs) := s in
  length rhs = length m /\
  (forall e, In e cells -> cell_ok p (length m) e) /\
  (use_ordered_insert o = true -> forall e, In e cells -> NoDup (c_dof e)) /\
  (p_same p = false -> forall e i, In e cells -> (i < p_n p)%nat -> owned e i = true) /\
  matrix_ok p o cells m.

(** *** What assembly must produce *)
Definition assembled (p : prob) (o : opts) (cells : list cell) (s s' : state) : Prop :=
  let (m, rhs) := s in let (m', rhs') := s' in
  length m' = length m /\ length rhs' = length rhs /\
  (forall r c, (p_beg p <= r < p_beg p + length m)%nat ->
     mat_at (p_beg p) m' r c = mat_at (p_beg p) m r c + lsum (map (fun e => contribution (drop_val o) (p_n p) e r c) cells)) /\
  (forall r, (p_beg p <= r < p_beg p + length m)%nat ->
     vec_at (p_beg p) rhs' r = vec_at (p_beg p) rhs r + lsum (map (fun e => load (p_n p) e r) cells)).

(** Stored positions: those of before, the diagonal, and the touched ones. *)
Definition positions (p : prob) (o : opts) (cells : list cell) (m m' : list row) : Prop :=
  (forall q, In q m' -> NoDup (cols q)) /\
  (use_ordered_insert o = true -> forall q, In q m' -> sorted q) /\
  (forall r c, (p_beg p <= r < p_beg p + length m)%nat ->
     In c (cols (row_of (p_beg p) m' r)) <->
     (In c (cols (row_of (p_beg p) m r)) \/ (is_mtx_include_template o = false /\ c = r) \/
      exists e, In e cells /\ touches (drop_val o) (p_n p) e r c)).

(** Adding the positions only: no entry changes, the columns of every row increase,
    and every position in the mask of a cell (and the diagonal) is present. *)
Definition template_of (p : prob) (cells : list cell) (m m' : list row) : Prop :=
  length m' = length m /\
  (forall q, In q m' -> sorted q) /\
  (forall r c, (p_beg p <= r < p_beg p + length m)%nat -> mat_at (p_beg p) m' r c = mat_at (p_beg p) m r c) /\
  (forall r c, (p_beg p <= r < p_beg p + length m)%nat ->
     In c (cols (row_of (p_beg p) m' r)) <->
     (In c (cols (row_of (p_beg p) m r)) \/ c = r \/ exists e, In e cells /\ touches_mask (p_n p) e r c)).

(** *** Several processes

    What process with rows [beg, beg + rows) sees of a cell of the mesh: the dofs
    outside its interval belong to ghost entities. *)
Definition view (beg rows : nat) (g : cell) : cell :=
  mkCell (c_dof g) (c_flip g) (map (fun d => negb ((beg <=? d) && (d <? beg + rows))%nat) (c_dof g)) (c_A g) (c_F g) (c_mask g).

(** Contribution of a cell to the matrix of the whole problem. *)
Definition global_contribution (drop : R) (n : nat) (g : cell) (r c : nat) : R :=
  Rsum n (fun i => Rsum n (fun j =>
    if (dof g i =? r)%nat && (dof g j =? c)%nat && kept drop n g i j
    then sgn g i * sgn g j * value (mat n g i j) else 0)).
Definition global_load (n : nat) (g : cell) (r : nat) : R :=
  Rsum n (fun i => if (dof g i =? r)%nat then sgn g i * value (vec g i) else 0).

(** [here] are the cells of the mesh this process stores: together with cells none
    of whose dofs it owns they are all the cells. *)
Definition stores (p : prob) (rows : nat) (mesh here : list cell) : Prop :=
  exists others, List.Forall (fun g => forall i, (i < p_n p)%nat -> ~ (p_beg p <= dof g i < p_beg p + rows)%nat) others /\
  Permutation.Permutation mesh (here ++ others).
