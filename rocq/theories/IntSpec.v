(** What interpolation on a composite space should be: C41, C48. *)
From Verif Require Import Prelude RSum GeoModel GeoSpec DenseSpec BasModel BasSpec IntModel.
Local Open Scope R_scope.

(** The value of dof i of the space for the vector function g: g X c is component c.
    A vector space takes component i / nfa of g; a product takes the components of the part that has
    dof i; a union combines the dofs of its members with the weights of row i. *)
Fixpoint cdof (s : isp) (Q : quads) (x : tetra) (i : nat) (g : vec -> nat -> R) : R :=
  match s with
  | IB s => dof_value s Q x g i 0
  | IV n s => cdof s Q x (i mod infa s) (fun X c => g X ((i / infa s) * idim s + c)%nat)
  | IC l =>
      (fix go l i sh := match l with
       | [] => 0
       | s :: r => if (i <? infa s)%nat then cdof s Q x i (fun X c => g X (sh + c)%nat) else go r (i - infa s)%nat (sh + idim s)%nat
       end) l i 0%nat
  | IU l W =>
      let nf := list_sum (map infa l) in
      Rsum nf (fun j => nth (i + nf * j) W 0 *
        (fix go l j := match l with [] => 0 | s :: r => if (j <? infa s)%nat then cdof s Q x j g else go r (j - infa s)%nat end) l j)
  end.
(** Component c of basis function i at the point y *)
Fixpoint ishape (s : isp) (x : tetra) (i c : nat) (y : nat -> R) : R :=
  match s with
  | IB s => shape s x i c y
  | IV n s => if (c / idim s =? i / infa s)%nat then ishape s x (i mod infa s) (c mod idim s) y else 0
  | IC l =>
      (fix go l i c := match l with
       | [] => 0
       | s :: r => if (i <? infa s)%nat then (if (c <? idim s)%nat then ishape s x i c y else 0)
                   else if (c <? idim s)%nat then 0 else go r (i - infa s)%nat (c - idim s)%nat
       end) l i c
  | IU l _ => (fix go l i := match l with [] => 0 | s :: r => if (i <? infa s)%nat then ishape s x i c y else go r (i - infa s)%nat end) l i
  end.
Definition basis_fun (s : isp) (x : tetra) (j : nat) : vec -> nat -> R := fun X c => ishape s x j c (of_vec X).
(** Function r of a family of fused functions of dimension d *)
Definition fun_of (d r : nat) (F : vec -> nat -> R) : vec -> nat -> R := fun X c => F X (r * d + c)%nat.
(** Components sh .. sh + ld of every function, as a family of fused functions *)
Definition part_of (gd sh ld : nat) (F : vec -> nat -> R) : vec -> nat -> R := fun X c => F X (gd * (c / ld) + sh + c mod ld)%nat.

(** The members of a union have one dimension; the weights form a square matrix without zero rows *)
Fixpoint iwf (s : isp) : Prop :=
  match s with
  | IB _ => True
  | IV _ s => iwf s
  | IC l => (fix all l := match l with [] => True | s :: r => iwf s /\ all r end) l
  | IU l W =>
      let nf := list_sum (map infa l) in
      (fix all l := match l with [] => True | s :: r => iwf s /\ all r end) l /\
      (forall s, In s l -> idim s = idim (IU l W)) /\ length W = (nf * nf)%nat /\
      (forall i, (i < nf)%nat -> exists j, (j < nf)%nat /\ nth (i + nf * j) W 0 <> 0)
  end.
(** Spaces without unions; all leaves are scalar spaces *)
Fixpoint flat (s : isp) : Prop :=
  match s with IB _ => True | IV _ s => flat s | IC l => (fix all l := match l with [] => True | s :: r => flat s /\ all r end) l | IU _ _ => False end.
Fixpoint leaves (P : fem -> bool) (s : isp) : Prop :=
  match s with
  | IB s => P s = true
  | IV _ s => leaves P s
  | IC l | IU l _ => (fix all l := match l with [] => True | s :: r => leaves P s /\ all r end) l
  end.
Definition scalar_space (s : fem) : bool := (fdim s =? 1)%nat.

(** Entries changed at the positions ids of one array *)
Definition set_at (ids : list nat) (v : nat -> R) (u u' : list R) : Prop :=
  length u' = length u /\ forall j, (In j ids -> rd u' j = Some (v j)) /\ (~ In j ids -> rd u' j = rd u j).
Definition increasing (ids : list nat) : Prop := forall a b, (a < b < length ids)%nat -> (nth a ids 0 < nth b ids 0)%nat.
