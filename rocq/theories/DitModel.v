(** Random access iterator over all dofs of a map: fem/tetdofmap.h:373-413,
    fem/tetdofmap.cpp:29-30.  The map is given by its record function (LocalOrderOnTet) and its
    number of dofs. Numbers are 32-bit unsigned, differences 32-bit signed. *)
From Verif Require Import Prelude DofModel.
Local Open Scope Z_scope.

Definition M32 : Z := 2 ^ 32.
(* h:375-376 the record; no geometric part ([None]) when etype is UNDEF *)
Record dof_iter := It { it_gid : Z; it_geom : option LocalOrder }.
(* h:386-400 ++, --, +=, -=, +, - : move by n and forget the geometric part (BrokeGeomOrd) *)
Definition it_move (n : Z) (i : dof_iter) : dof_iter := It ((it_gid i + n) mod M32) None.
(* h:392-393, 410-412 operator* with RepairGeomOrd: the number of the record is put back *)
Definition it_deref (order : nat -> option LocalOrder) (num : nat) (i : dof_iter) : option (LocalOrder * dof_iter) :=
  match it_geom i with
  | Some lo => Some (lo, i)
  | None =>
      do _ <- guard (it_gid i <? Z.of_nat num);
      do lo <- order (Z.to_nat (it_gid i));
      let lo' := LO (Z.to_nat (it_gid i)) (lo_type lo) (lo_elem lo) (lo_leid lo) (lo_sym lo) in
      Some (lo', It (it_gid i) (Some lo'))
  end.
(* cpp:29-30 *)
Definition it_begin : dof_iter := It 0 None.
Definition it_end (num : nat) : dof_iter := It (Z.of_nat num mod M32) None.
(* h:390 *)
Definition it_eq (a b : dof_iter) : bool := it_gid a =? it_gid b.
(* h:395 difference_type is int *)
Definition it_minus (a b : dof_iter) : Z := let u := (it_gid a - it_gid b) mod M32 in if u <? 2 ^ 31 then u else u - M32.
(* h:403-406 *)
Definition it_lt (a b : dof_iter) : bool := it_gid a <? it_gid b.
Inductive it_op := Move (n : Z) | Deref.
Fixpoint it_run (order : nat -> option LocalOrder) (num : nat) (ops : list it_op) (i : dof_iter) : option (list LocalOrder) :=
  match ops with
  | [] => Some []
  | Move n :: r => it_run order num r (it_move n i)
  | Deref :: r => do x <- it_deref order num i; do l <- it_run order num r (snd x); Some (fst x :: l)
  end.
(* for (auto it = map.begin(); it != map.end(); ++it), at most [fuel] visits *)
Fixpoint it_walk (order : nat -> option LocalOrder) (num fuel : nat) (i : dof_iter) : option (list LocalOrder) :=
  if it_eq i (it_end num) then Some []
  else match fuel with
       | O => None
       | S f => do x <- it_deref order num i; do l <- it_walk order num f (it_move 1 (snd x)); Some (fst x :: l)
       end.
