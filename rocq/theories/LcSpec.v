(** What the header of the enumerators documents. *)
From Coq Require Import String.
From Verif Require Import Prelude EnumModel LcModel.
Open Scope nat_scope.

(** global_enumerator.h:394-401 "ordered as": attributes of dofs (OeSpec), the first is compared first *)
Definition documented (t : kind) : option (list nat) :=
  match t with
  | KNatural => Some [0; 1; 2; 3; 4]       (* VAR DIM ELEM_TYPE ELEM_ID DOF_ID *)
  | KDimUnion => Some [0; 2; 3; 4; 1]      (* VAR ELEM_TYPE ELEM_ID DOF_ID DIM *)
  | KByElemType => Some [2; 0; 1; 3; 4]    (* ELEM_TYPE VAR DIM ELEM_ID DOF_ID *)
  | KEtDimBlocks => Some [2; 0; 3; 4; 1]   (* ELEM_TYPE VAR ELEM_ID DOF_ID DIM *)
  | _ => None
  end.
(** A name generated by a call with the counter below num *)
Definition generated (num : nat) (n : string) : Prop := exists k d, k < num /\ d < 4 /\ n = ("_GenEnum" ++ to_string k ++ postfix d)%string.
(** A name that no call generates *)
Definition foreign (n : string) : Prop := forall k d, d < 4 -> n <> ("_GenEnum" ++ to_string k ++ postfix d)%string.
(** A history of a process: enumerators set up and destroyed *)
Inductive event := SetUp (l : list DofModel.dmap) | Destroy (k : nat).
Definition run_event (fuel : nat) (e : event) (st : list string * nat) : option (list string * nat) :=
  match e with SetUp l => setup_names l fuel st | Destroy k => Some (delete_tags ("_GenEnum" ++ to_string k)%string (fst st), snd st) end.
Fixpoint run (fuel : nat) (h : list event) (st : list string * nat) : option (list string * nat) :=
  match h with [] => Some st | e :: h => do st <- run_event fuel e st; run fuel h st end.
