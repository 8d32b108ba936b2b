(** Names of the index tags and the choice of the enumerator.
    Sources: inmost_interface/global_enumerator.cpp (cpp), global_enumerator.h (h).
    The tags of a mesh are a list of names.  [None] is an exception or undefined behaviour; unsigned int is nat. *)
From Coq Require Import String DecimalString.
From Verif Require Import Prelude DofModel EnumModel MpModel.
Open Scope string_scope.
Open Scope nat_scope.

(** std::to_string *)
Definition to_string (n : nat) : string := NilZero.string_of_uint (Nat.to_uint n).
Definition have (names : list string) (n : string) : bool := existsb (String.eqb n) names.
(** cpp:803-811 generateUniqueTagNamePrefix: the counter unique_num before the call; the name and the counter after it, at most
    [fuel] tries *)
Fixpoint generate (names : list string) (num fuel : nat) : option (string * nat) :=
  match fuel with
  | O => None
  | S f => let res := "_GenEnum" ++ to_string num in if have names res then generate names (num + 1) f else Some (res, num + 1)
  end.
(** cpp:672, 703 *)
Definition postfix (d : nat) : string := nth d ["_n_"; "_e_"; "_f_"; "_c_"] "".
(** cpp:685-699, 741-755: setup(prefix) creates a tag for every dimension with dofs, an existing name is an exception.  The
    enumerator is new: it has no tags to delete (cpp:685, 741) *)
Definition create_tags (l : list dmap) (prefix : string) (names : list string) : option (list string) :=
  fold_left (fun r d => do names <- r; if var_mask l d then do _ <- guard (negb (have names (prefix ++ postfix d))); Some ((prefix ++ postfix d) :: names) else Some names) [0; 1; 2; 3] (Some names).
(** h:350, 381 setup() *)
Definition setup_names (l : list dmap) (fuel : nat) (st : list string * nat) : option (list string * nat) :=
  do p <- generate (fst st) (snd st) fuel; do names <- create_tags l (fst p) (fst st); Some (names, snd p).
(** h:302-305, 317: the destructor deletes the tags with the prefix *)
Definition delete_tags (prefix : string) (names : list string) : list string :=
  filter (fun n => negb (existsb (fun d => String.eqb n (prefix ++ postfix d)) [0; 1; 2; 3])) names.

(** h:393-402 *)
Inductive kind := KAni | KMini | KNatural | KDimUnion | KByElemType | KEtDimBlocks | KNoSpecified.
(** The base enumerator: SimpleEnumerator, OrderedEnumerator with its arrangement, another one of the user *)
Inductive base := Simple (a : assembling) | Ordered (order : list nat) | User (id : nat).
(** h:403-404 *)
Record holder := Holder { invoker : option base; m_t : kind }.
Definition new_holder : holder := Holder None KNatural.
(** h:410 setAssemblingType: the check is of the type before the call *)
Definition set_type (h : holder) (t : kind) : option holder := match m_t h with KNoSpecified => None | _ => Some (Holder (invoker h) t) end.
(** h:412, 414 setBaseEnumerator with a pointer or a value *)
Definition set_base (h : holder) (b : base) : holder := Holder (Some b) (m_t h).
(** h:416 setBaseEnumerator<T>() *)
Definition set_base_new (h : holder) (b : base) : holder := Holder (Some b) KNoSpecified.
(** h:419 Clear *)
Definition clear (h : holder) : holder := Holder None (m_t h).
(** h:323-327 *)
Definition VAR := 0. Definition DIM := 1. Definition ELEM_TYPE := 2. Definition ELEM_ID := 3. Definition DOF_ID := 4.
(** cpp:866-880: the switch of setup, then the enumerator is used *)
Definition setup_holder (h : holder) : option holder :=
  let h := match m_t h with
    | KAni => Holder (Some (Simple ANITYPE)) (m_t h)
    | KMini => Holder (Some (Simple MINIBLOCKS)) (m_t h)
    | KNatural => Holder (Some (Ordered [VAR; DIM; ELEM_TYPE; ELEM_ID; DOF_ID])) (m_t h)
    | KDimUnion => Holder (Some (Ordered [VAR; ELEM_TYPE; ELEM_ID; DOF_ID; DIM])) (m_t h)
    | KByElemType => Holder (Some (Ordered [ELEM_TYPE; VAR; DIM; ELEM_ID; DOF_ID])) (m_t h)
    | KEtDimBlocks => Holder (Some (Ordered [ELEM_TYPE; VAR; ELEM_ID; DOF_ID; DIM])) (m_t h)
    | KNoSpecified => h
    end in
  do _ <- invoker h; Some h.
