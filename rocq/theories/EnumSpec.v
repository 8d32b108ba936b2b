(** Vocabulary for C17-C20. *)
From Verif Require Import Prelude DofModel DofSpec EnumModel.

(** The descriptions a user can write for a list of variables: an existing variable,
    one of its components, and a position among the dofs of that component on one
    entity of the given type. *)
Definition ncomp (b : dmap) : nat := match b with Vector k _ => k | _ => 1 end.
Definition per_comp (b : dmap) (t : nat) : nat := match b with Vector _ c => cnt c t | _ => cnt b t end.
Definition valid_desc (l : list dmap) (x : desc) : Prop :=
  x_type x < 6 /\ exists b, nth_error l (x_var x) = Some b /\ x_dim x < ncomp b /\ x_pos x < per_comp b (x_type x).

(** All descriptions living on one entity of dimension d, in the documented order:
    unoriented before oriented, then by variable, by component, by position. *)
Definition types_of_dim (d : nat) : list nat := nth d [[0]; [1; 2]; [3; 4]; [5]] [].
Definition descs_type (l : list dmap) (t : nat) : list desc :=
  flat_map (fun v => let b := nth v l (Complex []) in
    flat_map (fun c => map (fun p => Desc t v c p) (seq 0 (per_comp b t))) (seq 0 (ncomp b))) (seq 0 (length l)).
Definition descs (l : list dmap) (d : nat) : list desc := flat_map (descs_type l) (types_of_dim d).

(** The same for one variable. *)
Definition descs_var (l : list dmap) (v d : nat) : list desc :=
  flat_map (fun t => let b := nth v l (Complex []) in
    flat_map (fun c => map (fun p => Desc t v c p) (seq 0 (per_comp b t))) (seq 0 (ncomp b))) (types_of_dim d).

(** A process owns the elements g with beg d <= g < beg d + num d. *)
Definition owned (r : rank) (d g : nat) : Prop := d < 4 /\ r_beg r d <= g < r_beg r d + r_num r d.

(** Distribution of the elements of dimension d over the processes: process p owns
    [cnt p] elements with consecutive GlobalIDs, in the order of the processes (what
    AssignGlobalID produces), reported in any order. *)
Definition off (cnts : list nat) (p : nat) : nat := list_sum (firstn p cnts).
