(** Maps from GlobalIDs to elements of a process.
    Sources: inmost_interface/global_enumerator.cpp (cpp), global_enumerator.h (h).
    long and integer are nat; the mesh gives states and GlobalIDs of the local IDs (GwModel), [w_total] is TotalNumberOf.
    HaveGlobalID and AssignGlobalID (cpp:494-500) are not modelled: the GlobalIDs are assigned. *)
From Verif Require Import Prelude DofModel EnumModel GwModel CpModel.

Record world := World { w_mesh : mesh; w_gid : nat -> nat -> nat; w_total : nat -> nat }.
(** cpp:504, 518: local IDs of the elements of a dimension that are not ghosts, in the order of BeginElement *)
Definition own (w : world) (d : nat) : list nat := filter (is_owned (w_mesh w) d) (seq 0 (length (w_mesh w d))).
Definition gids (w : world) (d : nat) : list nat := map (w_gid w d) (own w d).
(** cpp:501-512 BegElemID and EndElemID; the start -1 of EndElemID is 0, below every GlobalID + 1 *)
Definition beg_id (w : world) (d : nat) : nat := beg_elem (w_total w d) (gids w d).
Definition end_id (w : world) (d : nat) : nat :=
  match gids w d with [] => w_total w d | g => fold_left (fun e g => if e <=? g then g + 1 else e) g 0 end.

(** Tags on the mesh, by dimension: contents of GidToLidMap and of ContToLidMap, or no tag *)
Record maps := Maps { back : nat -> option (list nat); cont : nat -> option (list Z) }.
Definition no_maps : maps := Maps (fun _ => None) (fun _ => None).
Definition upd {A} (f : nat -> A) (d : nat) (v : A) : nat -> A := fun e => if e =? d then v else f e.
(** resize of a variable size array: old cells are kept, the contents of new ones are not specified *)
Definition resize (a : list nat) (n : nat) (junk : nat -> nat) : list nat := firstn n a ++ map junk (seq (length a) (n - length a)).
(** cpp:514-522 *)
Definition fill_back (w : world) (d : nat) (junk : nat -> nat) (a : list nat) : option (list nat) :=
  do _ <- guard (beg_id w d <=? end_id w d);
  each (own w d) (fun i a => do _ <- guard (beg_id w d <=? w_gid w d i); wr a (w_gid w d i - beg_id w d) i) (resize a (end_id w d - beg_id w d) junk).

(** cpp:526: BeginElement(et) to EndElement, local IDs of the elements of all dimensions of the mask *)
Definition all_lids (w : world) (et : nat -> bool) : list Z :=
  flat_map (fun d => if et d then map Z.of_nat (filter (fun i => match status (w_mesh w) d i with Deleted => false | _ => true end) (seq 0 (length (w_mesh w d)))) else []) [0; 1; 2; 3].
(** cpp:532-538 *)
Fixpoint runs_loop (r : list Z) (cont_id : Z) (vals : list Z) (prev_val : Z) : list Z * Z :=
  match r with
  | [] => (vals, prev_val)
  | x :: r => let cont_id := (cont_id + 1)%Z in
      if (prev_val + 1 =? x)%Z then runs_loop r cont_id vals (prev_val + 1)%Z
      else runs_loop r cont_id (vals ++ [cont_id; x]) x
  end.
(** cpp:523-543 *)
Definition cont_runs (lids : list Z) : list Z :=
  match lids with
  | [] => []
  | x :: r =>
      let '(vals, prev_val) := runs_loop r 0 [0%Z; x] x in
      let lcnt := (prev_val - last vals 0 + 1)%Z in
      let cnt := (lcnt + nth (length vals - 2) vals 0)%Z in
      let vals := vals ++ [cnt] in
      vals ++ [(nth (length vals - 2) vals 0 + lcnt)%Z]
  end.

(** cpp:456-560 createGlobalToLocalIDMap(m, et, forced_update) *)
Definition create_maps (w : world) (et : nat -> bool) (forced : bool) (junk : nat -> nat) (s : maps) : option maps :=
  let missing d := match back s d, cont s d with Some _, Some _ => false | _, _ => true end in
  if forced || existsb (fun d => et d && missing d) [0; 1; 2; 3] then
    do s <- each (filter et [0; 1; 2; 3]) (fun d s => do a <- fill_back w d junk (match back s d with Some a => a | None => [] end); Some (Maps (upd (back s) d (Some a)) (cont s))) s;
    Some (Maps (back s) (fun d => if et d && (d <? 4) then Some (cont_runs (all_lids w et)) else cont s d))
  else Some s.
(** cpp:681, 710: setup of an enumerator does not force the update; the mask is getInmostVarElementType (cpp:607-613) *)
Definition var_mask (l : list dmap) (d : nat) : bool := (d <? 4) && (0 <? i_nd l d).
Definition setup_maps (l : list dmap) (w : world) (junk : nat -> nat) (s : maps) : option maps := create_maps w (var_mask l) false junk s.
(** cpp:791, 861: the element of the offset, glob_to_loc[d][off] *)
Definition element (s : maps) (d off : nat) : option nat := do a <- back s d; rd a off.
