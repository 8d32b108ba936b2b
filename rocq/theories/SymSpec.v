(** Specification vocabulary for symmetric dof placement, written from the
    geometric meaning: a dof of an entity is a labelling of the corners of the
    entity by letters (two corners carry the same letter when the point is
    symmetric under exchanging them).  Nothing here uses tables of the model. *)
From Verif Require Import Prelude DofModel DofSpec.

(** Corners of entity [e] of type [t], as vertex numbers of the tetrahedron. *)
Definition corners (t e : nat) : list nat :=
  match geom_dim t with
  | 0 => [e]
  | 1 => nth e [[0; 1]; [0; 2]; [0; 3]; [1; 2]; [1; 3]; [2; 3]] []
  | 2 => [e; (e + 1) mod 4; (e + 2) mod 4]
  | _ => [0; 1; 2; 3]
  end.

Inductive letter := A | B | C | D.
Definition letter_eqb (x y : letter) : bool :=
  match x, y with A, A | B, B | C, C | D, D => true | _, _ => false end.

(** The points of class [c] of an entity, in their numbering: s1 (centre), s2 on
    edges, s3 and s6 on faces, s4, s6, s12, s24 in cells. *)
Definition points (t c : nat) : list (list letter) :=
  match geom_dim t, c with
  | 0, 0 => [[A]]
  | 1, 0 => [[A; A]]
  | 1, 1 => [[A; B]; [B; A]]
  | 2, 0 => [[A; A; A]]
  | 2, 1 => [[A; B; B]; [B; A; B]; [B; B; A]]
  | 2, 2 => [[A; B; C]; [B; C; A]; [C; A; B]; [A; C; B]; [C; B; A]; [B; A; C]]
  | 3, 0 => [[A; A; A; A]]
  | 3, 1 => [[A; B; B; B]; [B; A; B; B]; [B; B; A; B]; [B; B; B; A]]
  | 3, 2 => [[A;A;B;B]; [A;B;A;B]; [B;A;A;B]; [A;B;B;A]; [B;A;B;A]; [B;B;A;A]]
  | 3, 3 => [[A;B;C;C]; [B;C;A;C]; [C;A;B;C]; [A;C;B;C]; [C;B;A;C]; [B;A;C;C];
             [B;C;C;A]; [C;A;C;B]; [A;C;C;B]; [C;B;C;A]; [C;C;B;A]; [C;C;A;B]]
  | 3, 4 => [[A;B;C;D]; [B;C;A;D]; [C;A;B;D]; [A;C;B;D]; [C;B;A;D]; [B;A;C;D];
             [A;B;D;C]; [B;C;D;A]; [C;A;D;B]; [A;C;D;B]; [C;B;D;A]; [B;A;D;C];
             [A;D;B;C]; [B;D;C;A]; [C;D;A;B]; [A;D;C;B]; [C;D;B;A]; [B;D;A;C];
             [D;A;B;C]; [D;B;C;A]; [D;C;A;B]; [D;A;C;B]; [D;C;B;A]; [D;B;A;C]]
  | _, _ => []
  end.
Definition npoints (t c : nat) : nat := length (points t c).
(** Letter that point [l] puts on the [k]-th corner. *)
Definition mark (t c l k : nat) : option letter := nth_error (nth l (points t c) []) k.

(** The 24 renumberings of the vertices. *)
Definition is_perm4 (p : list nat) : Prop := length p = 4 /\ NoDup p /\ Forall (fun x => x < 4) p.
Definition app4 (p : list nat) (k : nat) : nat := nth k p 0.
Definition compose4 (q p : list nat) : list nat := map (app4 q) p.
Definition id4 : list nat := [0; 1; 2; 3].

(** Rank of a value among some values: how many of them are smaller. *)
Definition rank (vs : list nat) (x : nat) : nat := length (filter (fun y => y <? x) vs).
Definition rankZ (vs : list Z) (x : Z) : nat := length (filter (fun y => (y <? x)%Z) vs).

(** [r] is the point [l] of entity [e] seen through the renumbering [p]: corner k
    of e has, among the renumbered corners, rank j; point r marks place j with
    the letter l gives to corner k. *)
Definition placed (t e c l : nat) (p : list nat) (r : nat) : Prop :=
  r < npoints t c /\
  forall k v, nth_error (corners t e) k = Some v ->
    mark t c r (rank (map (app4 p) (corners t e)) (app4 p v)) = mark t c l k.

(** The same placement from arbitrary (global) vertex identifiers. *)
Definition gid (g : list Z) (v : nat) : Z := nth v g 0%Z.
Definition gids (g : list Z) (t e : nat) : list Z := map (gid g) (corners t e).

(** Two dofs of two tetrahedra are the same geometric dof: entities have the same
    vertices, and every shared vertex carries the same letter. *)
Definition same_entity (g : list Z) (e : nat) (g' : list Z) (e' : nat) (t : nat) : Prop :=
  forall x, In x (gids g t e) <-> In x (gids g' t e').
Definition same_point (g : list Z) (e l : nat) (g' : list Z) (e' l' : nat) (t c : nat) : Prop :=
  forall k k' v v', nth_error (corners t e) k = Some v -> nth_error (corners t e') k' = Some v' ->
    gid g v = gid g' v' -> mark t c l k = mark t c l' k'.

(** Stabiliser of an entity and the subgroup generated by some renumberings. *)
Definition fixes (t e : nat) (p : list nat) : Prop :=
  forall v, In v (corners t e) <-> In v (map (app4 p) (corners t e)).
Inductive generated (gens : list (list nat)) : list nat -> Prop :=
| gen_id : generated gens id4
| gen_step : forall g p, In g gens -> generated gens p -> generated gens (compose4 g p).

(** Number of dofs per orbit class in a table of 16 classes: node; edge s1, s2
    (unoriented, then oriented); face s1, s3, s6 (unoriented, then oriented); cell
    s1, s4, s6, s12, s24. *)
Definition single_orbits (s : list nat) : Prop := length s = 16 /\ Forall (fun m => m <= 1) s.
Definition no_s3_s6_on_faces (s : list nat) : Prop := nth 6 s 0 = 0 /\ nth 7 s 0 = 0 /\ nth 9 s 0 = 0 /\ nth 10 s 0 = 0.

(** Every dof of the map knows its class (the map was built with a symmetry table). *)
Definition labelled (d : dmap) : Prop := forall x, In x (layout d) -> d_sym x <> None.
