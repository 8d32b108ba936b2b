(** What an interval map stands for: a partial function from keys to values, extended by insertions. *)
From Verif Require Import Prelude IvlModel.
Open Scope Z_scope.

Section Spec.
Context {V : Type}.
Implicit Types (g : Z -> option V) (o : ivl_op V).

(** The keys of the inserted interval [lo, hi), with infinite ends *)
Definition inside o (k : Z) : Prop :=
  match lo o with Some s => s <= k | None => True end /\ match hi o with Some e => k < e | None => True end.
(** The insertion contradicts nothing stored *)
Definition agrees g o : Prop := forall k w, inside o k -> g k = Some w -> w = value o.
(** One insertion: the new function and the returned flag *)
Inductive step g o : (Z -> option V) -> bool -> Prop :=
| accepted : forall g', (exists k, inside o k) -> agrees g o ->
    (forall k, inside o k -> g' k = Some (value o)) -> (forall k, ~ inside o k -> g' k = g k) -> step g o g' true
| rejected : forall g', ((forall k, ~ inside o k) \/ ~ agrees g o) -> (forall k, g' k = g k) -> step g o g' false.
Inductive run : (Z -> option V) -> list (ivl_op V) -> list bool -> (Z -> option V) -> Prop :=
| run_nil : forall g, run g [] [] g
| run_cons : forall g o ops b bs g1 g2, step g o g1 b -> run g1 ops bs g2 -> run g (o :: ops) (b :: bs) g2.
Definition nothing : Z -> option V := fun _ => None.

(** Defined on all large, respectively all small keys *)
Definition unbounded_right g : Prop := exists K, forall k, K <= k -> g k <> None.
Definition unbounded_left g : Prop := exists K, forall k, k <= K -> g k <> None.
(** An insertion that is infinite on a side where the map is infinite already has to agree with the map *)
Definition safe_op g o : Prop :=
  (hi o = None -> lo o <> None -> unbounded_right g -> agrees g o) /\ (lo o = None -> hi o <> None -> unbounded_left g -> agrees g o).
Inductive safe : (Z -> option V) -> list (ivl_op V) -> Prop :=
| safe_nil : forall g, safe g []
| safe_cons : forall g o ops, safe_op g o -> (forall g' b, step g o g' b -> safe g' ops) -> safe g (o :: ops).
(** One value for every key: the state in which lookup fails *)
Definition constant g : Prop := exists v, forall k, g k = Some v.

(** The stored intervals are sorted and disjoint *)
Definition sorted_disjoint (m : imap V) : Prop :=
  (forall i x, nth_error (entries m) i = Some x -> m_start x <= m_end x) /\
  (forall i j x y, (i < j)%nat -> nth_error (entries m) i = Some x -> nth_error (entries m) j = Some y -> m_end x <= m_start y).
(** What the entry at position i stands for *)
Definition extent (m : imap V) (i : nat) (k : Z) : Prop :=
  match nth_error (entries m) i with
  | Some x => (m_start x <= k \/ (left_inf m = true /\ i = O)) /\ (k < m_end x \/ (right_inf m = true /\ S i = length (entries m)))
  | None => False
  end.
(** The map stands for the function *)
Definition represents (m : imap V) g : Prop :=
  forall k w, g k = Some w <-> exists i x, nth_error (entries m) i = Some x /\ extent m i k /\ second x = w.
End Spec.
