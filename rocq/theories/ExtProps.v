(** C26: the enumerator of arrays with an inserted number (ext_range_array_enum): numbering, reverse lookup, membership, size. *)
From Verif Require Import Prelude ExtModel ExtSpec ExtProofs ExtProofs2 ExtProofs3 ExtProofs4 ExtProofs5 ExtProofs6 ExtProofs7 ExtProofs8.

(** The object made from a list of arrays: the constructors, ext_array_enum.h:107-126: _setBaseSet and setup *)
Definition enumerate (rg : nat -> nat) (n m : nat) (l : list key) : option enum := setup rg n m (base_set l).

Lemma base_ok N l : (forall a, In a l -> length a = N) -> base N (base_set l).
Proof.
  intros H. destruct (base_set_ok l) as (H1 & H2). assert (H3 : forall a, In a (base_set l) -> length a = N) by (intros a Ha; apply H, H2, Ha).
  split; [|auto]. apply increasing_incr; [|auto]. intros a b Ha Hb. rewrite !H3; auto.
Qed.
Lemma member_set rg n m l b : member (base_set l) rg n m b <-> member l rg n m b.
Proof. destruct (base_set_ok l) as (_ & H2). unfold member. split; intros (a & t & Ha & H); exists a, t; (split; [apply H2, Ha|exact H]). Qed.
Lemma enumerate_ok N rg n m l E : m < N -> n <= N -> (forall a, In a l -> length a = N) -> l <> [] -> enumerate rg n m l = Some E -> table_ok N rg n m (base_set l) E.
Proof.
  intros Hm Hn Hl Hne H. pose proof (base_ok N l Hl) as HA. destruct (base_set_ok l) as (H1 & H2).
  destruct (setup_ok N rg n m Hm Hn (base_set l) H1 (proj2 HA)) as (E' & S1 & T).
  - intros C. destruct l as [|a l]; [auto|]. assert (X : In a (base_set (a :: l))) by (apply H2; left; auto). rewrite C in X. destruct X.
  - unfold enumerate in H. congruence.
Qed.
Lemma listing_set rg n m l L : listing l rg n m L -> listing (base_set l) rg n m L.
Proof. intros (H1 & H2). split; [auto|]. intros b. rewrite member_set. auto. Qed.

(** The stored set is the given one, sorted and without repetitions *)
Theorem C26_base_set : forall N l, (forall a, In a l -> length a = N) -> increasing (base_set l) /\ forall a, In a (base_set l) <-> In a l.
Proof. intros N l H. split; [apply (base_ok N), H|]. apply base_set_ok. Qed.
Print Assumptions C26_base_set.

(** The set B of a nonempty list of arrays has an increasing listing, and the object is built without undefined behaviour *)
Theorem C26_built : forall N rg n m l, m < N -> n <= N -> (forall a, In a l -> length a = N) -> l <> [] ->
  exists L E, listing l rg n m L /\ enumerate rg n m l = Some E.
Proof.
  intros N rg n m l Hm Hn Hl Hne. pose proof (base_ok N l Hl) as HA. destruct (base_set_ok l) as (H1 & H2).
  destruct (listing_exists N rg n m (base_set l) Hm Hn HA) as (L & HL1 & HL2). exists L.
  destruct (setup_ok N rg n m Hm Hn (base_set l) H1 (proj2 HA)) as (E & S1 & T).
  - intros C. destruct l as [|a l]; [auto|]. assert (X : In a (base_set (a :: l))) by (apply H2; left; auto). rewrite C in X. destruct X.
  - exists E. split; [|exact S1]. split; [auto|]. intros b. rewrite HL2. apply member_set.
Qed.
Print Assumptions C26_built.

(** operator[] of an array: its place in the listing of B, and an error outside B *)
Theorem C26_number : forall N rg n m l L E, m < N -> n <= N -> (forall a, In a l -> length a = N) -> l <> [] -> listing l rg n m L -> enumerate rg n m l = Some E ->
  forall b i, length b = S N -> forward N rg n m E b = Some i <-> nth_error L i = Some b.
Proof.
  intros N rg n m l L E Hm Hn Hl Hne HL HE b i Hb. pose proof (enumerate_ok N rg n m l E Hm Hn Hl Hne HE) as T. pose proof (base_ok N l Hl) as HA. destruct (base_set_ok l) as (H1 & H2).
  apply listing_set in HL. set (A := base_set l) in *. destruct HL as (HL1 & HL2).
  assert (D : member A rg n m b \/ forward N rg n m E b = None).
  { destruct (Nat.ltb_spec (at_ n b) (rg (at_ m (strip n b)))) as [C|C].
    - pose proof (find_key_spec A (strip n b) H1) as F. unfold forward. rewrite (proj2 (Nat.ltb_lt _ _) C). cbn [negb]. rewrite (t_ord _ _ _ _ _ _ T). destruct (find_key A (strip n b)) as [j|].
      + left. apply (member_strip N rg n m Hm Hn A HA). split; [auto|]. split; [|auto]. destruct F as (_ & F). eapply nth_error_In; eauto.
      + right. reflexivity.
    - right. unfold forward. rewrite (proj2 (Nat.ltb_ge _ _) C). reflexivity. }
  destruct D as [D|D].
  - pose proof D as D'. apply (member_strip N rg n m Hm Hn A HA) in D' as (D1 & D2 & D3). rewrite (forward_ok N rg n m Hm Hn A H1 (proj2 HA) E b T D2 D3). split.
    + intros X. injection X as X. apply (rank_nth N rg n m Hm Hn A HA L (conj HL1 HL2)); auto.
    + intros X. f_equal. apply (nth_rank N rg n m Hm Hn A HA L (conj HL1 HL2)); auto.
  - rewrite D. split; [discriminate|]. intros X. exfalso. apply nth_error_In in X. apply HL2 in X. apply (member_strip N rg n m Hm Hn A HA) in X as (D1 & D2 & D3).
    rewrite (forward_ok N rg n m Hm Hn A H1 (proj2 HA) E b T D2 D3) in D. discriminate.
Qed.
Print Assumptions C26_number.

(** operator[] of a number and begin(i): the element at that place, and an error past the end *)
Theorem C26_at : forall N rg n m l L E, m < N -> n <= N -> (forall a, In a l -> length a = N) -> l <> [] -> listing l rg n m L -> enumerate rg n m l = Some E ->
  forall i, reverse N rg n m E i = nth_error L i.
Proof.
  intros N rg n m l L E Hm Hn Hl Hne HL HE i. pose proof (enumerate_ok N rg n m l E Hm Hn Hl Hne HE) as T. pose proof (base_ok N l Hl) as HA. destruct (base_set_ok l) as (H1 & H2).
  apply listing_set in HL. set (A := base_set l) in *. pose proof (L_size N rg n m Hm Hn A HA L HL) as SZ.
  destruct (Nat.lt_ge_cases i (m_size E)) as [C|C].
  - assert (R : exists a s, reverse N rg n m E i = Some (firstn n a ++ s :: skipn n a) /\ In a A /\ s < rg (at_ m a) /\ sm (term rg n m a s) A = i).
    { destruct (Nat.lt_ge_cases m n) as [D|D]; [apply (reverse_gt N rg n m Hm Hn A H1 (proj2 HA))|apply (reverse_le N rg n m Hm Hn A H1 (proj2 HA))]; auto. }
    destruct R as (a & s & R & Ha & Hs & Hr). rewrite R. symmetry. pose proof (proj2 HA a Ha) as La. change (firstn n a ++ s :: skipn n a) with (insert_at n s a).
    apply (rank_nth N rg n m Hm Hn A HA L HL); [exists a, s; auto|]. rewrite (ins_strip N n m Hm Hn), (ins_at N n m Hm Hn) by auto. auto.
  - unfold reverse. rewrite (proj2 (Nat.ltb_ge _ _) C). cbn [negb]. symmetry. apply nth_error_None. rewrite (t_size _ _ _ _ _ _ T) in C. rewrite SZ. exact C.
Qed.
Print Assumptions C26_at.

(** The two lookups are inverse to each other *)
Theorem C26_arrays_inverse : forall N rg n m l E, m < N -> n <= N -> (forall a, In a l -> length a = N) -> l <> [] -> enumerate rg n m l = Some E ->
  (forall b i, length b = S N -> forward N rg n m E b = Some i <-> reverse N rg n m E i = Some b) /\
  (forall i, i < m_size E <-> reverse N rg n m E i <> None) /\
  forall i b, reverse N rg n m E i = Some b -> member l rg n m b.
Proof.
  intros N rg n m l E Hm Hn Hl Hne HE. destruct (C26_built N rg n m l Hm Hn Hl Hne) as (L & E' & HL & HE'). assert (E' = E) by congruence. subst E'. clear HE'.
  pose proof (C26_at N rg n m l L E Hm Hn Hl Hne HL HE) as At. split; [|split].
  - intros b i Hb. rewrite At. apply (C26_number N rg n m l L E); auto.
  - intros i. rewrite At, nth_error_Some. pose proof (base_ok N l Hl) as HA. rewrite (L_size N rg n m Hm Hn _ HA L (listing_set _ _ _ _ _ HL)). rewrite (t_size _ _ _ _ _ _ (enumerate_ok N rg n m l E Hm Hn Hl Hne HE)). reflexivity.
  - intros i b R. rewrite At in R. apply HL. eapply nth_error_In; eauto.
Qed.
Print Assumptions C26_arrays_inverse.

(** size() *)
Theorem C26_arrays_size : forall N rg n m l L E, m < N -> n <= N -> (forall a, In a l -> length a = N) -> l <> [] -> listing l rg n m L -> enumerate rg n m l = Some E ->
  m_size E = length L.
Proof.
  intros N rg n m l L E Hm Hn Hl Hne HL HE. rewrite (t_size _ _ _ _ _ _ (enumerate_ok N rg n m l E Hm Hn Hl Hne HE)). symmetry. apply (L_size N rg n m Hm Hn _ (base_ok N l Hl) L (listing_set _ _ _ _ _ HL)).
Qed.
Print Assumptions C26_arrays_size.

(** contains() *)
Theorem C26_arrays_contains : forall N rg n m l E, m < N -> n <= N -> (forall a, In a l -> length a = N) -> l <> [] -> enumerate rg n m l = Some E ->
  forall b, length b = S N -> contains rg n m E b = true <-> member l rg n m b.
Proof.
  intros N rg n m l E Hm Hn Hl Hne HE b Hb. pose proof (enumerate_ok N rg n m l E Hm Hn Hl Hne HE) as T. pose proof (base_ok N l Hl) as HA. destruct (base_set_ok l) as (H1 & H2).
  rewrite <- member_set, (member_strip N rg n m Hm Hn _ HA). unfold contains. rewrite (t_ord _ _ _ _ _ _ T). pose proof (contains_lb (base_set l) (strip n b) H1) as X.
  destruct (Nat.ltb_spec (at_ n b) (rg (at_ m (strip n b)))) as [C|C]; cbn [negb].
  - rewrite X. tauto.
  - split; [discriminate|]. intros (_ & _ & Y). lia.
Qed.
Print Assumptions C26_arrays_contains.

(** An enumerator of the empty set is undefined behaviour as soon as both tables of sums are needed: sum_part_ids reads the first entry
    of an empty table (ext_array_enum.inl:27-30) *)
Theorem C26_empty_refuted : exists N rg n m, m < N /\ n <= N /\ enumerate rg n m [] = None.
Proof. exists 2, (fun _ => 1), 0, 1. split; [lia|]. split; [lia|]. reflexivity. Qed.
Print Assumptions C26_empty_refuted.

(** A list of arrays with repetitions, ranges with a zero, numbers inserted before, between and after *)
Definition ex_l : list key := [[1;0;2]; [0;1;1]; [0;1;0]; [1;0;2]; [0;2;1]; [1;1;0]].
Definition ex_rg (x : nat) : nat := match x with 0 => 2 | 1 => 0 | _ => 3 end.
Example C26_arrays_ex : match enumerate ex_rg 1 2 ex_l with Some E => (m_size E, map (reverse 3 ex_rg 1 2 E) (seq 0 8)) | None => (0, []) end =
  (7, [Some [0;0;1;0]; Some [0;1;1;0]; Some [1;0;0;2]; Some [1;0;1;0]; Some [1;1;0;2]; Some [1;1;1;0]; Some [1;2;0;2]; None]).
Proof. vm_compute. reflexivity. Qed.
Example C26_arrays_hyp : (forall a, In a ex_l -> length a = 3) /\ ex_l <> [] /\ exists E, enumerate ex_rg 1 2 ex_l = Some E.
Proof. split; [|split; [discriminate|eexists; vm_compute; reflexivity]]. cbn. intuition subst; reflexivity. Qed.
