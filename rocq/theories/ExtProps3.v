(** C26: operator++ of the iterators of ext_range_array_enum. *)
From Verif Require Import Prelude ExtModel ExtModel2 ExtModel3 ExtSpec ExtProofs ExtProofs2 ExtProofs3 ExtProofs4 ExtProofs9 ExtProofs10 ExtProps ExtProps2.

Lemma steps_ok N rg n m l L E : m < N -> n <= N -> (forall a, In a l -> length a = N) -> l <> [] -> listing l rg n m L -> enumerate rg n m l = Some E ->
  (forall a, In a l -> 0 < rg (nth m a 0)) -> forall k p x, p + k < length L -> begin_ N rg n m E p = Some x -> steps N rg n m E k x = begin_ N rg n m E (p + k).
Proof.
  intros Hm Hn Hl Hne HL HE Hpos. pose proof (enumerate_ok N rg n m l E Hm Hn Hl Hne HE) as T. pose proof (base_ok N l Hl) as HA. destruct (base_set_ok l) as (H1 & H2). pose proof (C26_at N rg n m l L E Hm Hn Hl Hne HL HE) as At. pose proof (C26_arrays_size N rg n m l L E Hm Hn Hl Hne HL HE) as Sz.
  apply listing_set in HL. set (A := base_set l) in *.
  induction k as [|k IH]; intros p x Hk Hx; [rewrite Nat.add_0_r; cbn [steps]; auto|]. cbn [steps]. assert (NX : next_it N rg n m E x = begin_ N rg n m E (S p)).
  { unfold begin_ in Hx. rewrite At in Hx. destruct (nth_error L p) as [b|] eqn:Eb; [|discriminate]. cbn [obind] in Hx. injection Hx as <-. pose proof (nth_error_In _ _ Eb) as Hin. apply HL in Hin as (a & t & Ha & Ht & ->).
    rewrite (ins_strip N n m Hm Hn) by (apply HA; auto). destruct (Nat.lt_ge_cases m n) as [C|C]; [apply (next_gt N rg n m Hm Hn A) with (L := L)|apply (next_le N rg n m Hm Hn A) with (L := L)]; auto; try (intros; apply HA; auto; fail); try lia; intros b Hb; apply Hpos, H2, Hb. }
  rewrite NX. assert (X : exists y, begin_ N rg n m E (S p) = Some y). { unfold begin_. rewrite At. destruct (nth_error L (S p)) as [b|] eqn:Eb; [cbn [obind]; eauto|]. apply nth_error_None in Eb. lia. }
  destruct X as (y & Hy). rewrite Hy. cbn [obind]. rewrite (IH (S p) y) by (auto; lia). f_equal. lia.
Qed.

(** From begin(p) the iterator moved by ++ visits in turn all following elements, and after the last one is end(); all ranges
    of stored arrays are positive *)
Theorem C26_increment_partial : forall N rg n m l L E, m < N -> n <= N -> (forall a, In a l -> length a = N) -> l <> [] -> listing l rg n m L -> enumerate rg n m l = Some E ->
  (forall a, In a l -> 0 < rg (nth m a 0)) -> forall p, p < length L -> exists x, begin_ N rg n m E p = Some x /\ elem x = nth p L [] /\ pos x = p /\
  (forall k, p + k < length L -> exists y, steps N rg n m E k x = Some y /\ elem y = nth (p + k) L [] /\ pos y = p + k) /\
  exists y, steps N rg n m E (length L - p) x = Some y /\ pos y = m_size E.
Proof.
  intros N rg n m l L E Hm Hn Hl Hne HL HE Hpos p Hp. pose proof (C26_at N rg n m l L E Hm Hn Hl Hne HL HE) as At. pose proof (C26_arrays_size N rg n m l L E Hm Hn Hl Hne HL HE) as Sz.
  assert (Bg : forall q, q < length L -> exists y, begin_ N rg n m E q = Some y /\ elem y = nth q L [] /\ pos y = q).
  { intros q Hq. unfold begin_. rewrite At. rewrite (nth_error_nth' L [] Hq). cbn [obind]. eexists. split; [reflexivity|]. split; reflexivity. }
  destruct (Bg p Hp) as (x & Hx & X1 & X2). exists x. split; [auto|]. split; [auto|]. split; [auto|].
  assert (W : forall k, p + k < length L -> exists y, steps N rg n m E k x = Some y /\ elem y = nth (p + k) L [] /\ pos y = p + k) by (intros k Hk; rewrite (steps_ok N rg n m l L E Hm Hn Hl Hne HL HE Hpos k p x Hk Hx); apply Bg, Hk).
  split; [auto|]. destruct (W (length L - p - 1)) as (y & Y1 & _ & Y3); [lia|].
  assert (St : forall k z w, steps N rg n m E k z = Some w -> steps N rg n m E (S k) z = next_it N rg n m E w).
  { clear. induction k as [|k IH]; intros z w H; [cbn in H; injection H as <-; cbn; destruct (next_it N rg n m E z); reflexivity|]. cbn [steps] in H |- *. destruct (next_it N rg n m E z) as [v|]; [|discriminate]. cbn [obind] in *. apply (IH v w H). }
  apply St in Y1. replace (S (length L - p - 1)) with (length L - p) in Y1 by lia. rewrite Y1. unfold next_it. rewrite (proj2 (Nat.leb_le (m_size E) (S (pos y)))) by lia. eexists. split; [reflexivity|]. cbn [pos]. lia.
Qed.
Print Assumptions C26_increment_partial.

(** Violation: with an empty range ++ gives an array that is not in the set *)
Theorem C26_increment_empty_range_refuted : exists N rg n m l L E x y, m < N /\ n <= N /\ (forall a, In a l -> length a = N) /\ l <> [] /\ listing l rg n m L /\ enumerate rg n m l = Some E /\ length L = 2 /\
  begin_ N rg n m E 0 = Some x /\ next_it N rg n m E x = Some y /\ pos y = 1 /\ ~ In (elem y) L.
Proof.
  exists 1, (fun x => match x with 1 => 0 | _ => 1 end), 1, 0, [[0]; [1]; [2]], [[0; 0]; [2; 0]]. do 3 eexists. split; [lia|]. split; [lia|]. split; [intros a [<-|[<-|[<-|[]]]]; reflexivity|]. split; [discriminate|]. split.
  { split.
    - cbn. split; [intros b [<-|[]]; constructor; [lia|auto]|]. split; [intros b []|exact I].
    - intros b. split; [intros [<-|[<-|[]]]; [exists [0], 0|exists [2], 0]; cbn; intuition lia|]. intros (a & t & [<-|[<-|[<-|[]]]] & Ht & ->); cbn in Ht; try lia; replace t with 0 by lia; cbn; auto. }
  split; [vm_compute; reflexivity|]. split; [reflexivity|]. split; [vm_compute; reflexivity|]. split; [vm_compute; reflexivity|]. split; [reflexivity|]. cbn. intros [X|[X|[]]]; discriminate.
Qed.
Print Assumptions C26_increment_empty_range_refuted.

(** The hypotheses are met (positive ranges), and a walk in each of the three relative positions of the inserted value *)
Definition walk (n m : nat) : list (option key) :=
  match enumerate ex_rg2 n m ex_l with
  | Some E => match begin_ 3 ex_rg2 n m E 0 with Some x => map (fun k => do y <- steps 3 ex_rg2 n m E k x; Some (elem y)) (seq 0 (m_size E)) | None => [] end
  | None => [] end.
Example C26_increment_hyp : (forall a, In a ex_l -> length a = 3) /\ ex_l <> [] /\ (forall a, In a ex_l -> 0 < ex_rg2 (nth 2 a 0)) /\ match enumerate ex_rg2 1 2 ex_l with Some E => 1 < m_size E | None => False end.
Proof. split; [cbn; intuition subst; reflexivity|]. split; [discriminate|]. split; [cbn; intuition subst; cbn; lia|]. vm_compute. repeat constructor. Qed.
Example C26_increment_ex : Forall (fun nm => match enumerate ex_rg2 (fst nm) (snd nm) ex_l with
  | Some E => walk (fst nm) (snd nm) = map (fun p => reverse 3 ex_rg2 (fst nm) (snd nm) E p) (seq 0 (m_size E)) | None => False end) [(0, 2); (1, 2); (2, 2); (3, 2); (3, 0); (1, 1); (2, 0)].
Proof. repeat constructor; vm_compute; reflexivity. Qed.
