From Coq Require Import Sorting.Sorted.
From Verif Require Import Prelude DofModel EnumModel GwModel CpModel MpModel MpSpec IenModel IenSpec.
Open Scope Z_scope.

Fixpoint group (v0 len : Z) (r : list Z) : list (Z * Z) :=
  match r with [] => [(v0, len)] | x :: r => if v0 + len - 1 + 1 =? x then group v0 (len + 1) r else (v0, len) :: group x 1 r end.
Definition flat (l : list (Z * Z)) : list Z := flat_map (fun p => [fst p; snd p]) l.
Definition finish (q : list Z * Z) : list Z :=
  let '(vals, prev_val) := q in
  let lcnt := prev_val - last vals 0 + 1 in
  let cnt := lcnt + nth (length vals - 2) vals 0 in
  let vals := vals ++ [cnt] in
  vals ++ [nth (length vals - 2) vals 0 + lcnt].
Lemma finish_app : forall acc c v prev, finish (acc ++ [c; v], prev) = acc ++ [c; v; prev - v + 1 + c; v + (prev - v + 1)].
Proof.
  intros acc c v prev. unfold finish. assert (E1 : last (acc ++ [c; v]) 0 = v) by (change [c; v] with ([c] ++ [v]); rewrite app_assoc; apply last_last).
  assert (E2 : nth (length (acc ++ [c; v]) - 2) (acc ++ [c; v]) 0 = c).
  { rewrite app_length. cbn [length]. rewrite app_nth2 by lia. replace (length acc + 2 - 2 - length acc)%nat with O by lia. reflexivity. }
  rewrite E1, E2. assert (E3 : forall z, nth (length ((acc ++ [c; v]) ++ [z]) - 2) ((acc ++ [c; v]) ++ [z]) 0 = v).
  { intros z. rewrite !app_length. cbn [length]. rewrite <- app_assoc. rewrite app_nth2 by lia. replace (length acc + 2 + 1 - 2 - length acc)%nat with 1%nat by lia. reflexivity. }
  rewrite E3, <- !app_assoc. reflexivity.
Qed.
Lemma store_last : forall l n a b, l <> [] -> store_from n l a = store_from n l b.
Proof. intros [|[v len] l] n a b H; [congruence|reflexivity]. Qed.
Lemma group_ne : forall r v len, group v len r <> [].
Proof. induction r as [|x r IH]; intros v len; cbn [group]; [discriminate|]. destruct (_ =? _); [apply IH|discriminate]. Qed.
Lemma runs_group : forall r acc c0 v0 len, 0 < len ->
  finish (runs_loop r (c0 + len - 1) (acc ++ [c0; v0]) (v0 + len - 1)) = acc ++ flat (store_from c0 (group v0 len r) 0).
Proof.
  induction r as [|x r IH]; intros acc c0 v0 len Hl; cbn [runs_loop group].
  - rewrite finish_app. cbn [store_from flat flat_map fst snd app]. replace (v0 + len - 1 - v0 + 1 + c0) with (c0 + len) by lia. replace (v0 + (v0 + len - 1 - v0 + 1)) with (v0 + len) by lia. reflexivity.
  - destruct (v0 + len - 1 + 1 =? x) eqn:E.
    + replace (c0 + len - 1 + 1) with (c0 + (len + 1) - 1) by lia. replace (v0 + len - 1 + 1) with (v0 + (len + 1) - 1) by lia. apply IH. lia.
    + replace (c0 + len - 1 + 1) with (c0 + len) by lia. specialize (IH (acc ++ [c0; v0]) (c0 + len) x 1 ltac:(lia)). replace (c0 + len + 1 - 1) with (c0 + len) in IH by lia. replace (x + 1 - 1) with x in IH by lia.
      rewrite IH. cbn [store_from flat flat_map fst snd]. rewrite <- app_assoc. rewrite (store_last _ _ 0 (v0 + len)) by apply group_ne. reflexivity.
Qed.
Lemma range_snoc : forall v len, 0 < len -> map (fun j => v + Z.of_nat j) (seq 0 (Z.to_nat (len + 1))) = map (fun j => v + Z.of_nat j) (seq 0 (Z.to_nat len)) ++ [v + len].
Proof. intros v len H. replace (Z.to_nat (len + 1)) with (S (Z.to_nat len)) by lia. rewrite seq_S, map_app. cbn [map]. do 3 f_equal. lia. Qed.
Lemma group_elements : forall r v len, 0 < len -> elements (group v len r) = map (fun j => v + Z.of_nat j) (seq 0 (Z.to_nat len)) ++ r.
Proof.
  induction r as [|x r IH]; intros v len H; cbn [group].
  - unfold elements. cbn [flat_map]. reflexivity.
  - destruct (Z.eqb_spec (v + len - 1 + 1) x) as [E|E].
    + rewrite IH by lia. rewrite range_snoc by exact H. rewrite <- app_assoc. cbn [app]. do 3 f_equal. lia.
    + unfold elements. cbn [flat_map]. fold (elements (group x 1 r)). rewrite IH by lia. f_equal. change (Z.to_nat 1) with 1%nat. cbn [seq map app]. f_equal. lia.
Qed.
Lemma group_sorted : forall r lo v len, 0 < len -> lo <= v -> StronglySorted Z.lt ((v + len - 1) :: r) -> sorted_from lo (group v len r).
Proof.
  induction r as [|x r IH]; intros lo v len H Hlo HS; cbn [group].
  - cbn. auto.
  - inversion HS as [|? ? HS' HF]; subst. inversion HF as [|? ? Hx _]; subst. destruct (Z.eqb_spec (v + len - 1 + 1) x) as [E|E].
    + apply IH; [lia|lia|]. replace (v + (len + 1) - 1) with x by lia. exact HS'.
    + cbn [sorted_from]. split; [lia|]. split; [lia|]. apply IH; [lia|lia|]. replace (x + 1 - 1) with x by lia. exact HS'.
Qed.
Lemma pairs_flat : forall l, pairs (flat l) = l.
Proof. induction l as [|[a b] l IH]; cbn; [reflexivity|]. fold (flat l). now rewrite IH. Qed.
Lemma cont_runs_ok : forall L, StronglySorted Z.lt L -> exists ivs, intervals ivs /\ elements ivs = L /\ pairs (cont_runs L) = store ivs.
Proof.
  intros [|x r] HS.
  - exists []. repeat split.
  - exists (group x 1 r). split; [|split].
    + assert (G : sorted_from x (group x 1 r)) by (apply group_sorted; [lia|lia|]; replace (x + 1 - 1) with x by lia; exact HS).
      unfold intervals. destruct (group x 1 r) as [|[v len] t] eqn:E; [exact I|]. cbn [sorted_from] in *. repeat split; try apply G. lia.
    + rewrite group_elements by lia. change (Z.to_nat 1) with 1%nat. cbn [seq map app]. f_equal. lia.
    + change (cont_runs (x :: r)) with (finish (runs_loop r 0 ([] ++ [0; x]) x)). replace (runs_loop r 0 ([] ++ [0; x]) x) with (runs_loop r (0 + 1 - 1) ([] ++ [0; x]) (x + 1 - 1)) by (f_equal; lia).
      rewrite runs_group by lia. cbn [app]. rewrite pairs_flat. unfold store. destruct (group x 1 r) eqn:E; [exfalso; now apply (group_ne r x 1)|reflexivity].
Qed.
Lemma existing_sorted : forall w d, StronglySorted Z.lt (existing w d).
Proof.
  intros w d. unfold existing. generalize (fun i => match nth i (w_mesh w d) Deleted with Deleted => false | _ => true end). intros p. generalize (length (w_mesh w d)) as n. intros n. generalize 0%nat as s.
  induction n as [|n IH]; intros s; cbn [seq filter]; [constructor|]. destruct (p s); [|apply IH]. cbn [map]. constructor; [apply IH|]. apply Forall_forall. intros z Hz. apply in_map_iff in Hz as (j & <- & Hj). apply filter_In in Hj as (Hj & _). apply in_seq in Hj. lia.
Qed.
Lemma one_dim : forall w et d, (d < 4)%nat -> (forall e, (e < 4)%nat -> et e = (e =? d)%nat) -> all_lids w et = existing w d.
Proof.
  intros w et d Hd He. unfold all_lids, flat_map. rewrite !He by lia. destruct d as [|[|[|[|d]]]]; [| | | |lia]; cbn [Nat.eqb]; rewrite ?app_nil_l, ?app_nil_r; reflexivity.
Qed.
