From Verif Require Import Prelude DofModel EnumModel GwModel CpModel MpModel MpSpec.

Lemma own_iff : forall w d i, In i (own w d) <-> owns w d i.
Proof.
  intros w d i. unfold own, owns. rewrite filter_In, in_seq. unfold is_owned, status. split; intros (A & B); split; try lia; destruct (nth i (w_mesh w d) Deleted); congruence.
Qed.
Lemma own_nodup : forall w d, NoDup (own w d).
Proof. intros. apply NoDup_filter, seq_NoDup. Qed.
Lemma beg_fold : forall L b, exists c, fold_left (fun (m : option nat) g => match m with None => Some g | Some b => if g <? b then Some g else Some b end) L (Some b) = Some c /\
  (c = b \/ In c L) /\ c <= b /\ forall g, In g L -> c <= g.
Proof.
  induction L as [|a L IH]; intros b; cbn [fold_left].
  - exists b. split; [reflexivity|]. split; [now left|]. split; [lia|intros g []].
  - destruct (Nat.ltb_spec a b) as [H|H].
    + destruct (IH a) as (c & E & Hc & Hl & Hg). exists c. split; [exact E|]. split; [destruct Hc; [subst; right; now left|right; now right]|]. split; [lia|]. intros g [<-|Hin]; [exact Hl|auto].
    + destruct (IH b) as (c & E & Hc & Hl & Hg). exists c. split; [exact E|]. split; [destruct Hc; [now left|right; now right]|]. split; [lia|]. intros g [<-|Hin]; [lia|auto].
Qed.
Lemma beg_min : forall total L, L <> [] -> In (beg_elem total L) L /\ forall g, In g L -> beg_elem total L <= g.
Proof.
  intros total [|a L] H; [congruence|]. unfold beg_elem. cbn [fold_left]. destruct (beg_fold L a) as (c & -> & Hc & Hl & Hg). split.
  - destruct Hc; [now left|now right].
  - intros g [<-|Hin]; auto.
Qed.
Lemma end_fold : forall L e, let r := fold_left (fun e g => if e <=? g then g + 1 else e) L e in e <= r /\ (forall g, In g L -> g < r) /\ (r = e \/ exists g, In g L /\ r = S g).
Proof.
  induction L as [|a L IH]; intros e; cbn [fold_left].
  - cbn. split; [lia|]. split; [intros g []|now left].
  - cbv zeta. destruct (Nat.leb_spec e a) as [H|H].
    + destruct (IH (a + 1)) as (A & B & C). split; [lia|]. split; [intros g [<-|Hin]; [lia|auto]|]. right. destruct C as [C|(g & Hg & C)]; [exists a; split; [now left|lia]|exists g; split; [now right|exact C]].
    + destruct (IH e) as (A & B & C). split; [lia|]. split; [intros g [<-|Hin]; [lia|auto]|]. destruct C as [C|(g & Hg & C)]; [now left|right; exists g; split; [now right|exact C]].
Qed.
Lemma gids_in : forall w d g, In g (gids w d) <-> exists i, owns w d i /\ w_gid w d i = g.
Proof. intros. unfold gids. rewrite in_map_iff. setoid_rewrite own_iff. firstorder. Qed.
Lemma first_beg : forall w d b, first_id w d b -> beg_id w d = b.
Proof.
  intros w d b ((i & Hi & Eb) & Hb). unfold beg_id. assert (Hin : In b (gids w d)) by (apply gids_in; eauto).
  destruct (beg_min (w_total w d) (gids w d)) as (A & B); [intros E; rewrite E in Hin; exact Hin|]. apply gids_in in A as (j & Hj & Ej). specialize (Hb j Hj). specialize (B b Hin). lia.
Qed.
Lemma beg_first : forall w d i, owns w d i -> first_id w d (beg_id w d).
Proof.
  intros w d i Hi. assert (Hin : In (w_gid w d i) (gids w d)) by (apply gids_in; eauto). destruct (beg_min (w_total w d) (gids w d)) as (A & B); [intros E; rewrite E in Hin; exact Hin|].
  split; [now apply gids_in in A|]. intros j Hj. apply B, gids_in. eauto.
Qed.
Lemma end_bound : forall w d i, owns w d i -> w_gid w d i < end_id w d.
Proof.
  intros w d i Hi. assert (Hin : In (w_gid w d i) (gids w d)) by (apply gids_in; eauto). unfold end_id. destruct (gids w d) as [|g L] eqn:E; [destruct Hin|]. apply (end_fold (g :: L) 0). exact Hin.
Qed.
Lemma beg_end : forall w d, beg_id w d <= end_id w d.
Proof.
  intros w d. destruct (own w d) as [|i L] eqn:E.
  - unfold beg_id, end_id, gids. rewrite E. cbn. lia.
  - assert (Hi : owns w d i) by (apply own_iff; rewrite E; now left). pose proof (end_bound w d i Hi). destruct (beg_first w d i Hi) as (_ & B). specialize (B i Hi). lia.
Qed.
Lemma resize_length : forall a n junk, length (resize a n junk) = n.
Proof. intros. unfold resize. rewrite app_length, firstn_length, map_length, seq_length. lia. Qed.

Lemma fill_loop : forall (f : nat -> nat) L a, NoDup L -> (forall i j, In i L -> In j L -> f i = f j -> i = j) -> (forall i, In i L -> f i < length a) ->
  exists a', each L (fun i a => wr a (f i) i) a = Some a' /\ length a' = length a /\ (forall i, In i L -> rd a' (f i) = Some i) /\ (forall k, (forall i, In i L -> f i <> k) -> rd a' k = rd a k).
Proof.
  induction L as [|i L IH]; intros a Hn Hinj Hb; cbn [each].
  - exists a. repeat split; auto. intros i [].
  - inversion Hn as [|? ? Hi HL]; subst. destruct (wr_some a (f i) i) as (a1 & E & Hl & Hj'); [apply Hb; now left|]. rewrite E. cbn [obind].
    destruct (IH a1 HL) as (a' & E' & Hl' & Hr & Ho); [intros; apply Hinj; auto using in_cons|intros; rewrite Hl; apply Hb; now right|].
    exists a'. split; [exact E'|]. split; [lia|]. split.
    + intros j [<-|Hj]; [|auto]. rewrite Ho; [rewrite Hj', Nat.eqb_refl; reflexivity|]. intros j Hj Ej. apply Hi. rewrite <- (Hinj j i); [exact Hj|now right|now left|exact Ej].
    + intros k Hk. rewrite Ho by (intros j Hj; apply Hk; now right). rewrite Hj'. destruct (Nat.eqb_spec k (f i)) as [->|_]; [exfalso; apply (Hk i); [now left|reflexivity]|reflexivity].
Qed.
Lemma fill_ok : forall w d junk a, unique_ids w -> exists a', fill_back w d junk a = Some a' /\ length a' = end_id w d - beg_id w d /\
  forall i, owns w d i -> rd a' (w_gid w d i - beg_id w d) = Some i.
Proof.
  intros w d junk a Hu. unfold fill_back. pose proof (beg_end w d) as Hbe. rewrite (proj2 (Nat.leb_le _ _) Hbe). cbn [guard obind].
  destruct (fill_loop (fun i => w_gid w d i - beg_id w d) (own w d) (resize a (end_id w d - beg_id w d) junk)) as (a' & E & Hl & Hr & _).
  - apply own_nodup.
  - intros i j Hi Hj E. apply own_iff in Hi, Hj. apply (Hu d); try assumption. destruct (beg_first w d i Hi) as (_ & B). pose proof (B i Hi). pose proof (B j Hj). lia.
  - intros i Hi. apply own_iff in Hi. rewrite resize_length. pose proof (end_bound w d i Hi). destruct (beg_first w d i Hi) as (_ & B). specialize (B i Hi). lia.
  - exists a'. rewrite resize_length in Hl. split; [|split; [exact Hl|intros i Hi; apply Hr; now apply own_iff]]. rewrite <- E.
    assert (G : forall L (b : list nat), (forall i, In i L -> owns w d i) -> each L (fun i a => do _ <- guard (beg_id w d <=? w_gid w d i); wr a (w_gid w d i - beg_id w d) i) b = each L (fun i a => wr a (w_gid w d i - beg_id w d) i) b).
    { induction L as [|i L IH]; intros b HL; cbn [each]; [reflexivity|]. destruct (beg_first w d i (HL i (or_introl eq_refl))) as (_ & B). rewrite (proj2 (Nat.leb_le _ _) (B i (HL i (or_introl eq_refl)))). cbn [guard obind].
      destruct (wr b (w_gid w d i - beg_id w d) i) as [b1|]; cbn [obind]; [|reflexivity]. apply IH. intros j Hj. apply HL. now right. }
    apply G. intros i Hi. now apply own_iff.
Qed.

Lemma backs_loop : forall w junk L s, unique_ids w -> NoDup L -> exists s', each L (fun d s => do a <- fill_back w d junk (match back s d with Some a => a | None => [] end); Some (Maps (upd (back s) d (Some a)) (cont s))) s = Some s' /\
  cont s' = cont s /\ (forall d, In d L -> exists a, back s' d = Some a /\ length a = end_id w d - beg_id w d /\ forall i, owns w d i -> rd a (w_gid w d i - beg_id w d) = Some i) /\ (forall d, ~ In d L -> back s' d = back s d).
Proof.
  intros w junk L. induction L as [|d L IH]; intros s Hu Hn; cbn [each].
  - exists s. repeat split; auto. intros d [].
  - inversion Hn as [|? ? Hd HL]; subst. destruct (fill_ok w d junk (match back s d with Some a => a | None => [] end) Hu) as (a & -> & Hl & Hr). cbn [obind].
    destruct (IH (Maps (upd (back s) d (Some a)) (cont s)) Hu HL) as (s' & E & Ec & Hb & Ho). exists s'. split; [exact E|]. split; [exact Ec|]. split.
    + intros e [<-|He]; [|auto]. exists a. split; [|split; assumption]. rewrite Ho by assumption. cbn [back]. unfold upd. now rewrite Nat.eqb_refl.
    + intros e He. rewrite Ho by (intros H; apply He; now right). cbn [back]. unfold upd. destruct (Nat.eqb_spec e d) as [->|_]; [exfalso; apply He; now left|reflexivity].
Qed.

Definition complete (et : nat -> bool) (s : maps) : Prop := forall d, d < 4 -> et d = true -> back s d <> None /\ cont s d <> None.
Lemma create_new : forall w et forced junk s, unique_ids w -> forced = true \/ ~ complete et s ->
  exists s', create_maps w et forced junk s = Some s' /\ complete et s' /\
    (forall d, d < 4 -> et d = true -> leads w s' d /\ cont s' d = Some (cont_runs (all_lids w et)) /\ exists a, back s' d = Some a /\ length a = end_id w d - beg_id w d) /\
    (forall d, et d = false -> back s' d = back s d /\ cont s' d = cont s d).
Proof.
  intros w et forced junk s Hu Hf. unfold create_maps. cbv zeta. set (missing := fun d => match back s d, cont s d with Some _, Some _ => false | _, _ => true end).
  assert (Hnew : forced || existsb (fun d => et d && missing d) [0; 1; 2; 3] = true).
  { destruct Hf as [->|Hc]; [reflexivity|]. apply orb_true_intro. right. destruct (existsb (fun d => et d && missing d) [0; 1; 2; 3]) eqn:E; [reflexivity|]. exfalso. apply Hc. intros d Hd He.
    assert (X : et d && missing d = false).
    { destruct (et d && missing d) eqn:X; [|reflexivity]. rewrite <- E. symmetry. apply existsb_exists. exists d. split; [|exact X]. cbn. lia. }
    rewrite He in X. unfold missing in X. cbn in X. destruct (back s d), (cont s d); try discriminate. split; discriminate. }
  match goal with |- context [if ?b then _ else _] => change b with (forced || existsb (fun d => et d && missing d) [0; 1; 2; 3]) end. rewrite Hnew. destruct (backs_loop w junk (filter et [0; 1; 2; 3]) s Hu) as (s' & E & Ec & Hb & Ho).
  { apply NoDup_filter. apply (seq_NoDup 4 0). }
  assert (Hin : forall d, d < 4 -> et d = true -> In d (filter et [0; 1; 2; 3])) by (intros d Hd He; apply filter_In; split; [cbn; lia|exact He]).
  rewrite E. cbn [obind]. eexists. split; [reflexivity|]. split; [|split].
  - intros d Hd He. destruct (Hb d (Hin d Hd He)) as (a & Ea & _). cbn [back MpModel.cont]. rewrite Ea, He, (proj2 (Nat.ltb_lt _ _) Hd). split; discriminate.
  - intros d Hd He. destruct (Hb d (Hin d Hd He)) as (a & Ea & Hl & Hr). split; [|split].
    + intros b i Hf' Hi. rewrite <- (first_beg w d b Hf'). unfold element. cbn [back]. rewrite Ea. cbn [obind]. now apply Hr.
    + cbn [MpModel.cont]. now rewrite He, (proj2 (Nat.ltb_lt _ _) Hd).
    + exists a. split; [exact Ea|exact Hl].
  - intros d He. cbn [back MpModel.cont]. rewrite He. cbn [andb]. rewrite Ec. split; [|reflexivity]. apply Ho. rewrite filter_In. intros (_ & H). congruence.
Qed.
Lemma create_old : forall w et junk s, complete et s -> create_maps w et false junk s = Some s.
Proof.
  intros w et junk s Hc. unfold create_maps. cbv zeta. cbn [orb]. match goal with |- (if ?b then _ else _) = _ => assert (X : b = false) end; [|now rewrite X].
  destruct (existsb _ _) eqn:E; [|reflexivity]. apply existsb_exists in E as (d & Hd & E). apply andb_true_iff in E as (He & E). assert (d < 4) by (cbn in Hd; lia).
  destruct (Hc d ltac:(assumption) He) as (A & B). destruct (back s d), (cont s d); congruence.
Qed.
