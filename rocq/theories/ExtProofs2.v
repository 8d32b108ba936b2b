(** The tables computed by setup(). *)
From Verif Require Import Prelude ExtModel ExtSpec ExtProofs.
Local Arguments Nat.ltb : simpl never.
Local Arguments Nat.eqb : simpl never.
Local Arguments Nat.leb : simpl never.
Local Arguments sm : simpl never.

Notation ups := (upd_ord lexb lexb_trans lexb_total).
Lemma fold_add (h : key * nat -> key) (g : key * nat -> nat) M : forall W, ordk W ->
  let W' := fold_left (fun w e => add_to lexb (h e) (g e) w) M W in
  ordk W' /\ (forall phi : key -> nat, sm (fun e => phi (fst e) * snd e) W' = sm (fun e => phi (h e) * g e) M + sm (fun e => phi (fst e) * snd e) W) /\
  (forall e, In e W' -> In (fst e) (map h M) \/ In e W) /\ (forall e, In e M -> In (h e) (map fst W')) /\ (forall x, In x (map fst W) -> In x (map fst W')).
Proof.
  induction M as [|e M IH]; intros W HW W'.
  - cbn in W'. subst W'. split; [auto|]. split; [intros; unfold sm; cbn; lia|]. split; [auto|]. split; [intros ? []|auto].
  - cbn [fold_left] in W'. destruct (IH (add_to lexb (h e) (g e) W) (ups _ _ _ _ HW)) as (I1 & I2 & I3 & I4 & I5). fold W' in I1, I2, I3, I4, I5.
    split; [auto|]. split; [|split; [|split]].
    + intros phi. rewrite I2, sm_cons, (add_sum lexb lexb_total). lia.
    + intros x Hx. destruct (I3 x Hx) as [H|H]; [left; cbn; auto|]. apply (upd_keys lexb lexb_total) in H as [->|H]; [left; cbn; auto|auto].
    + intros x [<-|Hx]; [|auto]. apply I5, (upd_has lexb lexb_total).
    + intros x Hx. apply I5, upd_mono, Hx.
Qed.
Lemma lb_before l x y : In y (firstn (lb l x) l) -> lexb y x = true.
Proof. induction l as [|z l IH]; cbn; [tauto|]. destruct (lexb z x) eqn:E; cbn; [|tauto]. intros [<-|H]; auto. Qed.
Lemma lb_after l x y : incr (fun x => x) l -> In y (skipn (lb l x) l) -> lexb y x = false.
Proof.
  induction l as [|z l IH]; cbn; [tauto|]. intros (H1 & H2). destruct (lexb z x) eqn:E; cbn; [auto|]. intros [<-|H]; [auto|].
  destruct (lexb y x) eqn:Ey; [|auto]. rewrite <- E. symmetry. apply (lexb_trans _ y); auto.
Qed.
Lemma fill_eq t a b : length a = length b -> same t a b = true -> fill t a = fill t b.
Proof. intros H E. apply same_eq in E. unfold fill. rewrite E, H. reflexivity. Qed.
Lemma fill_lt t a b : length a = length b -> plt t a b = true -> lexb (fill t a) (fill t b) = true.
Proof. intros H E. rewrite lexb_fill by (rewrite fill_len; auto). unfold plt in *. rewrite fill_firstn by lia. exact E. Qed.
Lemma lex_pfx t a b : length a = length b -> lexb a b = true -> plt t a b = true \/ same t a b = true.
Proof. intros H E. rewrite (lexb_split t) in E by auto. apply orb_true_iff in E as [E|E]; [auto|]. apply andb_true_iff in E as (E & _). auto. Qed.
Lemma plt_pfx u t a b : u <= t -> length a = length b -> plt t a b = true -> plt u a b = true \/ same u a b = true.
Proof.
  intros Hu H E. destruct (pfx_cases u a b) as [C|[C|C]]; auto. apply (plt_le t u) in C; auto. unfold plt in *. rewrite (lexb_asym _ _ E) in C. discriminate.
Qed.
Lemma plt_trans t a b c : plt t a b = true -> plt t b c = true -> plt t a c = true.
Proof. apply lexb_trans. Qed.
Lemma plt_asym t a b : plt t a b = true -> plt t b a = false.
Proof. apply lexb_asym. Qed.
Lemma plt_irr t a : plt t a a = false.
Proof. apply lexb_irr. Qed.

(** * sum_part_ids *)
Section Sums.
Variables N st ed at' : nat.
Hypothesis Hst : st <= ed.
Hypothesis Hed : ed <= at'.
Hypothesis Hat : at' < N.
Definition wf (rw : mapk) : Prop := ordk rw /\ forall e, In e rw -> length (fst e) = N /\ set at' 0 (fst e) = fill ed (fst e).
(** Sums over the entries of one group, over the preceding groups *)
Definition grp (w : mapk) (P : key) (psi : nat -> nat) : nat := sm (fun e => (if same ed (fst e) P then psi (at_ at' (fst e)) else 0) * snd e) w.
Definition prev (w : mapk) (P : key) (psi : nat -> nat) : nat := sm (fun e => (if same st (fst e) P && plt ed (fst e) P then psi (at_ at' (fst e)) else 0) * snd e) w.
Definition inst (w : mapk) (P : key) (psi : nat -> nat) : nat := sm (fun e => (if same st (fst e) P then psi (at_ at' (fst e)) else 0) * snd e) w.
Record good (dn w1 : mapk) : Prop := {
  g_ord : ordk w1;
  g_shape : forall e, In e w1 -> length (fst e) = N /\ set at' 0 (fst e) = fill ed (fst e);
  g_from : forall e, In e w1 -> exists d, In d dn /\ same ed (fst e) (fst d) = true;
  g_sum : forall d, In d dn -> forall psi, grp w1 (fst d) psi = prev dn (fst d) psi;
  g_cover : forall d, In d dn -> exists e, In e w1 /\ same ed (fst e) (fst d) = true }.
Definition inv (dn : mapk) (s : sp_state) : Prop :=
  let '(a_ext, s_prev, w1) := s in
  In a_ext (map fst dn) /\ length a_ext = N /\ (forall d, In d dn -> plt ed (fst d) a_ext = true \/ same ed (fst d) a_ext = true) /\
  ord Nat.ltb s_prev /\ s_prev <> [] /\ (forall psi, sm (fun p => psi (fst p) * snd p) s_prev = inst dn a_ext psi) /\ good dn w1.

Lemma fold_emplace (b : nat -> key) s : forall w, ordk w -> ord Nat.ltb s -> (forall x y, b x = b y -> x = y) -> (forall p, In p s -> ~ In (b (fst p)) (map fst w)) ->
  let w' := fold_left (fun w p => emplace lexb (b (fst p)) (snd p) w) s w in
  ordk w' /\ (forall phi : key -> nat, sm (fun e => phi (fst e) * snd e) w' = sm (fun p => phi (b (fst p)) * snd p) s + sm (fun e => phi (fst e) * snd e) w) /\
  (forall e, In e w' -> (exists p, In p s /\ fst e = b (fst p)) \/ In e w) /\ (forall p, In p s -> In (b (fst p)) (map fst w')) /\ (forall x, In x (map fst w) -> In x (map fst w')).
Proof.
  induction s as [|p s IH]; intros w Hw Hs Hb Hn w'.
  - cbn in w'. subst w'. split; [auto|]. split; [intros; unfold sm; cbn; lia|]. split; [auto|]. split; [intros ? []|auto].
  - cbn [fold_left] in w'. destruct Hs as (Hs1 & Hs2). destruct (IH (emplace lexb (b (fst p)) (snd p) w)) as (I1 & I2 & I3 & I4 & I5); auto.
    + apply ups, Hw.
    + intros q Hq C. apply in_map_iff in C as (e & E & C). apply (upd_keys lexb lexb_total) in C as [C|C].
      * rewrite C in E. apply Hb in E. specialize (Hs1 q Hq). rewrite E, Nat.ltb_irrefl in Hs1. discriminate.
      * apply (Hn q); [cbn; auto|]. rewrite <- E. apply in_map, C.
    + fold w' in I1, I2, I3, I4, I5. split; [auto|]. split; [|split; [|split]].
      * intros phi. rewrite I2, sm_cons, (emplace_sum lexb lexb_total) by (apply Hn; cbn; auto). lia.
      * intros e He. destruct (I3 e He) as [(q & Hq & E)|H]; [left; exists q; cbn; auto|]. apply (upd_keys lexb lexb_total) in H as [E|H]; [left; exists p; cbn; auto|auto].
      * intros q [<-|Hq]; [|auto]. apply I5, (upd_has lexb lexb_total).
      * intros x Hx. apply I5, upd_mono, Hx.
Qed.
Lemma fold_emplace_sum b s w : forall phi : key -> nat, (forall p, In p s -> phi (b (fst p)) = 0) -> sm (fun e => phi (fst e) * snd e) (fold_left (fun w (p : nat * nat) => emplace lexb (b (fst p)) (snd p) w) s w) = sm (fun e => phi (fst e) * snd e) w.
Proof.
  intros phi. revert w. induction s as [|p s IH]; intros w H; [auto|]. cbn [fold_left]. rewrite IH by (intros; apply H; cbn; auto).
  assert (E : phi (b (fst p)) = 0) by (apply H; cbn; auto). generalize (b (fst p)) as k, E. clear. intros k E. unfold emplace.
  induction w as [|(k', v') w IH]; [unfold sm; cbn; rewrite E; lia|]. cbn [upd_]. destruct (lexb k k'); [rewrite !sm_cons; cbn; rewrite E; lia|]. destruct (lexb k' k); [|reflexivity].
  rewrite !sm_cons, IH. reflexivity.
Qed.
Lemma grp_emplace0 k w P psi : grp (emplace lexb k 0 w) P psi = grp w P psi.
Proof. apply (emplace0_sum lexb (fun k => if same ed k P then psi (at_ at' k) else 0)). Qed.
Lemma prev_app dn e P psi : prev (dn ++ [e]) P psi = prev dn P psi + (if same st (fst e) P && plt ed (fst e) P then psi (at_ at' (fst e)) else 0) * snd e.
Proof. unfold prev. rewrite sm_app, sm_cons. unfold sm at 2. cbn. lia. Qed.
Lemma inst_app dn e P psi : inst (dn ++ [e]) P psi = inst dn P psi + (if same st (fst e) P then psi (at_ at' (fst e)) else 0) * snd e.
Proof. unfold inst. rewrite sm_app, sm_cons. unfold sm at 2. cbn. lia. Qed.
Lemma grp_same w P Q psi : same ed P Q = true -> grp w P psi = grp w Q psi.
Proof. intros H. apply sm_ext. intros e _. rewrite (same_same_r ed P Q) by auto. reflexivity. Qed.
Lemma prev_same w P Q psi : same ed P Q = true -> prev w P psi = prev w Q psi.
Proof. intros H. apply sm_ext. intros e _. rewrite (same_plt_r ed P Q), (same_same_r st P Q) by eauto using same_le. reflexivity. Qed.
Lemma inst_same w P Q psi : same st P Q = true -> inst w P psi = inst w Q psi.
Proof. intros H. apply sm_ext. intros e _. rewrite (same_same_r st P Q) by auto. reflexivity. Qed.

Lemma has_in s x : sp_has s x = true -> In x (map fst s).
Proof. unfold sp_has. intros H. apply existsb_exists in H as (p & Hp & E). apply Nat.eqb_eq in E. subst. apply in_map, Hp. Qed.
Lemma step_inv dn s e : inv dn s -> (forall d, In d dn -> length (fst d) = N /\ lexb (fst d) (fst e) = true) -> length (fst e) = N -> set at' 0 (fst e) = fill ed (fst e) -> inv (dn ++ [e]) (sp_step st ed at' s e).
Proof.
  destruct s as [[a_ext s_prev] w1], e as [k v]. intros (Ha & HaN & Hmax & Hso & Hsn & Hss & HG) Hd Hk Hsh. cbn [fst snd] in *.
  assert (Hak : lexb a_ext k = true). { apply in_map_iff in Ha as (d & <- & Hd'). apply Hd, Hd'. }
  assert (Hnew : forall d, In d dn -> plt ed k (fst d) = false).
  { intros d Hd'. destruct (plt ed k (fst d)) eqn:E; [|auto]. destruct (Hd d Hd') as (Hl & Hlt). apply plt_lex in E; [|lia]. rewrite (lexb_asym _ _ Hlt) in E. discriminate. }
  destruct HG as [G1 G2 G3 G4 G5].
  (* adding the number to the running sums *)
  assert (Hadd : forall a, same st a k = true -> (forall psi, sm (fun p => psi (fst p) * snd p) s_prev = inst dn a psi) ->
     forall psi, sm (fun p => psi (fst p) * snd p) (add_to Nat.ltb (at_ at' k) v s_prev) = inst (dn ++ [(k, v)]) a psi).
  { intros a E H psi. rewrite (add_sum Nat.ltb nat_total), H, inst_app. cbn [fst snd]. rewrite (same_sym st k a), E. lia. }
  assert (Hadd_ne : add_to Nat.ltb (at_ at' k) v s_prev <> []).
  { intros C. pose proof (upd_has Nat.ltb nat_total (fun x => x + v) (at_ at' k) v s_prev) as H. unfold add_to in C. rewrite C in H. destruct H. }
  unfold sp_step. destruct (same ed a_ext k) eqn:Eed.
  - (* the same group *)
    split; [rewrite map_app; apply in_or_app; auto|]. split; [auto|]. split; [|split; [|split; [auto|split]]].
    + intros d Hd'. apply in_app_or in Hd' as [Hd'|[<-|[]]]; [auto|]. cbn. right. rewrite same_sym. auto.
    + apply (upd_ord Nat.ltb nat_trans nat_total), Hso.
    + apply Hadd; [apply (same_le ed); auto|auto].
    + set (w' := if sp_has s_prev (at_ at' k) then w1 else emplace lexb k 0 w1).
      assert (Hw' : ordk w' /\ (forall P psi, grp w' P psi = grp w1 P psi) /\ (forall e, In e w' -> fst e = k \/ In e w1) /\ (forall x, In x (map fst w1) -> In x (map fst w'))).
      { unfold w'. destruct (sp_has s_prev (at_ at' k)); [auto|]. split; [apply ups, G1|]. split; [intros; apply grp_emplace0|]. split; [intros e He; apply (upd_keys lexb lexb_total) in He; auto|intros; apply upd_mono; auto]. }
      destruct Hw' as (W1 & W2 & W3 & W4). apply in_map_iff in Ha as (da & Eda & Hda). constructor; auto.
      * intros e He. destruct (W3 e He) as [->|He']; auto.
      * intros e He. destruct (W3 e He) as [->|He']; [exists da; split; [apply in_or_app; auto|]; rewrite Eda, same_sym; auto|].
        destruct (G3 e He') as (d & Hd' & E). exists d. split; [apply in_or_app; auto|auto].
      * intros d Hd' psi. rewrite W2, prev_app. cbn [fst snd]. apply in_app_or in Hd' as [Hd'|[<-|[]]].
        -- rewrite (Hnew d Hd'), andb_false_r, (G4 d Hd'). lia.
        -- cbn [fst]. rewrite plt_irr, andb_false_r. rewrite (grp_same w1 k a_ext), (prev_same dn k a_ext) by (rewrite same_sym; auto). rewrite <- Eda, (G4 da Hda). lia.
      * intros d Hd'. assert (Hlift : forall P, (exists e, In e w1 /\ same ed (fst e) P = true) -> exists e, In e w' /\ same ed (fst e) P = true).
        { intros P (e & He & E). assert (Hx : In (fst e) (map fst w')) by (apply W4, in_map, He). apply in_map_iff in Hx as (e' & E' & Hx). exists e'. rewrite E'. auto. }
        apply Hlift. apply in_app_or in Hd' as [Hd'|[<-|[]]]; [auto|]. cbn [fst]. destruct (G5 da Hda) as (e & He & E). exists e. split; [auto|]. rewrite (same_same_r ed k a_ext); [rewrite <- Eda; auto|rewrite same_sym; auto].
  - assert (Hpk : plt ed a_ext k = true) by (destruct (lex_pfx ed a_ext k) as [?|?]; auto; try lia; congruence).
    assert (Hdk : forall d, In d dn -> plt ed (fst d) k = true).
    { intros d Hd'. destruct (Hmax d Hd') as [E|E]; [eapply plt_trans; eauto|]. rewrite (same_plt_l ed (fst d) a_ext) by auto. auto. }
    assert (Hw1k : forall e, In e w1 -> same ed (fst e) k = false).
    { intros e He. destruct (G3 e He) as (d & Hd' & E). rewrite (same_same_l ed (fst e) (fst d)) by auto. apply plt_same, Hdk, Hd'. }
    assert (Hg0 : forall psi, grp w1 k psi = 0) by (intros psi; apply sm_0; intros e He; rewrite (Hw1k e He); auto).
    destruct (same st a_ext k) eqn:Est; cbn [negb].
    + (* a new group *)
      set (b := fun x => set at' x (fill ed k)).
      assert (Hb_len : forall x, length (b x) = N) by (intros x; unfold b; rewrite set_len, fill_len; auto).
      assert (Hb_at : forall x, at_ at' (b x) = x) by (intros x; unfold b; rewrite at_set_eq; [auto|rewrite fill_len; lia]).
      assert (Hb_ed : forall x, same ed (b x) k = true) by (intros x; apply same_eq; unfold b; rewrite set_firstn, fill_firstn by lia; auto).
      assert (Hb_inj : forall x y, b x = b y -> x = y) by (intros x y E; rewrite <- (Hb_at x), E; auto).
      assert (Hb_new : forall p, In p s_prev -> ~ In (b (fst p)) (map fst w1)).
      { intros p _ C. apply in_map_iff in C as (e & E & C). pose proof (Hw1k e C) as H. rewrite E, Hb_ed in H. discriminate. }
      destruct (fold_emplace b s_prev w1 G1 Hso Hb_inj Hb_new) as (F1 & F2 & F3 & F4 & F5).
      set (wf := fold_left (fun w p => emplace lexb (b (fst p)) (snd p) w) s_prev w1) in *.
      set (w' := if sp_has s_prev (at_ at' k) then wf else emplace lexb k 0 wf).
      assert (Hw' : ordk w' /\ (forall P psi, grp w' P psi = grp wf P psi) /\ (forall e, In e w' -> fst e = k \/ In e wf) /\ (forall x, In x (map fst wf) -> In x (map fst w'))).
      { unfold w'. destruct (sp_has s_prev (at_ at' k)); [auto|]. split; [apply ups, F1|]. split; [intros; apply grp_emplace0|]. split; [intros e He; apply (upd_keys lexb lexb_total) in He; auto|intros; apply upd_mono; auto]. }
      destruct Hw' as (W1 & W2 & W3 & W4).
      split; [rewrite map_app; apply in_or_app; cbn; auto|]. split; [auto|]. split; [|split; [|split; [auto|split]]].
      * intros d Hd'. apply in_app_or in Hd' as [Hd'|[<-|[]]]; [auto|]. cbn. right. apply same_refl.
      * apply (upd_ord Nat.ltb nat_trans nat_total), Hso.
      * apply Hadd; [apply same_refl|]. intros psi. rewrite Hss. apply inst_same; auto.
      * fold b. change (good (dn ++ [(k, v)]) w'). constructor; auto.
        -- intros e He. destruct (W3 e He) as [->|He']; [auto|]. destruct (F3 e He') as [(p & Hp & ->)|He'']; [|auto]. split; [auto|]. unfold b. rewrite set_set.
           apply ext_at; [rewrite set_len, !fill_len, set_len, fill_len; auto|]. intros i Hi. rewrite set_len, fill_len in Hi. destruct (Nat.eq_dec i at') as [->|Hne].
           ++ rewrite at_set_eq by (rewrite fill_len; auto). rewrite at_fill_0; auto.
           ++ rewrite at_set_ne by auto. destruct (Nat.le_gt_cases ed i) as [C|C]; [rewrite !at_fill_0; auto|]. rewrite !at_fill by auto. rewrite at_set_ne by auto. rewrite at_fill; auto.
        -- intros e He. destruct (W3 e He) as [->|He']; [exists (k, v); split; [apply in_or_app; cbn; auto|]; apply same_refl|].
           destruct (F3 e He') as [(p & Hp & ->)|He'']; [exists (k, v); split; [apply in_or_app; cbn; auto|]; apply Hb_ed|].
           destruct (G3 e He'') as (d & Hd' & E). exists d. split; [apply in_or_app; auto|auto].
        -- intros d Hd' psi. rewrite W2, prev_app. cbn [fst snd].
           assert (F2' : grp wf (fst d) psi = sm (fun p => (if same ed (b (fst p)) (fst d) then psi (at_ at' (b (fst p))) else 0) * snd p) s_prev + grp w1 (fst d) psi)
             by (exact (F2 (fun k => if same ed k (fst d) then psi (at_ at' k) else 0))). rewrite F2'.
           apply in_app_or in Hd' as [Hd'|[<-|[]]].
           ++ rewrite (Hnew d Hd'), andb_false_r, (G4 d Hd'). rewrite sm_0; [lia|]. intros p Hp. rewrite (same_same_l ed (b (fst p)) k) by auto. rewrite same_sym, (plt_same _ _ _ (Hdk d Hd')). auto.
           ++ cbn [fst]. rewrite plt_irr, andb_false_r, Hg0. rewrite (sm_ext _ (fun p => psi (fst p) * snd p)) by (intros p _; rewrite Hb_ed, Hb_at; auto). rewrite Hss.
              unfold inst, prev. rewrite !Nat.add_0_r. apply sm_ext. intros e He. rewrite (Hdk e He), andb_true_r. rewrite (same_same_r st a_ext k) by auto. auto.
        -- intros d Hd'. assert (Hlift : forall P, (exists e, In e wf /\ same ed (fst e) P = true) -> exists e, In e w' /\ same ed (fst e) P = true).
           { intros P (e & He & E). assert (Hx : In (fst e) (map fst w')) by (apply W4, in_map, He). apply in_map_iff in Hx as (e' & E' & Hx). exists e'. rewrite E'. auto. }
           apply Hlift. apply in_app_or in Hd' as [Hd'|[<-|[]]].
           ++ destruct (G5 d Hd') as (e & He & E). assert (Hx : In (fst e) (map fst wf)) by (apply F5, in_map, He). apply in_map_iff in Hx as (e' & E' & Hx). exists e'. rewrite E'. auto.
           ++ destruct s_prev as [|p s_prev]; [contradiction|]. assert (Hx : In (b (fst p)) (map fst wf)) by (apply F4; cbn; auto). apply in_map_iff in Hx as (e' & E' & Hx). exists e'. rewrite E'. auto.
    + (* a new sequence of groups *)
      assert (Hdst : forall d, In d dn -> same st (fst d) k = false).
      { intros d Hd'. destruct (same st (fst d) k) eqn:E; [|auto]. exfalso.
        destruct (plt_pfx st ed a_ext k Hst (eq_trans HaN (eq_sym Hk)) Hpk) as [C|C]; [|congruence]. destruct (Hd d Hd') as (HdN & _).
        assert (Hc : plt st (fst d) a_ext = true \/ same st (fst d) a_ext = true).
        { destruct (Hmax d Hd') as [H|H]; [apply (plt_pfx st ed); auto; lia|right; apply (same_le ed); auto]. }
        destruct Hc as [Hc|Hc]; [pose proof (plt_trans _ _ _ _ Hc C) as H; rewrite (plt_same _ _ _ H) in E; discriminate|].
        rewrite (same_same_l st (fst d) a_ext) in E by auto. congruence. }
      unfold sp_first. split; [rewrite map_app; apply in_or_app; cbn; auto|]. split; [auto|]. split; [|split; [|split; [discriminate|split]]].
      * intros d Hd'. apply in_app_or in Hd' as [Hd'|[<-|[]]]; [auto|]. cbn. right. apply same_refl.
      * cbn. split; [intros ? []|auto].
      * intros psi. rewrite inst_app. cbn [fst snd]. rewrite same_refl. assert (E0 : inst dn k psi = 0) by (apply sm_0; intros e He; rewrite (Hdst e He); auto). rewrite E0. unfold sm. cbn. lia.
      * constructor.
        -- apply ups, G1.
        -- intros e He. apply (upd_keys lexb lexb_total) in He as [->|He]; auto.
        -- intros e He. apply (upd_keys lexb lexb_total) in He as [->|He]; [exists (k, v); split; [apply in_or_app; cbn; auto|]; apply same_refl|].
           destruct (G3 e He) as (d & Hd' & E). exists d. split; [apply in_or_app; auto|auto].
        -- intros d Hd' psi. rewrite grp_emplace0, prev_app. cbn [fst snd]. apply in_app_or in Hd' as [Hd'|[<-|[]]].
           ++ rewrite (Hnew d Hd'), andb_false_r, (G4 d Hd'). lia.
           ++ cbn [fst]. rewrite plt_irr, andb_false_r, Hg0. unfold prev. rewrite sm_0; [lia|]. intros e He. rewrite (Hdst e He). auto.
        -- intros d Hd'. apply in_app_or in Hd' as [Hd'|[<-|[]]].
           ++ destruct (G5 d Hd') as (e & He & E). assert (Hx : In (fst e) (map fst (emplace lexb k 0 w1))) by (apply upd_mono, in_map, He). apply in_map_iff in Hx as (e' & E' & Hx). exists e'. rewrite E'. auto.
           ++ pose proof (upd_has lexb lexb_total (fun x => x) k 0 w1) as Hx. apply in_map_iff in Hx as (e' & E' & Hx). exists e'. split; [exact Hx|]. rewrite E'. apply same_refl.
Qed.
Lemma sum_part_ids_ok rw : wf rw -> rw <> [] -> exists w1, sum_part_ids st ed at' rw = Some w1 /\ good rw w1.
Proof.
  intros (Ho & Hk) Hne. destruct rw as [|(k, v) r]; [contradiction|]. unfold sum_part_ids. eexists. split; [reflexivity|].
  destruct (Hk (k, v) (or_introl eq_refl)) as (HkN & Hks). cbn [fst] in *.
  assert (I0 : inv [(k, v)] (sp_first k at' v [])).
  { unfold sp_first. split; [cbn; auto|]. split; [auto|]. split; [|split; [|split; [discriminate|split]]].
    - intros d [<-|[]]. right. apply same_refl.
    - cbn. split; [intros ? []|auto].
    - intros psi. unfold inst. rewrite !sm_cons. cbn [fst snd]. rewrite same_refl. reflexivity.
    - constructor; cbn.
      + split; [intros ? []|auto].
      + intros e [<-|[]]. auto.
      + intros e [<-|[]]. exists (k, v). split; [auto|apply same_refl].
      + intros d [<-|[]] psi. unfold grp, prev, sm. cbn. rewrite plt_irr, andb_false_r. lia.
      + intros d [<-|[]]. exists (k, 0). split; [auto|apply same_refl]. }
  assert (H : forall r dn s, inv dn s -> ordk (dn ++ r) -> (forall e, In e (dn ++ r) -> length (fst e) = N /\ set at' 0 (fst e) = fill ed (fst e)) -> inv (dn ++ r) (fold_left (sp_step st ed at') r s)).
  { clear -Hst Hed Hat. induction r as [|e r IH]; intros dn s HI Ho Hk; [rewrite app_nil_r; exact HI|]. cbn [fold_left]. replace (dn ++ e :: r) with ((dn ++ [e]) ++ r) in * by (rewrite <- app_assoc; reflexivity).
    apply IH; auto. assert (He : In e ((dn ++ [e]) ++ r)) by (apply in_or_app; left; apply in_or_app; cbn; auto). destruct (Hk e He).
    apply step_inv; auto. intros d Hd. split; [apply Hk; apply in_or_app; left; apply in_or_app; auto|].
    clear -Ho Hd. rewrite <- app_assoc in Ho. induction dn as [|x dn IH]; [destruct Hd|]. cbn in Ho. destruct Ho as (H1 & H2). destruct Hd as [->|Hd]; [apply H1, in_or_app; right; cbn; auto|auto]. }
  specialize (H r [(k, v)] _ I0 Ho Hk). cbn [app] in H. destruct (fold_left (sp_step st ed at') r (sp_first k at' v [])) as [[a s] w1]. apply H.
Qed.
End Sums.
