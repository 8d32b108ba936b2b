From Coq Require Import Reals.
From Verif Require Import Prelude DofModel DofSpec DofProofs DofProofs2 SymModel SymSpec SymProofs SymProofs2 SymProofs3 OrdModel OrdProofs2 SparsityModel SparsitySpec SparsityProofs IterProofs IterProofs2 GeomIterSpec GeomIterProofs GdModel GdSpec.

Lemma perm_gperm : forall p, is_perm4 p -> gperm (map Z.of_nat p) = p.
Proof.
  intros p Hp.
  assert (H : forallb (fun p => if list_eq_dec Nat.eq_dec (gperm (map Z.of_nat p)) p then true else false) perms4 = true) by (vm_compute; reflexivity).
  pose proof (forall_perms _ H p Hp) as G. cbv beta in G. destruct (list_eq_dec Nat.eq_dec (gperm (map Z.of_nat p)) p); [assumption|discriminate].
Qed.
Lemma placed_fun : forall t e c l p r r', t < 6 -> e < tet_elems t -> is_perm4 p -> placed t e c l p r -> placed t e c l p r' -> r = r'.
Proof.
  intros t e c l p r r' Ht He Hp H H'. set (g := map Z.of_nat p).
  assert (Hlg : length g = 4) by (unfold g; rewrite map_length; apply Hp).
  assert (Hn : NoDup g) by (unfold g; apply FinFun.Injective_map_NoDup; [intros x y; apply Nat2Z.inj|apply Hp]).
  rewrite <- (perm_gperm p Hp) in H, H'. fold g in H, H'.
  apply (placed_conform g g t c e e l l r r' Hlg Hn Hlg Hn Ht He He); [now intros x| |exact H|exact H'].
  intros k k' v v' E E' Eg. assert (Hc : forall x k, nth_error (corners t e) k = Some x -> In x (corners t e)) by (intros x j; apply nth_error_In).
  assert (v = v').
  { assert (Hb : forall x, In x (corners t e) -> x < 4).
    { assert (Q : forallb (fun t => forallb (fun e => forallb (fun x => x <? 4) (corners t e)) (seq 0 (tet_elems t))) (seq 0 6) = true) by (vm_compute; reflexivity).
      pose proof (forall_seq _ _ (forall_seq _ _ Q t Ht) e He) as Q'. cbv beta in Q'. rewrite forallb_forall in Q'. intros x Hx. now apply Nat.ltb_lt, Q'. }
    pose proof (Hb v (Hc v k E)). pose proof (Hb v' (Hc v' k' E')). unfold gid in Eg.
    apply (proj1 (NoDup_nth g 0%Z) Hn); [lia|lia|exact Eg]. }
  subst v'. assert (Hnd : NoDup (corners t e)).
  { assert (Q : forallb (fun t => forallb (fun e => nodupb (corners t e)) (seq 0 (tet_elems t))) (seq 0 6) = true) by (vm_compute; reflexivity).
    pose proof (forall_seq _ _ (forall_seq _ _ Q t Ht) e He) as Q'. cbv beta in Q'. now apply nodupb_iff. }
  assert (k = k'); [|now subst]. apply (proj1 (NoDup_nth_error (corners t e)) Hnd); [apply nth_error_Some; congruence|congruence].
Qed.
Lemma sign_ok : forall t e p, t < 6 -> e < tet_elems t -> is_perm4 p -> exists s, locus_sign t e p = Some s /\ sign_is t e p s.
Proof.
  intros t e p Ht He Hp.
  assert (Q : forallb (fun t => forallb (fun e => forallb (fun p => match locus_sign t e p with
     | Some s => Z.eqb s (match t with 2 => if descents p (corners 2 e) =? 0 then 1%Z else (-1)%Z
         | 4 => if descents p [e; (e + 1) mod 4; (e + 2) mod 4; (e + 3) mod 4] =? 1 then 1%Z else (-1)%Z | _ => 1%Z end)
     | None => false end) perms4) (seq 0 (tet_elems t))) (seq 0 6) = true) by (vm_compute; reflexivity).
  pose proof (forall_perms _ (forall_seq _ _ (forall_seq _ _ Q t Ht) e He) p Hp) as G. cbv beta in G.
  destruct (locus_sign t e p) as [s|]; [|discriminate]. apply Z.eqb_eq in G. exists s. split; [reflexivity|].
  unfold sign_is. destruct t as [|[|[|[|[|t]]]]]; exact G.
Qed.
Lemma sign_fun : forall t e p s s', sign_is t e p s -> sign_is t e p s' -> s = s'.
Proof. intros t e p s s'. unfold sign_is. destruct t as [|[|[|[|[|t]]]]]; congruence. Qed.

(** What the two reads give for a dof of the map. *)
Lemma take_spec : forall data d p g lo, wf d -> labelled d -> is_perm4 p -> local_order d g = Some lo ->
  exists x, take_avail data d lo p = Some x /\
    match x with Some v => value_of data d p g v /\ take_dof data d lo p = Some v | None => forall v, ~ value_of data d p g v end.
Proof.
  intros data d p g lo Hwf Hlab Hp E. destruct (lo_facts d Hwf Hlab g lo E) as (c & l & Es & En & A1 & A2 & A3 & A4 & A5 & A6).
  destruct (index_placed (lo_type lo) (lo_elem lo) c l p A1 A2 A4 Hp) as (r & Er & Hr).
  destruct (sign_ok (lo_type lo) (lo_elem lo) p A1 A2 Hp) as (s & Ez & Hs).
  set (i := store_at d (lo_type lo) (lo_leid lo - l + r)).
  assert (Ei : locus_index d lo p = Some i).
  { unfold locus_index. rewrite Es. cbn [obind fst snd]. rewrite Er. cbn [obind]. unfold i, store_at, oriented. rewrite (num_dof_cnt d (lo_type lo - 1)) by (assumption || lia).
    destruct (lo_type lo) as [|[|[|[|[|t]]]]]; cbn [Nat.eqb orb Nat.sub]; f_equal; lia. }
  assert (Hu : forall v, value_of data d p g v -> exists a w, data (geom_dim (lo_type lo)) (lo_elem lo) = Some a /\ nth_error a i = Some w).
  { intros v (lo' & c' & l' & r' & a & s' & w & B1 & B2 & B3 & B4 & B5 & B6 & _). rewrite E in B1. injection B1 as <-. rewrite Es in B2. injection B2 as <- <-.
    pose proof (placed_fun _ _ _ _ _ _ _ A1 A2 Hp Hr B3) as <-. exists a, w. auto. }
  unfold take_avail, take_dof. rewrite Ei, Ez. cbn [obind]. destruct (data (geom_dim (lo_type lo)) (lo_elem lo)) as [a|] eqn:Ea.
  - cbn [obind]. destruct (Nat.ltb_spec i (length a)) as [Hi|Hi].
    + unfold rd. destruct (nth_error a i) as [w|] eqn:Ew; [|apply nth_error_None in Ew; lia]. cbn [obind]. eexists. split; [reflexivity|]. split; [|reflexivity].
      exists lo, c, l, r, a, s, w. repeat split; try assumption; try (apply Hr). 
    + exists None. split; [reflexivity|]. intros v Hv. destruct (Hu v Hv) as (a1 & w & B1 & B2). apply Some_inj in B1. subst a1. apply nth_error_None in Hi. congruence.
  - exists None. split; [reflexivity|]. intros v Hv. destruct (Hu v Hv) as (a' & w & B1 & B2). discriminate.
Qed.
Lemma ndata_store : forall d q, wf d -> ndata d q = store_size d q.
Proof. intros d q H. unfold ndata, store_size. rewrite !num_dof_cnt by (assumption || lia). now destruct q as [|[|[|q]]]. Qed.
Lemma full_value : forall data d p g, wf d -> labelled d -> is_perm4 p -> full_data data d -> g < num_dof_tet d -> exists v, value_of data d p g v.
Proof.
  intros data d p g Hwf Hlab Hp Hf Hg. assert (exists lo, local_order d g = Some lo) as [lo E].
  { rewrite local_order_layout by assumption. rewrite length_layout_num in Hg by assumption. destruct (nth_error (layout d) g) eqn:En; [eexists; reflexivity|apply nth_error_None in En; lia]. }
  destruct (lo_facts d Hwf Hlab g lo E) as (c & l & Es & En & A1 & A2 & A3 & A4 & A5 & A6).
  destruct (index_placed (lo_type lo) (lo_elem lo) c l p A1 A2 A4 Hp) as (r & Er & Hr).
  destruct (sign_ok (lo_type lo) (lo_elem lo) p A1 A2 Hp) as (s & Ez & Hs).
  destruct (Hf _ _ (gent _ _ A1 A2)) as (a & Ea & Hla).
  assert (Hlt : store_at d (lo_type lo) (lo_leid lo - l + r) < store_size d (geom_dim (lo_type lo))).
  { destruct (oclosed_layout d Hwf g _ _ _ _ _ En) as (_ & _ & _ & H). specialize (H r (proj1 Hr)). destruct (dof_facts d _ _ _ _ _ _ Hwf H) as (_ & _ & B & _).
    unfold store_at, store_size. clear -A1 B. destruct (lo_type lo) as [|[|[|[|[|[|t]]]]]]; cbn [geom_dim] in *; try lia; cbn in *; lia. }
  destruct (nth_error a (store_at d (lo_type lo) (lo_leid lo - l + r))) as [w|] eqn:Ew; [|apply nth_error_None in Ew; lia].
  eexists. exists lo, c, l, r, a, s, w. repeat split; try assumption; try apply Hr.
Qed.

(** Writes at different places. *)
Lemma each_app : forall {A S} (f : A -> S -> option S) l1 l2 s, each f (l1 ++ l2) s = (do s' <- each f l1 s; each f l2 s').
Proof. intros A S f l1. induction l1 as [|x l1 IH]; intros l2 s; [reflexivity|]. cbn. destruct (f x s); [apply IH|reflexivity]. Qed.
Lemma each_write : forall {A} (sl : A -> nat) (val : A -> option R) f l out n,
  NoDup (map sl l) -> (forall x, In x l -> sl x < n) -> length out = n ->
  (forall x o, In x l -> f x o = match val x with Some v => wr o (sl x) v | None => Some o end) ->
  exists out', each f l out = Some out' /\ length out' = n /\
    (forall x, In x l -> nth_error out' (sl x) = match val x with Some v => Some v | None => nth_error out (sl x) end) /\
    (forall i, ~ In i (map sl l) -> nth_error out' i = nth_error out i).
Proof.
  intros A sl val f l. induction l as [|x l IH]; intros out n Hnd Hlt Hlen Hf.
  - exists out. repeat split; auto. intros x [].
  - inversion Hnd as [|? ? Hx Hnd']; subst. cbn [each]. rewrite Hf by now left.
    assert (Hw : exists o, match val x with Some v => wr out (sl x) v | None => Some out end = Some o /\ length o = length out /\
       nth_error o (sl x) = match val x with Some v => Some v | None => nth_error out (sl x) end /\ forall i, i <> sl x -> nth_error o i = nth_error out i).
    { destruct (val x) as [v|]; [|exists out; auto]. destruct (wr_some out (sl x) v) as (o & E & L & Hr); [apply Hlt; now left|]. exists o. unfold rd in Hr.
      split; [exact E|]. split; [exact L|]. split; [now rewrite Hr, Nat.eqb_refl|]. intros i Hi. rewrite Hr. now apply Nat.eqb_neq in Hi as ->. }
    destruct Hw as (o & Eo & Lo & Ho & Ho'). rewrite Eo. cbn [obind].
    destruct (IH o (length out) Hnd') as (out' & E & L & H1 & H2); [intros y Hy; apply Hlt; now right|exact Lo|intros y o' Hy; apply Hf; now right|].
    exists out'. split; [exact E|]. split; [exact L|]. split.
    + intros y [<-|Hy]; [rewrite H2 by exact Hx; exact Ho|]. rewrite (H1 y Hy). rewrite Ho'; [reflexivity|]. intros Q. apply Hx. rewrite <- Q. now apply in_map.
    + intros i Hi. cbn [map] in Hi. rewrite H2 by (intros Q; apply Hi; now right). apply Ho'. intros ->. apply Hi. now left.
Qed.

(** The four iterations visit every dof once. *)
Definition all_sp : sparsity := Sp 15 63 15 1.
Lemma four_dims : forall b (f : LocalOrder -> list R -> option (list R)) out, wf b -> geom_safe b ->
  for_ 4 (fun dim out => do L <- sp_iterate true b (set_dim dim sp_empty_set); each f L out) out = each f (EB b (pos all_sp)) out.
Proof.
  intros b f out Hwf Hg.
  assert (Hi : forall q, q < 4 -> sp_iterate true b (set_dim q sp_empty_set) = Some (EB b (pos (set_dim q sp_empty_set)))).
  { intros q Hq. apply iterate_geom; [assumption..|]. destruct q as [|[|[|[|q]]]]; try lia; repeat split. }
  replace (pos all_sp) with (pos (set_dim 0 sp_empty_set) ++ pos (set_dim 1 sp_empty_set) ++ pos (set_dim 2 sp_empty_set) ++ pos (set_dim 3 sp_empty_set)) by (vm_compute; reflexivity).
  rewrite !EB_app, !each_app. unfold for_. cbn [for_range]. rewrite !Hi by lia. cbn [obind].
  destruct (each f (EB b (pos (set_dim 0 sp_empty_set))) out) as [o1|]; [|reflexivity]. cbn [obind]. rewrite each_app.
  destruct (each f (EB b (pos (set_dim 1 sp_empty_set))) o1) as [o2|]; [|reflexivity]. cbn [obind]. rewrite each_app.
  destruct (each f (EB b (pos (set_dim 2 sp_empty_set))) o2) as [o3|]; [|reflexivity]. cbn [obind].
  now destruct (each f (EB b (pos (set_dim 3 sp_empty_set))) o3).
Qed.
Lemma all_dofs : forall b, wf b -> NoDup (map lo_gid (EB b (pos all_sp))) /\
  forall lo, In lo (EB b (pos all_sp)) <-> local_order b (lo_gid lo) = Some lo.
Proof.
  intros b Hwf. destruct (exact_EB b all_sp Hwf) as [Hnd Hin]. split.
  - assert (Hf : forall lo, In lo (EB b (pos all_sp)) -> local_order b (lo_gid lo) = Some lo) by (intros lo Hl; now apply Hin in Hl as [H _]).
    clear Hin. induction Hnd as [|x l Hx Hnd IH]; [constructor|]. cbn [map]. constructor; [|apply IH; intros lo Hl; apply Hf; now right].
    intros Q. apply in_map_iff in Q as (y & Ey & Hy). assert (x = y); [|now subst].
    pose proof (Hf x (or_introl eq_refl)) as Q1. pose proof (Hf y (or_intror Hy)) as Q2. congruence.
  - intros lo. rewrite Hin. unfold sel_dof, on_sel. split; [tauto|]. intros E. split; [exact E|].
    destruct (local_order_inv b _ lo Hwf E) as (_ & En & _). assert (Hent : entity (geom_dim (lo_type lo)) (lo_elem lo)).
    { pose proof (nth_error_In _ _ En) as Hi. unfold dof_of_lo in Hi. apply gent; [exact (type_lt b _ Hi)|]. 
      apply (in_map locus) in Hi. cbn in Hi. fold (loci b) in Hi. apply in_loci in Hi. tauto. }
    apply sel_tst; [exact Hent|]. destruct Hent as [H1 H2]. revert H1 H2. generalize (geom_dim (lo_type lo)) as q, (lo_elem lo) as e. intros q e H1 H2.
    destruct q as [|[|[|[|q]]]]; cbn in H2; try lia; (destruct e as [|[|[|[|[|[|e]]]]]]; try lia; reflexivity).
Qed.

(** One tag. *)
Lemma gather_ok : forall avail data d path p off out v, wf d -> labelled d -> is_perm4 p -> nested_view d path = Some v -> geom_safe (v_base v) ->
  off + num_dof_tet (v_base v) <= length out ->
  (avail = false -> forall i, i < num_dof_tet (v_base v) -> exists x, value_of data d p (v_shift_tet v + i) x) ->
  exists out', gather avail data d path p off out = Some out' /\ same_outside off (num_dof_tet (v_base v)) out out' /\
    forall i, i < num_dof_tet (v_base v) -> got data d p (v_shift_tet v + i) out (off + i) out'.
Proof.
  intros avail data d path p off out v Hwf Hlab Hp Ev Hg Hlen Hav. unfold gather. rewrite Ev. cbn [obind].
  assert (Hwb : wf (v_base v)) by apply (nested_view_ok d path v Hwf Ev). destruct (all_dofs (v_base v) Hwb) as [Hnd Hin].
  set (f := fun (lo0 : LocalOrder) (out : list R) => let lo := view_lo v lo0 in put_dof avail data d lo p (off + (lo_gid lo - v_shift_tet v)) out). change (exists out', for_ 4 (fun dim out => do L <- sp_iterate true (v_base v) (set_dim dim sp_empty_set); each f L out) out = Some out' /\ same_outside off (num_dof_tet (v_base v)) out out' /\
    forall i, i < num_dof_tet (v_base v) -> got data d p (v_shift_tet v + i) out (off + i) out').
  rewrite four_dims by assumption.
  assert (Hn : forall lo, In lo (EB (v_base v) (pos all_sp)) -> lo_gid lo < num_dof_tet (v_base v)).
  { intros lo Hl. apply Hin in Hl. rewrite length_layout_num by assumption. now apply (local_order_inv (v_base v) (lo_gid lo) lo). }
  assert (Hlo : forall lo, In lo (EB (v_base v) (pos all_sp)) -> local_order d (v_shift_tet v + lo_gid lo) = Some (view_lo v lo)).
  { intros lo Hl. rewrite (view_local_order_spec d path v Hwf Ev) by now apply Hn. unfold view_local_order. apply Hin in Hl. rewrite Hl. reflexivity. }
  destruct (each_write (fun lo => off + lo_gid lo) (fun lo => match take_avail data d (view_lo v lo) p with Some x => x | None => None end) f (EB (v_base v) (pos all_sp)) out (length out)) as (out' & E & L & H1 & H2).
  - rewrite <- map_map with (f := lo_gid) (g := fun i => off + i). apply FinFun.Injective_map_NoDup; [intros x y; lia|exact Hnd].
  - intros lo Hl. pose proof (Hn lo Hl). lia.
  - reflexivity.
  - intros lo o Hl. unfold f. cbv zeta. replace (lo_gid (view_lo v lo) - v_shift_tet v) with (lo_gid lo) by (unfold view_lo, shift_lo; cbn; lia).
    destruct (take_spec data d p _ _ Hwf Hlab Hp (Hlo lo Hl)) as (x & Ex & Hx). unfold put_dof. rewrite Ex. destruct avail; [reflexivity|]. 
    destruct x as [w|]; [now rewrite (proj2 Hx)|]. destruct (Hav eq_refl (lo_gid lo) (Hn lo Hl)) as [w Hw]. now destruct (Hx w).
  - exists out'. split; [exact E|]. split.
    + split; [exact L|]. intros i Hi. apply H2. intros Q. apply in_map_iff in Q as (lo & Q & Hl). pose proof (Hn lo Hl). lia.
    + intros i Hi. assert (exists lo, local_order (v_base v) i = Some lo) as [lo El].
      { rewrite local_order_layout by assumption. rewrite length_layout_num in Hi by assumption. destruct (nth_error (layout (v_base v)) i) eqn:En; [eexists; reflexivity|apply nth_error_None in En; lia]. }
      assert (Hgi : lo_gid lo = i) by now apply (local_order_inv (v_base v) i lo). assert (Hl : In lo (EB (v_base v) (pos all_sp))) by (apply Hin; congruence).
      specialize (H1 lo Hl). cbv beta in H1. rewrite Hgi in H1. pose proof (Hlo lo Hl) as Q. rewrite Hgi in Q.
      destruct (take_spec data d p _ _ Hwf Hlab Hp Q) as (x & Ex & Hx). rewrite Ex in H1. destruct x as [w|]; [left; exists w; tauto|right; auto].
Qed.

(** A tag per component. *)
Lemma comp_count : forall d, nested_dim d = length (components d).
Proof. intros [nd sy|k b|l]; cbn; [reflexivity|now rewrite repeat_length|reflexivity]. Qed.
Lemma comp_view : forall d v b, nth_error (components d) v = Some b -> exists se, nested_view d [v] = Some (View b se (dofs_before d v)).
Proof.
  intros d v b E. assert (Hv : v < length (components d)) by (apply nth_error_Some; congruence). unfold dofs_before. destruct d as [nd sy|k b'|l]; cbn [components] in *.
  - now destruct v.
  - rewrite repeat_length in Hv. rewrite nth_error_repeat in E by assumption. injection E as <-. cbn [nested_view nested_from].
    apply Nat.ltb_lt in Hv as Hv'. rewrite Hv'. cbn [guard obind]. eexists. do 2 f_equal. cbn [Nat.add].
    clear -Hv. revert k Hv. induction v as [|v IH]; intros [|k] Hv; try lia; [reflexivity|]. cbn [repeat firstn map]. rewrite list_sum_cons, <- (IH k) by lia. lia.
  - cbn [nested_view nested_from]. rewrite E. cbn [obind]. rewrite nth_prefix_0, Nat.sub_0_r. eexists. do 2 f_equal. cbn [Nat.add].
    rewrite nth_prefix by (rewrite map_length; lia). now rewrite firstn_map.
Qed.
Lemma before_step : forall d v b, nth_error (components d) v = Some b -> dofs_before d (S v) = dofs_before d v + num_dof_tet b.
Proof.
  intros d v b E. unfold dofs_before. generalize dependent v. induction (components d) as [|x l IH]; intros v E; [destruct v; discriminate|].
  destruct v as [|v]; cbn [nth_error] in E; [injection E as <-; cbn [firstn map]; rewrite list_sum_cons; cbn [firstn map]; cbn; lia|].
  change (firstn (S (S v)) (x :: l)) with (x :: firstn (S v) l). change (firstn (S v) (x :: l)) with (x :: firstn v l). cbn [map].
  rewrite !list_sum_cons, (IH v E). lia.
Qed.
Lemma labelled_view : forall d path v, wf d -> labelled d -> nested_view d path = Some v -> labelled (v_base v).
Proof.
  intros d path v Hwf Hlab E x Hx. destruct (nested_view_ok d path v Hwf E) as (Hw & _ & _ & Hn). apply In_nth_error in Hx as [i Hi].
  assert (Hlt : i < num_dof_tet (v_base v)) by (rewrite length_layout_num by assumption; apply nth_error_Some; congruence).
  specialize (Hn i Hlt). unfold shift_pos in Hn. rewrite nth_error_map, Hi in Hn. cbn [option_map] in Hn. apply nth_error_In, Hlab in Hn. exact Hn.
Qed.
Lemma tags_ok : forall avail datas d p out, wf d -> labelled d -> is_perm4 p -> Forall geom_safe (components d) ->
  length (components d) <= length datas -> dofs_before d (length (components d)) <= length out ->
  (avail = false -> forall v b data, nth_error (components d) v = Some b -> nth_error datas v = Some data -> full_data data b) ->
  exists out', gather_tags avail datas d [] p out = Some out' /\ same_outside 0 (dofs_before d (length (components d))) out out' /\ forall v b data j, nth_error (components d) v = Some b -> nth_error datas v = Some data -> j < num_dof_tet b -> got data b p j out (dofs_before d v + j) out'.
Proof.
  intros avail datas d p out Hwf Hlab Hp Hg Hn Hlen Hav. cbv beta iota zeta delta [gather_tags]. rewrite comp_count.
  assert (Hn' : (length (components d) <=? length datas) = true) by now apply Nat.leb_le. unfold stored in *. rewrite Hn'. cbn [guard obind]. rewrite Nat.sub_0_r.
  set (n := length (components d)) in *.
  assert (Hmono : forall v, v <= n -> dofs_before d v <= dofs_before d n).
  { intros v Hv. assert (G : forall k, v + k <= n -> dofs_before d v <= dofs_before d (v + k)).
    { induction k as [|k IH]; intros Hk; [rewrite Nat.add_0_r; lia|]. destruct (nth_error (components d) (v + k)) as [b|] eqn:Eb; [|apply nth_error_None in Eb; unfold n in Hk; lia].
      rewrite Nat.add_succ_r, (before_step d _ b Eb). specialize (IH ltac:(lia)). lia. }
    specialize (G (n - v) ltac:(lia)). now replace (v + (n - v)) with n in G by lia. }
  destruct (for_range_inv (fun m o => same_outside 0 (dofs_before d m) out o /\ forall v b data j, v < m -> nth_error (components d) v = Some b -> nth_error datas v = Some data -> j < num_dof_tet b -> got data b p j out (dofs_before d v + j) o) n 0
    (fun v out => do vw <- nested_view d [v]; do data <- rd datas v; gather avail data (v_base vw) [] p (v_shift_tet vw) out) out) as (out' & E & H1 & H2).
  - split; [split; [reflexivity|reflexivity]|]. intros v b data j Hv. lia.
  - intros m o [_ Hm] [[Hl Ho] Hgot]. rewrite Nat.add_0_l in Hm. destruct (nth_error (components d) m) as [b|] eqn:Eb; [|apply nth_error_None in Eb; unfold n in Hm; lia].
    destruct (comp_view d m b Eb) as [se Ev]. rewrite Ev. cbn [obind v_base v_shift_tet]. unfold rd. destruct (nth_error datas m) as [data|] eqn:Ed; [|apply nth_error_None in Ed; lia]. cbn [obind].
    assert (Hwb : wf b) by apply (nested_view_ok d [m] _ Hwf Ev). assert (Hlb : labelled b) by exact (labelled_view d [m] _ Hwf Hlab Ev).
    assert (Hgb : geom_safe b) by (rewrite Forall_forall in Hg; apply Hg; now apply nth_error_In in Eb).
    pose proof (before_step d m b Eb) as Hst. pose proof (Hmono (S m) ltac:(lia)) as HM.
    destruct (gather_ok avail data b [] p (dofs_before d m) o (View b zero_shift 0) Hwb Hlb Hp eq_refl Hgb) as (o' & E & [Hl' Ho'] & Hg').
    + cbn [v_base]. lia.
    + intros Ea i Hi. cbn [v_shift_tet v_base Nat.add] in *. apply full_value; [assumption..|now apply (Hav Ea m b data)|assumption].
    + exists o'. split; [exact E|]. cbn [v_base v_shift_tet] in *. split.
      * split; [lia|]. intros i [Hi|Hi]; [lia|]. rewrite Ho' by lia. apply Ho. lia.
      * intros v b' data' j Hv Eb' Ed' Hj. destruct (Nat.eq_dec v m) as [->|Hne].
        -- rewrite Eb in Eb'. injection Eb' as <-. rewrite Ed in Ed'. injection Ed' as <-. specialize (Hg' j Hj). unfold got in *. cbn [Nat.add] in Hg'.
           destruct Hg' as [G|[G1 G2]]; [left; exact G|right; split; [exact G1|]]. rewrite G2. apply Ho. lia.
        -- assert (Hb : dofs_before d v + j < dofs_before d m).
           { pose proof (before_step d v b' Eb') as Q. assert (dofs_before d (S v) <= dofs_before d m); [|lia]. clear -Hv Hne Hm. 
             assert (G : forall k, S v + k <= n -> dofs_before d (S v) <= dofs_before d (S v + k)).
             { induction k as [|k IH]; intros Hk; [rewrite Nat.add_0_r; lia|]. destruct (nth_error (components d) (S v + k)) as [b|] eqn:Eb; [|apply nth_error_None in Eb; unfold n in Hk; lia].
               rewrite Nat.add_succ_r, (before_step d _ b Eb). specialize (IH ltac:(lia)). lia. }
             specialize (G (m - S v) ltac:(lia)). now replace (S v + (m - S v)) with m in G by lia. }
           specialize (Hgot v b' data' j ltac:(lia) Eb' Ed' Hj). unfold got in *. rewrite Ho' by lia. exact Hgot.
  - exists out'. split; [exact E|]. split; [exact H1|]. intros v b data j Eb. apply H2; [|exact Eb]. rewrite Nat.add_0_l. apply nth_error_Some. congruence.
Qed.
