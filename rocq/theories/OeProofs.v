(** The keys of the owned dofs are the set numbered by loc_emap. *)
From Verif Require Import Prelude DofModel DofSpec DofProofs EnumModel EnumSpec EnumProofs EnumProofs2 EnumProps ExtSpec OeModel OeSpec.
From Verif Require ExtModel ExtProps ExtProofs4.
From Coq Require Import Permutation FinFun.

Definition key4 (order : list nat) (x : desc) : list nat := map (attribute 0 x) (filter (fun k => negb (k =? 3)) order).
Definition arr_facts (order perm : list nat) (n m : nat) : Prop :=
  insert_pos perm = Some n /\ depends_on perm = Some m /\ n <= 4 /\ m < 4 /\
  (forall v c t p, place4 perm v c t p = Some (key4 order (Desc t v c p)) /\ length (key4 order (Desc t v c p)) = 4 /\ nth m (key4 order (Desc t v c p)) 0 = t) /\
  (forall v c t e p, place5 perm v c t e p = Some (dof_key order e (Desc t v c p)) /\ insert_at n e (key4 order (Desc t v c p)) = dof_key order e (Desc t v c p)) /\
  exists p0 p1 p2 p3 p4, rd perm 0 = Some p0 /\ rd perm 1 = Some p1 /\ rd perm 2 = Some p2 /\ rd perm 3 = Some p3 /\ rd perm 4 = Some p4 /\
    forall o x, let k := dof_key order o x in rd k p0 = Some (x_var x) /\ rd k p1 = Some (x_dim x) /\ rd k p2 = Some (x_type x) /\ rd k p3 = Some o /\ rd k p4 = Some (x_pos x).
Definition orders : list (list nat) := Eval vm_compute in filter (fun o => match set_arrangement o with Some _ => true | None => false end) (lists_below 5 5).
Definition perm_of (o : list nat) : list nat := match set_arrangement o with Some p => p | None => [] end.
Definition n_of (p : list nat) : nat := nth 3 p 0.
Definition m_of (p : list nat) : nat := nth 2 p 0 - (if nth 3 p 0 <? nth 2 p 0 then 1 else 0).
Ltac one := match goal with |- arr_facts ?o _ _ _ => let p := eval vm_compute in (perm_of o) in let n := eval vm_compute in (n_of p) in let m := eval vm_compute in (m_of p) in
  change (arr_facts o p n m); unfold arr_facts; split; [reflexivity|]; split; [reflexivity|]; split; [lia|]; split; [lia|]; split; [intros; repeat split|]; split; [intros; repeat split|];
  do 5 eexists; do 5 (split; [reflexivity|]); intros o' [? ? ? ?]; repeat split end.
Lemma arr_all : Forall (fun o => arr_facts o (perm_of o) (n_of (perm_of o)) (m_of (perm_of o))) orders.
Proof. unfold orders. repeat (apply Forall_cons; [one|]). apply Forall_nil. Qed.
Lemma arr_ok order : Permutation order (seq 0 5) -> exists perm n m, set_arrangement order = Some perm /\ arr_facts order perm n m.
Proof.
  intros HP. assert (Hl : length order = 5) by (rewrite (Permutation_length HP); reflexivity). destruct (proj1 (C19_arrangement order Hl) HP) as (perm & E & _).
  assert (Hb : Forall (fun a => a < 5) order) by (apply Forall_forall; intros a Ha; eapply Permutation_in in Ha; [|exact HP]; apply in_seq in Ha; lia).
  pose proof (in_lists_below 5 5 order Hl Hb) as Hin.
  assert (Ho : In order orders). { change orders with (filter (fun o => match set_arrangement o with Some _ => true | None => false end) (lists_below 5 5)). apply filter_In. split; [exact Hin|]. rewrite E. reflexivity. }
  pose proof (proj1 (Forall_forall _ _) arr_all order Ho) as H. unfold perm_of in H. rewrite E in H. exists perm, (n_of perm), (m_of perm). split; [exact E|exact H].
Qed.

Lemma map_flat {X Y Z} (f : Y -> Z) (g : X -> list Y) (L : list X) : map f (flat_map g L) = flat_map (fun x => map f (g x)) L.
Proof. induction L as [|x L IH]; [reflexivity|]. cbn [flat_map map]. rewrite map_app, IH. reflexivity. Qed.

Section Oe.
Variables (order perm : list nat) (n m : nat).
Hypothesis HF : arr_facts order perm n m.
Variables (l : list dmap) (r : rank).
Hypothesis Hw : wf (Complex l).

Lemma key_inj o x o' x' : dof_key order o x = dof_key order o' x' -> o = o' /\ x = x'.
Proof.
  intros E. destruct HF as (_ & _ & _ & _ & _ & _ & p0 & p1 & p2 & p3 & p4 & _ & _ & _ & _ & _ & H). destruct (H o x) as (A0 & A1 & A2 & A3 & A4). destruct (H o' x') as (B0 & B1 & B2 & B3 & B4).
  rewrite E in *. rewrite B0 in A0. rewrite B1 in A1. rewrite B2 in A2. rewrite B3 in A3. rewrite B4 in A4. injection A0 as A0. injection A1 as A1. injection A2 as A2. injection A3 as A3. injection A4 as A4.
  split; [auto|]. destruct x, x'. cbn in *. subst. reflexivity.
Qed.

(** ** The base set *)
Lemma per_pos b t k : wf b -> t < 6 -> k < num_dof b t -> 0 < ncomp b.
Proof. intros Hb Ht Hk. rewrite num_dof_cnt in Hk by auto. rewrite cnt_split in Hk. destruct (ncomp b); lia. Qed.
Lemma base_vals_ok : exists vals, base_vals perm l = Some vals /\ forall a, In a vals <-> exists x, valid_desc l x /\ a = key4 order x.
Proof.
  destruct HF as (_ & _ & _ & _ & H4 & _).
  set (vals := flat_map (fun v => let b := nth v l (Complex []) in flat_map (fun t => map (fun di => key4 order (Desc t v (di mod ncomp b) (di / ncomp b))) (seq 0 (num_dof b t))) (seq 0 ngeom)) (seq 0 (length l))).
  exists vals. split.
  - unfold base_vals. apply all_some_spec. unfold vals. rewrite map_flat. apply flat_map_ext. intros v. cbv zeta. rewrite map_flat. apply flat_map_ext. intros t. rewrite map_map. apply map_ext. intros di. apply H4.
  - intros a. unfold vals. rewrite in_flat_map. split.
    + intros (v & Hv & H). apply in_seq in Hv. cbv zeta in H. set (b := nth v l (Complex [])) in *. apply in_flat_map in H as (t & Ht & H). apply in_seq in Ht. apply in_map_iff in H as (di & <- & Hdi). apply in_seq in Hdi.
      assert (Hvb : nth_error l v = Some b) by (apply nth_error_nth'; lia). assert (Hb : wf b) by (apply (nth_wf l v); auto). assert (Ht6 : t < 6) by (unfold ngeom in Ht; lia).
      pose proof (per_pos b t di Hb Ht6 ltac:(lia)) as Hk. eexists. split; [|reflexivity]. split; [exact Ht6|]. exists b. cbn [x_var x_dim x_pos x_type]. split; [auto|].
      split; [apply Nat.mod_upper_bound; lia|]. apply Nat.div_lt_upper_bound; [lia|]. rewrite num_dof_cnt, cnt_split in Hdi by auto. lia.
    + intros (x & Hx & ->). destruct Hx as (Ht & b & Hb & Hd & Hp). assert (Hwb : wf b) by (apply (nth_wf l (x_var x)); auto). destruct (nth_of_error l (x_var x) b Hb) as (En & Hv).
      exists (x_var x). split; [apply in_seq; lia|]. cbv zeta. rewrite En. apply in_flat_map. exists (x_type x). split; [apply in_seq; unfold ngeom; lia|].
      apply in_map_iff. exists (x_dim x + x_pos x * ncomp b). split.
      * f_equal. destruct x as [t v c p]. cbn in *. rewrite Nat.mod_add, Nat.div_add by lia. rewrite Nat.mod_small, Nat.div_small by lia. reflexivity.
      * apply in_seq. split; [lia|]. rewrite num_dof_cnt, cnt_split by auto. nia.
Qed.

(** ** The numbered set *)
Definition vals : list (list nat) := match base_vals perm l with Some v => v | None => [] end.
Lemma vals_in a : In a vals <-> exists x, valid_desc l x /\ a = key4 order x.
Proof. destruct base_vals_ok as (v & E & H). unfold vals. rewrite E. apply H. Qed.
Lemma vals_len a : In a vals -> length a = 4.
Proof. intros H. apply vals_in in H as (x & _ & ->). destruct HF as (_ & _ & _ & _ & H4 & _). destruct x as [t v c p]. apply H4. Qed.
Lemma range_type x : valid_desc l x -> range r (x_type x) = r_num r (geom_dim (x_type x)).
Proof. intros (Ht & _). unfold range, ngeom. rewrite (proj2 (Nat.ltb_lt _ _)) by exact Ht. reflexivity. Qed.
Lemma member_key b : member vals (range r) n m b <-> exists o x, valid_desc l x /\ o < r_num r (geom_dim (x_type x)) /\ b = dof_key order o x.
Proof.
  pose proof HF as (_ & _ & _ & _ & H4 & H5 & _). split.
  - intros (a & o & Ha & Ho & ->). apply vals_in in Ha as (x & Hx & ->). exists o, x. split; [auto|].
    destruct x as [t v c p]. destruct (H4 v c t p) as (_ & _ & Em). rewrite Em in Ho. pose proof (range_type _ Hx) as Hr. cbn [x_type] in *. rewrite Hr in Ho. split; [exact Ho|]. apply H5.
  - intros (o & x & Hx & Ho & ->). exists (key4 order x), o. split; [apply vals_in; eauto|]. destruct x as [t v c p]. destruct (H4 v c t p) as (_ & _ & Em). pose proof (range_type _ Hx) as Hr. cbn [x_type] in *. rewrite Em, Hr. split; [exact Ho|]. symmetry. apply H5.
Qed.
Lemma emap_eq : loc_emap perm l r = ExtProps.enumerate (range r) n m vals.
Proof. destruct HF as (En & Em & _). unfold loc_emap, vals. rewrite En, Em. cbn [obind]. destruct base_vals_ok as (v & E & _). rewrite E. reflexivity. Qed.

(** ** The number of owned dofs *)
Definition pairs : list (nat * desc) := flat_map (fun d => flat_map (fun x => map (fun o => (o, x)) (seq 0 (r_num r d))) (descs l d)) (seq 0 4).
Lemma pairs_in o x : In (o, x) pairs <-> valid_desc l x /\ o < r_num r (geom_dim (x_type x)).
Proof.
  unfold pairs. rewrite in_flat_map. split.
  - intros (d & Hd & H). apply in_seq in Hd. apply in_flat_map in H as (y & Hy & H). apply in_map_iff in H as (o' & E & Ho). injection E as -> ->. apply in_descs in Hy as (Hx & <-); [|lia]. apply in_seq in Ho. split; [auto|lia].
  - intros (Hx & Ho). pose proof (dim_lt4 l x Hx) as Hd. exists (geom_dim (x_type x)). split; [apply in_seq; lia|]. apply in_flat_map. exists x. split; [apply in_descs; auto|]. apply in_map_iff. exists o. split; [auto|apply in_seq; lia].
Qed.
Lemma NoDup_flat {X Y} (f : X -> list Y) (L : list X) : NoDup L -> (forall x, In x L -> NoDup (f x)) -> (forall x y z, In x L -> In y L -> In z (f x) -> In z (f y) -> x = y) -> NoDup (flat_map f L).
Proof.
  induction L as [|x L IH]; intros H1 H2 H3; [constructor|]. inversion H1; subst. cbn [flat_map].
  assert (D : forall A B : list Y, NoDup A -> NoDup B -> (forall z, In z A -> ~ In z B) -> NoDup (A ++ B)).
  { clear. induction A as [|a A IH]; intros B HA HB HD; [auto|]. inversion HA; subst. cbn. constructor; [rewrite in_app_iff; intros [?|?]; [auto|]; apply (HD a); cbn; auto|]. apply IH; auto. intros z Hz. apply HD. cbn; auto. }
  apply D; [apply H2; cbn; auto|apply IH; auto; [intros; apply H2; cbn; auto|intros x0 y z ? ?; apply H3; cbn; auto]|].
  intros z Hz C. apply in_flat_map in C as (y & Hy & Hz'). assert (x = y) by (apply (H3 x y z); cbn; auto). subst. auto.
Qed.
Lemma pairs_NoDup : NoDup pairs.
Proof.
  apply NoDup_flat; [apply seq_NoDup| |].
  - intros d Hd. apply in_seq in Hd. apply NoDup_flat; [apply C20_descs_distinct; auto; lia| |].
    + intros x _. apply FinFun.Injective_map_NoDup; [|apply seq_NoDup]. intros a b E. injection E; auto.
    + intros x y z _ _ H1 H2. apply in_map_iff in H1 as (? & <- & _). apply in_map_iff in H2 as (? & E & _). injection E; auto.
  - intros d d' z Hd Hd' H1 H2. apply in_seq in Hd, Hd'. apply in_flat_map in H1 as (x & Hx & H1). apply in_flat_map in H2 as (y & Hy & H2). apply in_map_iff in H1 as (? & <- & _). apply in_map_iff in H2 as (? & E & _).
    injection E as _ ->. apply in_descs in Hx as (_ & <-); [|lia]. apply in_descs in Hy as (_ & <-); [|lia]. reflexivity.
Qed.
Lemma pairs_len : length pairs = list_sum (map (fun d => i_nd l d * r_num r d) (seq 0 4)).
Proof.
  unfold pairs. rewrite length_flat_map'. f_equal. apply map_ext. intros d. rewrite length_flat_map'. rewrite (list_sum_const _ (r_num r d)); [rewrite length_descs by auto; reflexivity|]. intros x _. now rewrite map_length, seq_length.
Qed.
Lemma listing_len L : listing vals (range r) n m L -> length L = list_sum (map (fun d => i_nd l d * r_num r d) (seq 0 4)).
Proof.
  intros HL. rewrite <- pairs_len, <- (map_length (fun p => dof_key order (fst p) (snd p))). apply Permutation_length. apply NoDup_Permutation.
  - pose proof HF as (_ & _ & Hn & Hm & _). apply ExtProofs4.incr_NoDup. apply (ExtProofs4.L_incr 4 (range r) n m Hm Hn (ExtModel.base_set vals) (ExtProps.base_ok 4 vals vals_len)). apply ExtProps.listing_set. exact HL.
  - apply FinFun.Injective_map_NoDup; [|apply pairs_NoDup]. intros (o, x) (o', x') E. cbn in E. apply key_inj in E as (-> & ->). reflexivity.
  - intros b. destruct HL as (_ & HL). rewrite HL, member_key. split.
    + intros (o & x & Hx & Ho & ->). apply in_map_iff. exists (o, x). split; [reflexivity|]. apply pairs_in. auto.
    + intros H. apply in_map_iff in H as ((o, x) & <- & H). apply pairs_in in H as (Hx & Ho). exists o, x. auto.
Qed.

(** ** The two queries *)
Lemma oe_setup : (exists x, valid_desc l x) -> exists L E, listing vals (range r) n m L /\ loc_emap perm l r = Some E /\
  ExtModel.m_size E = length L /\ (forall b i, length b = 5 -> ExtModel.forward 4 (range r) n m E b = Some i <-> nth_error L i = Some b) /\ (forall i, ExtModel.reverse 4 (range r) n m E i = nth_error L i).
Proof.
  intros (x & Hx). pose proof HF as (_ & _ & Hn & Hm & _). assert (Hne : vals <> []). { intros C. assert (X : In (key4 order x) vals) by (apply vals_in; eauto). rewrite C in X. destruct X. }
  destruct (ExtProps.C26_built 4 (range r) n m vals Hm Hn vals_len Hne) as (L & E & HL & HE). exists L, E. split; [auto|]. split; [rewrite emap_eq; exact HE|].
  split; [exact (ExtProps.C26_arrays_size 4 (range r) n m vals L E Hm Hn vals_len Hne HL HE)|]. split; [intros b i Hb; apply (ExtProps.C26_number 4 (range r) n m vals L E Hm Hn vals_len Hne HL HE); exact Hb|].
  exact (ExtProps.C26_at 4 (range r) n m vals L E Hm Hn vals_len Hne HL HE).
Qed.
Lemma key_len o x : length order = 5 -> length (dof_key order o x) = 5.
Proof. intros H. unfold dof_key. rewrite map_length. exact H. Qed.
Definition flip (rv : bool) (s i : nat) : nat := if rv then s - i - 1 else i.
Lemma index_ok rv L E g x : length order = 5 -> listing vals (range r) n m L -> loc_emap perm l r = Some E -> ExtModel.m_size E = length L ->
  (forall b i, length b = 5 -> ExtModel.forward 4 (range r) n m E b = Some i <-> nth_error L i = Some b) ->
  owned_dof l r g x -> exists i, nth_error L i = Some (dof_key order (g - r_beg r (geom_dim (x_type x))) x) /\ ordered_index perm rv l r g x = Some (flip rv (length L) i + r_begind r).
Proof.
  intros Hl HL HE Hs HFw (Hx & Hd & Hg). pose proof HF as (En & Em & _ & _ & _ & H5 & _). set (o := g - r_beg r (geom_dim (x_type x))).
  assert (Hin : In (dof_key order o x) L). { apply HL. apply member_key. exists o, x. split; [auto|]. split; [unfold o; lia|auto]. }
  apply In_nth_error in Hin as (i & Hi). exists i. split; [exact Hi|]. unfold ordered_index. rewrite HE, En, Em. cbn [obind]. rewrite guard_true by (apply Nat.leb_le; lia). cbn [obind].
  fold o. destruct x as [t v c p]. cbn [x_var x_dim x_type x_pos] in *. rewrite (proj1 (H5 v c t o p)). cbn [obind]. rewrite (proj2 (HFw _ i (key_len o (Desc t v c p) Hl)) Hi). cbn [obind]. rewrite Hs. reflexivity.
Qed.
Lemma inverse_ok chk rv L E id : listing vals (range r) n m L -> loc_emap perm l r = Some E -> ExtModel.m_size E = length L -> (forall i, ExtModel.reverse 4 (range r) n m E i = nth_error L i) ->
  (chk = true -> r_begind r < id) -> r_begind r <= id < r_begind r + length L ->
  exists g x, owned_dof l r g x /\ nth_error L (flip rv (length L) (id - r_begind r)) = Some (dof_key order (g - r_beg r (geom_dim (x_type x))) x) /\
    ordered_inverse chk perm rv l r id = Some (geom_dim (x_type x), g, x).
Proof.
  intros HL HE Hs HR Hc Hi. pose proof HF as (En & Em & _ & _ & _ & _ & p0 & p1 & p2 & p3 & p4 & E0 & E1 & E2 & E3 & E4 & Hk).
  set (j := flip rv (length L) (id - r_begind r)). assert (Hj : j < length L) by (unfold j, flip; destruct rv; lia).
  destruct (nth_error L j) as [b|] eqn:Eb; [|apply nth_error_None in Eb; lia]. assert (Hb : In b L) by (eapply nth_error_In; eauto). apply HL, member_key in Hb as (o & x & Hx & Ho & ->).
  exists (r_beg r (geom_dim (x_type x)) + o), x. pose proof (dim_lt4 l x Hx) as Hd. split; [split; [auto|]; split; [auto|lia]|].
  replace (r_beg r (geom_dim (x_type x)) + o - r_beg r (geom_dim (x_type x))) with o by lia. split; [auto|].
  unfold ordered_inverse. rewrite HE, En, Em. cbn [obind]. rewrite guard_true by (destruct chk; [apply Nat.ltb_lt; auto|reflexivity]). cbn [obind]. rewrite Hs.
  rewrite guard_true by (apply andb_true_iff; split; [apply Nat.leb_le; lia|apply Nat.ltb_lt; lia]). cbn [obind]. rewrite HR.
  replace (if rv then length L - 1 - (id - r_begind r) else id - r_begind r) with j by (unfold j, flip; destruct rv; lia). rewrite Eb. cbn [obind].
  destruct (Hk o x) as (K0 & K1 & K2 & K3 & K4). rewrite E0, E1, E2, E3, E4. cbn [obind]. rewrite K0, K1, K2, K3, K4. cbn [obind]. rewrite guard_true by (apply Nat.ltb_lt; auto). cbn [obind]. destruct x; reflexivity.
Qed.
End Oe.
