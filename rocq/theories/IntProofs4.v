(** The weights of a union. *)
From Verif Require Import Prelude RSum GeoModel GeoSpec DenseModel DenseSpec BasModel BasSpec BasProofs2 BasProofs7 BasProofs8 BasProofs9 IntModel IntSpec IntProofs IntProofs2 IntProofs3.
From Coq Require Import FunctionalExtensionality.
Local Open Scope R_scope.

Definition ref_x : tetra := fun k => of_vec (ref_vtx k).
Lemma ref_x_eq : (fun k => vec_of (ref_x k)) = ref_vtx.
Proof. apply functional_extensionality. intros k. unfold ref_x, vec_of, of_vec, comp. now destruct k as [|[|[|k]]]. Qed.
Lemma ref_x_nondegenerate : nondegenerate ref_x.
Proof. unfold nondegenerate, det3, edge_matrix, ref_x, of_vec, comp. cbn. lra. Qed.

Section Gram.
Variables (Q : quads) (phi : isp -> vec -> nat -> R) (l : list isp) (d : nat).
Hypothesis H1 : on_simplex 1 (q_seg Q).
Hypothesis H2 : on_simplex 2 (q_tri Q).
Hypothesis H3 : on_simplex 3 (q_tet Q).
Hypothesis Hw : forall s, In s l -> iwf s /\ idim s = d.
Hypothesis Hphi : forall s X i c, In s l -> (i < infa s)%nat -> (c < d)%nat -> phi s X (c + d * i)%nat = ishape s ref_x i c (of_vec X).
Notation sizes := (map infa l).
Notation nf := (list_sum (map infa l)).
Notation mx := (fold_right Nat.max 0%nat (map infa l)).
Definition tgt (j k : nat) : R :=
  match comp_of sizes j, comp_of sizes k with
  | Some (v, q), Some (v', q') => if (v =? v')%nat then delta q q' else gram l Q ref_x j k
  | _, _ => 0
  end.
Lemma tgt_at : forall v s q v' s' q', nth_error l v = Some s -> (q < infa s)%nat -> nth_error l v' = Some s' -> (q' < infa s')%nat ->
  tgt (list_sum (firstn v sizes) + q) (list_sum (firstn v' sizes) + q') = if (v =? v')%nat then delta q q' else cdof s Q ref_x q (basis_fun s' ref_x q').
Proof.
  intros v s q v' s' q' Hv Hq Hv' Hq'. unfold tgt. assert (v < length l)%nat by (apply nth_error_Some; congruence). assert (v' < length l)%nat by (apply nth_error_Some; congruence).
  rewrite (comp_of_at sizes v q), (comp_of_at sizes v' q') by (rewrite ?map_length, ?(nth_size l _ _ infa Hv), ?(nth_size l _ _ infa Hv'); assumption).
  destruct (v =? v')%nat; [reflexivity|]. now apply gram_at.
Qed.
(** every write puts the target *)
Definition mono (b b' : nat -> nat -> R) : Prop := forall j k, b' j k = b j k \/ b' j k = tgt j k.
Lemma mono_refl : forall b, mono b b.
Proof. intros b j k. now left. Qed.
Lemma mono_trans : forall a b c, mono a b -> mono b c -> mono a c.
Proof. intros a b c H K j k. destruct (K j k) as [->|]; [apply H|now right]. Qed.
Lemma mono_upd : forall b j k, mono b (upd2 b j k (tgt j k)).
Proof. intros b j k j' k'. unfold upd2. destruct (Nat.eqb_spec j' j), (Nat.eqb_spec k' k); cbn [andb]; subst; auto. Qed.
Lemma mono_keep : forall b b' j k, mono b b' -> b j k = tgt j k -> b' j k = tgt j k.
Proof. intros b b' j k H E. destruct (H j k) as [->|]; trivial. Qed.
Lemma upd2_same : forall (b : nat -> nat -> R) j k v, upd2 b j k v j k = v.
Proof. intros. unfold upd2. now rewrite !Nat.eqb_refl. Qed.
Definition scratch (ud : list (list R)) : Prop := length ud = mx /\ forall r, (r < mx)%nat -> exists a, rd ud r = Some a /\ length a = nf.
Lemma scratch_entered : forall f i v ud ud', scratch ud -> entered f i v ud ud' -> scratch ud'.
Proof.
  intros f i v ud ud' [L H] [L' H']. split; [congruence|]. intros r Hr. destruct (H r Hr) as (a & Ea & La). destruct (H' r a Ea) as (a' & Ea' & La' & _). exists a'. split; [exact Ea'|congruence].
Qed.
Lemma size_max : forall v s, nth_error l v = Some s -> (infa s <= mx)%nat.
Proof.
  intros v s H. assert (G := nth_error_In' _ _ _ H). clear - G. induction l as [|a m IH]; [contradiction|]. destruct G as [->|G]; cbn [map fold_right]; [lia|]. specialize (IH G). lia.
Qed.
Lemma setup_mem_ok : exists M, setup_mem l mx = Some M /\ forall s i f, In s l -> (i < infa s)%nat -> (f <= mx)%nat -> exists a, imem s i f = Some a /\ (a <= M)%nat.
Proof.
  unfold setup_mem. generalize mx. intros B. clear Hphi.
  induction l as [|s m IH]; [exists 0%nat; split; [reflexivity|intros s i f []]|]. cbn [fold_right]. destruct IH as (M & E & HM). { intros s' Hs. apply Hw. now right. }
  destruct (max_mem_ok s B (seq 0 (infa s))) as (M' & E' & HM'). { apply Hw. now left. } { intros i Hi. apply in_seq in Hi. lia. }
  rewrite E', E. cbn. exists (Nat.max M' M). split; [reflexivity|]. intros s' i f [->|Hs] Hi Hf.
  - destruct (HM' i) as (b & Eb & Hb); [apply in_seq; lia|]. destruct (imem_total s' i f) as (a & Ea); [apply Hw; now left|exact Hi|]. destruct (imem_mono s' i f B a) as (b' & Eb' & Hb'); [apply Hw; now left|exact Hi|exact Hf|exact Ea|].
    exists a. split; [exact Ea|]. assert (b' = b) by congruence. lia.
  - destruct (HM s' i f Hs Hi Hf) as (a & Ea & Ha). exists a. split; [exact Ea|lia].
Qed.
Lemma setup_gram_ok : exists b, setup_gram Q phi l = Some (store nf nf b) /\ forall j k, (j < nf)%nat -> (k < nf)%nat -> b j k = tgt j k.
Proof.
  unfold setup_gram. destruct setup_mem_ok as (m & Em & HM). rewrite Em. cbn [obind].
  assert (Z : repeat 0 (nf * nf) = store nf nf (fun _ _ => 0)).
  { rewrite (list_arr 0 (repeat 0 (nf * nf))), repeat_length. apply arr_ext. intros p _. apply nth_repeat. }
  rewrite Z.
  pose (rep := fun t : (nat -> nat -> R) * list (list R) => (store nf nf (fst t), snd t)).
  match goal with |- context [for_ (length l) ?body ?s0] => 
    destruct (for_rep0 rep (fun n t => scratch (snd t) /\ mono (fun _ _ => 0) (fst t) /\ forall v s q v' s' q', (v < n)%nat -> nth_error l v = Some s -> (q < infa s)%nat -> nth_error l v' = Some s' -> (q' < infa s')%nat -> (v = v' -> q = q') ->
       fst t (list_sum (firstn v sizes) + q)%nat (list_sum (firstn v' sizes) + q')%nat = tgt (list_sum (firstn v sizes) + q)%nat (list_sum (firstn v' sizes) + q')%nat) (length l) body ((fun _ _ => 0), repeat (repeat 0 nf) mx)) as (t & E & Hs & Hm & Ht)
  end.
  - cbn [fst snd]. split; [|split; [apply mono_refl|intros; lia]]. split; [apply repeat_length|]. intros r Hr. exists (repeat 0 nf). split; [now apply nth_error_repeat|apply repeat_length].
  - intros si (b & ud) Hsi (Hs & Hm & Ht). cbn [fst snd rep] in *. destruct (nth_error l si) as [s|] eqn:Es; [|apply nth_error_None in Es; lia]. assert (Bs := part_bound l si s infa Es).
    unfold rd at 1. rewrite Es. cbn [obind]. unfold rd at 1. rewrite nth_error_prefix by (rewrite map_length; lia). cbn [obind].
    (* the diagonal block *)
    destruct (for_rep0 (store nf nf) (fun n b' => mono b b' /\ forall q, (q < n)%nat -> b' (list_sum (firstn si sizes) + q)%nat (list_sum (firstn si sizes) + q)%nat = tgt (list_sum (firstn si sizes) + q) (list_sum (firstn si sizes) + q)) (infa s)
      (fun k B => wr B ((k + list_sum (firstn si sizes)) + nf * (k + list_sum (firstn si sizes))) 1) b) as (b1 & E1 & M1 & T1).
    { split; [apply mono_refl|intros; lia]. }
    { intros q b' Hq (M & T). exists (upd2 b' (list_sum (firstn si sizes) + q) (list_sum (firstn si sizes) + q) (tgt (list_sum (firstn si sizes) + q) (list_sum (firstn si sizes) + q))). split.
      - rewrite !(Nat.add_comm q (list_sum (firstn si sizes))). replace 1 with (tgt (list_sum (firstn si sizes) + q) (list_sum (firstn si sizes) + q)) by (rewrite (tgt_at si s q si s q) by assumption; rewrite Nat.eqb_refl; unfold delta; now rewrite Nat.eqb_refl). apply (mwr_store nf nf); lia.
      - split; [exact (mono_trans _ _ _ M (mono_upd _ _ _))|]. intros q' Hq'. destruct (Nat.eq_dec q' q) as [->|]; [apply upd2_same|]. apply (mono_keep b'); [apply mono_upd|]. apply T. lia. }
    rewrite E1. cbn [obind].
    match goal with |- context [for_ (length l) ?body _] =>
      destruct (for_rep0 rep (fun n t => scratch (snd t) /\ mono b1 (fst t) /\ forall q v' s' q', (v' < n)%nat -> v' <> si -> (q < infa s)%nat -> nth_error l v' = Some s' -> (q' < infa s')%nat ->
        fst t (list_sum (firstn si sizes) + q)%nat (list_sum (firstn v' sizes) + q')%nat = tgt (list_sum (firstn si sizes) + q)%nat (list_sum (firstn v' sizes) + q')%nat) (length l) body (b1, ud)) as (t2 & E2 & S2 & M2 & T2)
    end.
    { cbn [fst snd]. split; [exact Hs|]. split; [apply mono_refl|intros; lia]. }
    { intros sj (b' & ud') Hsj (Hs' & Hm' & Ht'). cbn [fst snd rep] in *. destruct (Nat.eqb_spec sj si) as [->|Hne].
      - exists (b', ud'). split; [reflexivity|]. cbn [fst snd]. split; [exact Hs'|]. split; [exact Hm'|]. intros q v' s' q' Hv. intros. apply (Ht' q v' s' q'); trivial. lia.
      - destruct (nth_error l sj) as [s'|] eqn:Es'; [|apply nth_error_None in Es'; lia]. assert (Bs' := part_bound l sj s' infa Es').
        unfold rd at 1. rewrite Es'. cbn [obind]. unfold rd at 1. rewrite nth_error_prefix by (rewrite map_length; lia). cbn [obind].
        match goal with |- context [for_ (infa s) ?body _] =>
          destruct (for_rep0 rep (fun n t => scratch (snd t) /\ mono b' (fst t) /\ forall q q', (q < n)%nat -> (q' < infa s')%nat ->
            fst t (list_sum (firstn si sizes) + q)%nat (list_sum (firstn sj sizes) + q')%nat = tgt (list_sum (firstn si sizes) + q)%nat (list_sum (firstn sj sizes) + q')%nat) (infa s) body (b', ud')) as (t3 & E3 & S3 & M3 & T3)
        end.
        { cbn [fst snd]. split; [exact Hs'|]. split; [apply mono_refl|intros; lia]. }
        { intros q (b'' & ud'') Hq (Hs'' & Hm'' & Ht''). cbn [fst snd rep] in *. assert (Hin := nth_error_In' _ _ _ Es). assert (Hin' := nth_error_In' _ _ _ Es'). destruct (Hw s Hin) as (Ws & Ds). destruct (Hw s' Hin') as (Ws' & Ds').
          assert (Mx := size_max sj s' Es'). destruct (HM s q (infa s') Hin Hq Mx) as (rq & Erq & Hrq).
          assert (Hdof : has_dof (infa s') q ud''). { intros r Hr. destruct Hs'' as [_ H]. destruct (H r) as (a & Ea & La); [lia|]. exists a. split; [exact Ea|lia]. }
          destruct (interp_ok Q ref_x ref_x_nondegenerate H1 H2 H3 s m (phi s') (infa s') q ud'' rq Ws Hq Erq Hrq Hdof) as (ud3 & E3 & En). rewrite ref_x_eq in E3. rewrite E3. cbn [obind].
          destruct (for_rep0 (store nf nf) (fun n c => mono b'' c /\ forall q', (q' < n)%nat -> c (list_sum (firstn si sizes) + q)%nat (list_sum (firstn sj sizes) + q')%nat = tgt (list_sum (firstn si sizes) + q) (list_sum (firstn sj sizes) + q')) (infa s')
            (fun t B => do a <- rd ud3 t; do v <- rd a q; wr B ((list_sum (firstn si sizes) + q) + nf * (list_sum (firstn sj sizes) + t)) v) b'') as (c & E4 & M4 & T4).
          { split; [apply mono_refl|intros; lia]. }
          { intros t c Hts (M & T). destruct (entered_rd _ _ _ _ _ t En Hdof Hts) as (a & Ea & Ev). rewrite Ea. cbn [obind]. rewrite Ev. cbn [obind].
            exists (upd2 c (list_sum (firstn si sizes) + q) (list_sum (firstn sj sizes) + t) (tgt (list_sum (firstn si sizes) + q) (list_sum (firstn sj sizes) + t))). split.
            - replace (cdof s Q ref_x q (fun_of (idim s) t (phi s'))) with (tgt (list_sum (firstn si sizes) + q) (list_sum (firstn sj sizes) + t)); [apply (mwr_store nf nf); lia|].
              rewrite (tgt_at si s q sj s' t) by assumption. destruct (Nat.eqb_spec si sj); [congruence|]. apply cdof_ext; trivial. intros X e He. unfold fun_of, basis_fun. rewrite <- Hphi by (trivial; congruence). f_equal. rewrite Ds. ring.
            - split; [exact (mono_trans _ _ _ M (mono_upd _ _ _))|]. intros q' Hq'. destruct (Nat.eq_dec q' t) as [->|]; [apply upd2_same|]. apply (mono_keep c); [apply mono_upd|]. apply T. lia. }
          rewrite E4. cbn [obind]. exists (c, ud3). split; [reflexivity|]. cbn [fst snd]. split; [exact (scratch_entered _ _ _ _ _ Hs'' En)|]. split; [exact (mono_trans _ _ _ Hm'' M4)|].
          intros q1 q' Hq1 Hq'. destruct (Nat.eq_dec q1 q) as [->|]; [now apply T4|]. apply (mono_keep b''); [exact M4|]. apply Ht''; [lia|exact Hq']. }
        exists t3. split; [exact E3|]. split; [exact S3|]. split; [exact (mono_trans _ _ _ Hm' M3)|]. intros q v' s2 q' Hv Hvs Hq Hn Hq'. destruct (Nat.eq_dec v' sj) as [->|].
        + apply T3; [exact Hq|]. assert (s2 = s') by congruence. now subst.
        + apply (mono_keep b'); [exact M3|]. apply (Ht' q v' s2 q'); trivial. lia. }
    exists t2. split; [exact E2|]. split; [exact S2|]. split; [exact (mono_trans _ _ _ Hm (mono_trans _ _ _ M1 M2))|]. intros v s0 q v' s' q' Hv Hn Hq Hn' Hq' Hd.
    destruct (Nat.eq_dec v si) as [->|].
    + assert (s0 = s) by congruence. subst s0. destruct (Nat.eq_dec v' si) as [->|].
      * rewrite <- (Hd eq_refl). apply (mono_keep b1); [exact M2|]. now apply T1.
      * apply (T2 q v' s' q'); trivial. apply nth_error_Some. congruence.
    + apply (mono_keep b1); [exact M2|]. apply (mono_keep b); [exact M1|]. apply (Ht v s0 q v' s' q'); trivial. lia.
  - unfold rep in E at 1. cbn [fst snd] in E. rewrite E. cbn [obind]. exists (fst t). split; [reflexivity|]. intros j k Hj Hk.
    destruct (part_ex l j Hj) as (v & q & s & _ & Es & Hq & ->). destruct (part_ex l k Hk) as (v' & q' & s' & _ & Es' & Hq' & ->).
    destruct (Nat.eq_dec v v') as [->|]; [|apply (Ht v s q v' s' q'); trivial; try congruence; apply nth_error_Some; congruence].
    destruct (Nat.eq_dec q q') as [->|Hne]; [apply (Ht v' s q' v' s' q'); trivial; apply nth_error_Some; congruence|].
    destruct (Hm (list_sum (firstn v' sizes) + q)%nat (list_sum (firstn v' sizes) + q')%nat) as [->|]; [|assumption]. rewrite (tgt_at v' s q v' s' q') by assumption. rewrite Nat.eqb_refl. unfold delta. destruct (Nat.eqb_spec q q'); [congruence|reflexivity].
Qed.
End Gram.
