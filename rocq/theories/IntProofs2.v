(** Interpolation on several dofs; dual bases; the weights of a union. *)
From Verif Require Import Prelude RSum GeoModel GeoSpec DenseModel DenseSpec DenseProofs BasModel BasSpec BasProofs2 BasProofs7 BasProofs8 BasProofs9 IntModel IntSpec IntProofs.
From Coq Require Import FunctionalExtensionality.
Local Open Scope R_scope.

(** *** Requests grow with the number of functions *)
Lemma for_range_rel : forall {S T} (I : S -> T -> Prop) n lo f g s t s', I s t -> for_range lo n f s = Some s' ->
  (forall i s t s', (lo <= i < lo + n)%nat -> I s t -> f i s = Some s' -> exists t', g i t = Some t' /\ I s' t') -> exists t', for_range lo n g t = Some t' /\ I s' t'.
Proof.
  intros S T I. induction n as [|n IH]; intros lo f g s t s' H0 E H; cbn [for_range] in *; [injection E as <-; eauto|].
  destruct (f lo s) as [s1|] eqn:E1; cbn [obind] in E; [|discriminate]. destruct (H lo s t s1 ltac:(lia) H0 E1) as (t1 & Et & H1). rewrite Et. cbn [obind]. apply (IH (Datatypes.S lo) f g s1 t1 s' H1 E). intros i a b a' Hi. apply H. lia.
Qed.
Lemma imem_mono : forall s i f f' a, iwf s -> (i < infa s)%nat -> (f <= f')%nat -> imem s i f = Some a -> exists b, imem s i f' = Some b /\ (a <= b)%nat.
Proof.
  induction s as [s|n s IH|l IH|l W IH] using isp_ind'; intros i f f' a Hw Hi Hf E; cbn [imem] in *.
  - injection E as <-. eexists. split; [reflexivity|]. nia.
  - cbn [infa iwf] in *. assert (Hs : (0 < infa s)%nat) by (destruct (infa s); lia). destruct (Nat.ltb_spec 0 (infa s)); [|lia]. cbn [guard obind] in *.
    destruct (imem s (i mod infa s) f) as [m|] eqn:E0; cbn [obind] in E; [|discriminate]. injection E as <-. destruct (IH (i mod infa s)%nat f f' m Hw ltac:(apply Nat.mod_upper_bound; lia) Hf E0) as (b & -> & Hb). cbn [obind]. eexists. split; [reflexivity|]. apply Nat.add_le_mono; [exact Hb|]. repeat apply Nat.mul_le_mono_r. exact Hf.
  - cbn [infa] in Hi. destruct (part_ex l i Hi) as (v & k & s & Ec & Es & Hk & Ei). rewrite Ec in E |- *. cbn [obind] in *. rewrite (rd_map _ l v s Es) in E. rewrite (rd_map _ l v s Es). cbn [obind] in *. rewrite Forall_forall in IH.
    destruct (imem s k f) as [m|] eqn:E0; cbn [obind] in E; [|discriminate]. injection E as <-.
    destruct (IH s (nth_error_In' _ _ _ Es) k f f' m (all_of _ _ _ Hw (nth_error_In' _ _ _ Es)) Hk Hf E0) as (b & -> & Hb). cbn [obind]. eexists. split; [reflexivity|]. apply Nat.add_le_mono; [exact Hb|]. repeat apply Nat.mul_le_mono_r. exact Hf.
  - destruct (is_nil l || is_nil W)%bool; [injection E as <-; eauto|]. destruct Hw as (Hw & _ & HW & _). cbn [infa] in Hi. rewrite Forall_forall in IH. set (nf := list_sum (map infa l)) in *.
    destruct (over_row W nf i (map infa l) (fun c k _ a => do g <- rd (map (fun s k => imem s k f) l) c; do b <- g k; Some (Nat.max a b)) 0%nat) as [m|] eqn:E0; cbn [obind] in E; [|discriminate].
    destruct (for_range_rel (fun a b => (a <= b)%nat) nf 0 _ (fun j s => do w <- rd W (i + nf * j); if Req_EM_T w 0 then Some s else do (c, k) <- comp_of (map infa l) j; do g <- rd (map (fun s k => imem s k f') l) c; do b <- g k; Some (Nat.max s b)) 0%nat 0%nat m (le_n 0) E0) as (b & Eb & Hb).
    { intros j p q p' Hj Hpq Ep. destruct (rd W (i + nf * j)) as [w|]; cbn [obind] in *; [|discriminate]. destruct (Req_EM_T w 0); [injection Ep as <-; eauto|].
      destruct (part_ex l j) as (v & k & s & Ec & Es & Hk & Ej); [unfold nf in Hj; lia|]. rewrite Ec in *. cbn [obind] in *. rewrite (rd_map _ l v s Es) in Ep. rewrite (rd_map _ l v s Es). cbn [obind] in *.
      destruct (imem s k f) as [r|] eqn:Er; cbn [obind] in Ep; [|discriminate]. injection Ep as <-. destruct (IH s (nth_error_In' _ _ _ Es) k f f' r (all_of _ _ _ Hw (nth_error_In' _ _ _ Es)) Hk Hf Er) as (r' & -> & Hr). cbn [obind]. eexists. split; [reflexivity|]. lia. }
    unfold over_row at 1, for_. rewrite Eb. cbn [obind]. destruct (max_row W nf i (map infa l)) as [mx|]; cbn [obind] in *; [|discriminate]. injection E as <-. eexists. split; [reflexivity|]. apply Nat.add_le_mono; [exact Hb|]. now apply Nat.mul_le_mono_r.
Qed.
Lemma max_mem_ok : forall s f ids, iwf s -> (forall i, In i ids -> (i < infa s)%nat) -> exists M, max_mem s f ids = Some M /\ forall i, In i ids -> exists a, imem s i f = Some a /\ (a <= M)%nat.
Proof.
  intros s f ids Hw. induction ids as [|i ids IH]; intros H; cbn [max_mem fold_right].
  - exists 0%nat. split; [reflexivity|]. intros i [].
  - destruct IH as (M & E & P); [intros j Hj; apply H; now right|]. fold (max_mem s f ids). rewrite E. destruct (imem_total s i f Hw (H i (or_introl eq_refl))) as (a & Ea). rewrite Ea. cbn [obind].
    eexists. split; [reflexivity|]. intros j [<-|Hj]; [exists a; split; [exact Ea|lia]|]. destruct (P j Hj) as (b & Eb & Hb). exists b. split; [exact Eb|lia].
Qed.

(** *** Several dofs *)
Section Several.
Variables (Q : quads) (x : tetra).
Hypothesis Hx : nondegenerate x.
Hypothesis H1 : on_simplex 1 (q_seg Q).
Hypothesis H2 : on_simplex 2 (q_tri Q).
Hypothesis H3 : on_simplex 3 (q_tet Q).
Notation X := (fun k => vec_of (x k)).
Lemma by_dofs_ok : forall s m F ids u M, iwf s -> max_mem s 1 (seq 0 (infa s)) = Some M -> (M <= m)%nat -> (forall i, In i ids -> (i < infa s)%nat) -> (infa s <= length u)%nat ->
  exists u', by_dofs s Q X m F ids u = Some u' /\ set_at ids (fun i => cdof s Q x i F) u u'.
Proof.
  intros s m F ids u M Hw EM HM. destruct (max_mem_ok s 1 (seq 0 (infa s)) Hw) as (M' & E' & PM); [intros i Hi; apply in_seq in Hi; lia|]. assert (M' = M) by congruence. subst M'. clear E'.
  revert u. induction ids as [|i ids IH]; intros u Hi Hu; cbn [by_dofs].
  - exists u. split; [reflexivity|]. split; [reflexivity|]. intros j. split; [intros []|reflexivity].
  - assert (Hi0 := Hi i (or_introl eq_refl)). destruct (PM i) as (a & Ea & Ha); [apply in_seq; lia|].
    destruct (interp_ok Q x Hx H1 H2 H3 s m F 1 i [u] a Hw Hi0 Ea ltac:(lia)) as (ud' & E & L & P); [intros r Hr; exists u; split; [now replace r with 0%nat by lia|lia]|].
    cbv beta in E. rewrite E. cbn [obind]. destruct (P 0%nat u eq_refl) as (u1 & E1 & L1 & R1). rewrite E1. cbn [obind].
    destruct (IH u1) as (u' & E2 & L2 & P2); [intros j Hj; apply Hi; now right|lia|]. exists u'. split; [exact E2|]. split; [congruence|].
    intros j. destruct (P2 j) as [A B]. destruct (in_dec Nat.eq_dec j ids) as [D|D].
    + split; [intros _; now apply A|]. intros N. elim N. now right.
    + rewrite (B D), R1. cbn [Nat.ltb Nat.leb andb]. split.
      * intros [->|]; [|contradiction]. rewrite Nat.eqb_refl. f_equal.
      * intros N. destruct (Nat.eqb_spec j i) as [->|]; [elim N; now left|reflexivity].
Qed.
Lemma fused_ok : forall s m F n ids ud M K, iwf s -> max_mem s n (seq 0 (infa s)) = Some M -> (M <= m)%nat -> (forall i, In i ids -> (i < infa s)%nat) -> length ud = n -> (forall r, (r < n)%nat -> exists a, rd ud r = Some a /\ length a = K) -> (infa s <= K)%nat ->
  exists ud', fused_dofs s Q X m F n ids ud = Some ud' /\ length ud' = n /\ forall r a, (r < n)%nat -> rd ud r = Some a -> exists a', rd ud' r = Some a' /\ set_at ids (fun i => cdof s Q x i (fun_of (idim s) r F)) a a'.
Proof.
  intros s m F n ids ud M K Hw EM HM. destruct (max_mem_ok s n (seq 0 (infa s)) Hw) as (M' & E' & PM); [intros i Hi; apply in_seq in Hi; lia|]. assert (M' = M) by congruence. subst M'. clear E'.
  revert ud. induction ids as [|i ids IH]; intros ud Hi Ln Hu HK; cbn [fused_dofs].
  - exists ud. split; [reflexivity|]. split; [exact Ln|]. intros r a Hr Ea. exists a. split; [exact Ea|]. split; [reflexivity|]. intros j. split; [intros []|reflexivity].
  - assert (Hi0 := Hi i (or_introl eq_refl)). destruct (PM i) as (a & Ea & Ha); [apply in_seq; lia|].
    destruct (interp_ok Q x Hx H1 H2 H3 s m F n i ud a Hw Hi0 Ea ltac:(lia)) as (ud1 & E & L & P); [intros r Hr; destruct (Hu r Hr) as (b & Eb & Lb); exists b; split; [exact Eb|lia]|].
    cbv beta in E. rewrite E. cbn [obind].
    destruct (IH ud1) as (ud' & E2 & L2 & P2); [intros j Hj; apply Hi; now right|congruence| |exact HK|].
    { intros r Hr. destruct (Hu r Hr) as (b & Eb & Lb). destruct (P r b Eb) as (b' & Eb' & Lb' & _). exists b'. split; [exact Eb'|congruence]. }
    exists ud'. split; [exact E2|]. split; [exact L2|]. intros r b Hr Eb. destruct (P r b Eb) as (b1 & E1 & L1 & R1). destruct (P2 r b1 Hr E1) as (b' & Eb' & Lb' & Pb). exists b'. split; [exact Eb'|]. split; [congruence|].
    intros j. destruct (Pb j) as [A B]. destruct (in_dec Nat.eq_dec j ids) as [D|D].
    + split; [intros _; now apply A|]. intros N. elim N. now right.
    + rewrite (B D), R1. destruct (Nat.ltb_spec r n); [|lia]. cbn [andb]. split.
      * intros [->|]; [|contradiction]. now rewrite Nat.eqb_refl.
      * intros N. destruct (Nat.eqb_spec j i) as [->|]; [elim N; now left|reflexivity].
Qed.
Lemma chunks_length : forall n k u, length (chunks n k u) = n.
Proof. induction n as [|n IH]; intros k u; cbn [chunks length]; [reflexivity|]. now rewrite IH. Qed.
Lemma chunks_rd : forall n k u r, (r < n)%nat -> (n * k <= length u)%nat -> exists a, rd (chunks n k u) r = Some a /\ length a = k /\ forall j, (j < k)%nat -> rd a j = rd u (r * k + j).
Proof.
  induction n as [|n IH]; intros k u r Hr Hl; [lia|]. cbn [chunks]. destruct r as [|r].
  - exists (firstn k u). split; [reflexivity|]. split; [rewrite firstn_length; nia|]. intros j Hj. unfold rd. rewrite nth_error_firstn' by lia. reflexivity.
  - destruct (IH k (skipn k u) r) as (a & E & L & P); [lia|rewrite skipn_length; nia|]. exists a. split; [exact E|]. split; [exact L|]. intros j Hj. rewrite P by exact Hj. unfold rd. rewrite nth_error_skipn'. f_equal. lia.
Qed.
Lemma concat_rd : forall n k (ud : list (list R)) t, length ud = n -> (forall r, (r < n)%nat -> exists a, rd ud r = Some a /\ length a = k) ->
  length (concat ud ++ t) = (n * k + length t)%nat /\ (forall r j a, (r < n)%nat -> (j < k)%nat -> rd ud r = Some a -> rd (concat ud ++ t) (r * k + j) = rd a j) /\ (forall j, rd (concat ud ++ t) (n * k + j) = rd t j).
Proof.
  induction n as [|n IH]; intros k ud t Ln H.
  - destruct ud; [|discriminate]. cbn. split; [reflexivity|]. split; [intros; lia|reflexivity].
  - destruct ud as [|a ud]; [discriminate|]. injection Ln as Ln. destruct (H 0%nat ltac:(lia)) as (a' & E & La). injection E as <-.
    destruct (IH k ud t Ln) as (L & P & T); [intros r Hr; exact (H (S r) ltac:(lia))|]. cbn [concat]. rewrite <- app_assoc. split; [|split].
    + rewrite app_length, L. lia.
    + intros r j b Hr Hj Eb. destruct r as [|r].
      * injection Eb as <-. unfold rd. cbn [Nat.mul Nat.add]. rewrite nth_error_app1 by lia. reflexivity.
      * cbn in Eb. unfold rd. rewrite nth_error_app2 by lia. replace (S r * k + j - length a)%nat with (r * k + j)%nat by lia. apply (P r j b); [lia|exact Hj|exact Eb].
    + intros j. unfold rd. rewrite nth_error_app2 by lia. replace (S n * k + j - length a)%nat with (n * k + j)%nat by lia. apply T.
Qed.
Lemma vec_by_dofs_ok : forall n s m F ids u M, iwf s -> vec_by_dofs_mem n s = Some M -> (M <= m)%nat -> (forall i, In i ids -> (i < infa s)%nat) -> (n * infa s <= length u)%nat ->
  exists u', vec_by_dofs n s Q X m F ids u = Some u' /\ set_at (flat_map (fun k => map (fun j => k * infa s + j)%nat ids) (seq 0 n)) (fun i => cdof (IV n s) Q x i F) u u'.
Proof.
  intros n s m F ids u M Hw EM HM Hi Hu. unfold vec_by_dofs. rewrite EM. cbn [obind]. destruct (Nat.leb_spec M m); [|lia]. destruct (Nat.leb_spec (n * infa s) (length u)); [|lia]. cbn [guard obind andb].
  unfold vec_by_dofs_mem in EM. destruct (max_mem s n (seq 0 (infa s))) as [M0|] eqn:E0; cbn [obind] in EM; [|discriminate]. injection EM as EM.
  destruct (fused_ok s m F n ids (chunks n (infa s) u) M0 (infa s) Hw E0 ltac:(lia) Hi (chunks_length _ _ _)) as (ud' & E & L & P).
  { intros r Hr. destruct (chunks_rd n (infa s) u r Hr Hu) as (a & Ea & La & _). eauto. } { lia. }
  cbv beta in E. rewrite E. cbn [obind].
  destruct (concat_rd n (infa s) ud' (skipn (n * infa s) u) L) as (Lc & Pc & Tc).
  { intros r Hr. destruct (chunks_rd n (infa s) u r Hr Hu) as (a & Ea & La & _). destruct (P r a Hr Ea) as (a' & Ea' & La' & _). exists a'. split; [exact Ea'|congruence]. }
  eexists. split; [reflexivity|]. split; [rewrite Lc, skipn_length; lia|].
  assert (InD : forall j, In j (flat_map (fun k => map (fun j => k * infa s + j)%nat ids) (seq 0 n)) <-> exists r k, (r < n)%nat /\ In k ids /\ j = (r * infa s + k)%nat).
  { intros j. rewrite in_flat_map. split.
    - intros (r & Hr & Hj). apply in_seq in Hr. apply in_map_iff in Hj as (k & <- & Hk). exists r, k. repeat split; [lia|exact Hk].
    - intros (r & k & Hr & Hk & ->). exists r. split; [apply in_seq; lia|]. apply in_map_iff. eauto. }
  intros j. split.
  - rewrite InD. intros (r & k & Hr & Hk & ->). assert (Hkn := Hi k Hk). destruct (chunks_rd n (infa s) u r Hr Hu) as (a & Ea & La & Ra). destruct (P r a Hr Ea) as (a' & Ea' & La' & Pa). rewrite (Pc r k a' Hr Hkn Ea'). destruct (Pa k) as [A _]. rewrite (A Hk). f_equal.
    cbn [cdof]. rewrite (Nat.add_comm (r * infa s) k), Nat.mod_add, Nat.div_add, (Nat.mod_small k), (Nat.div_small k) by lia. reflexivity.
  - intros N. destruct (Nat.lt_ge_cases j (n * infa s)) as [Hj|Hj].
    + assert (Hs : (0 < infa s)%nat) by (destruct (infa s); lia). assert (Hr : (j / infa s < n)%nat) by (apply Nat.div_lt_upper_bound; lia). assert (Hk : (j mod infa s < infa s)%nat) by (apply Nat.mod_upper_bound; lia).
      assert (Ej : (j = j / infa s * infa s + j mod infa s)%nat) by (rewrite (Nat.div_mod_eq j (infa s)) at 1; lia).
      destruct (chunks_rd n (infa s) u (j / infa s) Hr Hu) as (a & Ea & La & Ra). destruct (P _ a Hr Ea) as (a' & Ea' & La' & Pa). destruct (Pa (j mod infa s)%nat) as [_ B]. rewrite Ej at 1. rewrite (Pc _ _ a' Hr Hk Ea'). rewrite B, Ra by (try exact Hk; intros D; apply N, InD; eauto). now rewrite <- Ej.
    + assert (Ej : (j = n * infa s + (j - n * infa s))%nat) by lia. rewrite Ej, Tc. unfold rd. rewrite nth_error_skipn'. reflexivity.
Qed.
End Several.
