(** Properties C12 (carving raw memory), C13 (chunked pool), C14 (shared pool of
    pools), C15 (thread partition) and C16 (element work arrays). *)
From Coq Require Import Permutation.
From Verif Require Import Prelude MemModel MemSpec MemProofs MemProofs2 MemProofs3.

(** ** C12 *)
(** Whatever allocateFromRaw returns is aligned, inside the buffer and disjoint,
    and the object records the requested lengths. *)
Theorem C12_plain_sound : forall S I m base len dsize isize p m', 0 < ct_align S -> 0 < ct_align I ->
  pm_allocate S I m base len dsize isize = (Some p, m') ->
  placed_block S (pm_d m') dsize base len /\ placed_block I (pm_i m') isize base len /\
  blocks_apart S I (pm_d m') (pm_i m') dsize isize /\ base <= p <= base + len /\
  (0 < dsize -> pm_dsize m' = dsize) /\ (0 < isize -> pm_isize m' = isize).
Proof.
  intros S I m base len dsize isize p m' HS HI E.
  assert (Hs : (0 < dsize -> pm_dsize m' = dsize) /\ (0 < isize -> pm_isize m' = isize)).
  { unfold pm_allocate in E. destruct (Nat.ltb_spec 0 dsize), (Nat.ltb_spec 0 isize);
    repeat (destruct (std_align _ _ _ _); [|discriminate E]); injection E as <- <-; cbn; split; intros; lia || reflexivity. }
  destruct (pm_allocate_sound S I m base len dsize isize p m' HS HI E) as [(H1 & H2 & H3 & H4)|(-> & -> & ->)].
  - split; [exact H1|]. split; [exact H2|]. split; [exact H3|]. split; [exact H4|exact Hs].
  - split; [intros H; lia|]. split; [intros H; lia|]. split; [intros a b H; lia|]. split; [lia|exact Hs].
Qed.
Print Assumptions C12_plain_sound.
(** enoughRawSize bytes always suffice, at any base address. *)
Theorem C12_plain_enough : forall S I m base len, 0 < ct_align S -> 0 < ct_align I -> pm_enough S I m <= len ->
  exists p m', pm_allocate_own S I m base len = (Some p, m') /\ pm_dsize m' = pm_dsize m /\ pm_isize m' = pm_isize m.
Proof.
  intros S I m base len HS HI H. destruct (pm_allocate_enough S I m base len HS HI H) as (p & m' & E & H1 & H2 & _). eauto.
Qed.
Print Assumptions C12_plain_enough.
(** The three-block version, for any order in which std::sort may visit the blocks. *)
Theorem C12_raw_sound : forall S I M order m base len dsize isize msize p m',
  0 < ct_align S -> 0 < ct_align I -> 0 < ct_align M -> Permutation [0; 1; 2] order ->
  px_allocate S I M order m base len dsize isize msize = (Some p, m') ->
  placed_block S (px_d m') dsize base len /\ placed_block I (px_i m') isize base len /\ placed_block M (px_m m') msize base len /\
  blocks_apart S I (px_d m') (px_i m') dsize isize /\ blocks_apart S M (px_d m') (px_m m') dsize msize /\
  blocks_apart I M (px_i m') (px_m m') isize msize /\ base <= p <= base + len.
Proof. exact px_allocate_sound. Qed.
Print Assumptions C12_raw_sound.
Theorem C12_raw_enough : forall S I M order m base len,
  0 < ct_align S -> 0 < ct_align I -> 0 < ct_align M -> Permutation [0; 1; 2] order -> px_enough_raw S I M m <= len ->
  exists p m', px_allocate S I M order m base len (px_dsize m) (px_isize m) (px_msize m) = (Some p, m') /\
    px_dsize m' = px_dsize m /\ px_isize m' = px_isize m /\ px_msize m' = px_msize m.
Proof. exact px_allocate_enough. Qed.
Print Assumptions C12_raw_enough.
(** Descriptors carved from the tail of a plain memory. *)
Theorem C12_from_plain_sound : forall S I M m d_in d_sz i_in i_sz dsize isize msize fs m', 0 < ct_align M ->
  px_from_plain S I M m d_in d_sz i_in i_sz dsize isize msize fs = (true, m') ->
  (0 < dsize -> px_d m' = Some d_in /\ dsize <= d_sz) /\ (0 < isize -> px_i m' = Some i_in /\ isize <= i_sz) /\
  (0 < msize -> exists a, px_m m' = Some a /\ aligned (ct_align M) a /\
     (if fs then d_in + ct_size S * dsize <= a /\ a + msize * ct_size M <= d_in + ct_size S * d_sz
      else i_in + ct_size I * isize <= a /\ a + msize * ct_size M <= i_in + ct_size I * i_sz)).
Proof. exact px_from_plain_sound. Qed.
Print Assumptions C12_from_plain_sound.
Theorem C12_from_plain_enough : forall S I M m d_in d_sz i_in i_sz fs,
  ok_type S -> ok_type I -> ok_type M -> aligned (ct_align S) d_in -> aligned (ct_align I) i_in ->
  fst (px_enough_plain S I M m fs) <= d_sz -> snd (px_enough_plain S I M m fs) <= i_sz ->
  exists m', px_from_plain S I M m d_in d_sz i_in i_sz (px_dsize m) (px_isize m) (px_msize m) fs = (true, m') /\
    px_dsize m' = px_dsize m /\ px_isize m' = px_isize m /\ px_msize m' = px_msize m.
Proof. exact px_from_plain_enough. Qed.
Print Assumptions C12_from_plain_enough.
(** Sizes taken as a maximum of several requests serve each of them. *)
Theorem C12_extend : forall S I m o, 0 < ct_align S -> 0 < ct_align I ->
  pm_ge (pm_extend m o) m = true /\ pm_ge (pm_extend m o) o = true /\
  pm_enough S I m <= pm_enough S I (pm_extend m o) /\ pm_enough S I o <= pm_enough S I (pm_extend m o).
Proof.
  intros S I m o HS HI. unfold pm_ge, pm_extend, pm_enough. cbn [pm_dsize pm_isize].
  assert (Hmono : forall al sz a b, a <= b -> (if 0 <? a then (al - 1) + a * sz else 0) <= (if 0 <? b then (al - 1) + b * sz else 0)).
  { intros al sz a b H. destruct (Nat.ltb_spec 0 a), (Nat.ltb_spec 0 b); try lia. apply Nat.add_le_mono_l. now apply Nat.mul_le_mono_r. }
  assert (Hz : forall al sz, (if 0 <? 0 then (al - 1) + 0 * sz else 0) = 0) by reflexivity.
  assert (Hall : forall d i d' i', d <= d' -> i <= i' ->
    (if (i =? 0) && (d =? 0) then 0 else (if 0 <? d then ct_align S - 1 + d * ct_size S else 0) + (if 0 <? i then ct_align I - 1 + i * ct_size I else 0)) <=
    (if (i' =? 0) && (d' =? 0) then 0 else (if 0 <? d' then ct_align S - 1 + d' * ct_size S else 0) + (if 0 <? i' then ct_align I - 1 + i' * ct_size I else 0))).
  { intros d i d' i' Hd Hi. pose proof (Hmono (ct_align S) (ct_size S) d d' Hd). pose proof (Hmono (ct_align I) (ct_size I) i i' Hi).
    destruct (Nat.eqb_spec i 0), (Nat.eqb_spec d 0), (Nat.eqb_spec i' 0), (Nat.eqb_spec d' 0); cbn [andb]; try lia. }
  split; [|split; [|split]].
  - rewrite !(proj2 (Nat.leb_le _ _)); [reflexivity|lia|lia].
  - rewrite !(proj2 (Nat.leb_le _ _)); [reflexivity|lia|lia].
  - apply Hall; lia.
  - apply Hall; lia.
Qed.
Print Assumptions C12_extend.
(* double, int and a 24-byte descriptor; a buffer that starts at an odd address *)
Definition tDouble := CType 8 8.
Definition tInt := CType 4 4.
Definition tMtx := CType 24 8.
Example C12_case_types : ok_type tDouble /\ ok_type tInt /\ ok_type tMtx.
Proof.
  repeat split; cbn; try lia; [exists 3|exists 2|exists 3]; reflexivity.
Qed.
Example C12_case_raw : px_allocate tDouble tInt tMtx [0; 1; 2] (PMX None None None 5 3 2) 1001
    (px_enough_raw tDouble tInt tMtx (PMX None None None 5 3 2)) 5 3 2
  = (Some 1108, PMX (Some 1056) (Some 1096) (Some 1008) 5 3 2).
Proof. vm_compute. reflexivity. Qed.
Example C12_case_plain : pm_allocate_own tDouble tInt (PM None None 5 3) 1001 (pm_enough tDouble tInt (PM None None 5 3))
  = (Some 1060, PM (Some 1008) (Some 1048) 5 3).
Proof. vm_compute. reflexivity. Qed.
Example C12_case_from_plain : px_enough_plain tDouble tInt tMtx (PMX None None None 5 3 2) false = (5, 3 + 13) /\
  px_from_plain tDouble tInt tMtx (PMX None None None 5 3 2) 800 5 1004 16 5 3 2 false
  = (true, PMX (Some 800) (Some 1004) (Some 1016) 5 3 2).
Proof. split; vm_compute; reflexivity. Qed.
(* finding: a request without reals clears the pointer to the reals but keeps the old length *)
Example C12_stale_length : 
  let m := snd (px_allocate tDouble tInt tMtx [0; 1; 2] (PMX None None None 5 3 2) 1001 200 5 3 2) in
  let m' := snd (px_allocate tDouble tInt tMtx [0; 1; 2] m 1001 200 0 3 2) in
  px_d m' = None /\ px_dsize m' = 5.
Proof. vm_compute. split; reflexivity. Qed.

(** ** C13 *)
(** As long as nothing is requested between an out-of-order release and the moment
    all blocks are gone, live blocks have the requested sizes, lie in existing
    memory and never overlap. *)
Theorem C13_no_alias_partial : forall h, scoped 0 false h ->
  exists s live, drun (dm_init, []) h = Some (s, live) /\ good_pool s live (wants h).
Proof.
  intros h Hs. destruct inv_init as [HI HC].
  destruct (drun_scoped h dm_init [] [] false HI (fun _ => HC) eq_refl Hs) as (s & live & E & HI' & Hw).
  exists s, live. split; [exact E|]. unfold wants. rewrite Hw. now apply inv_good.
Qed.
Print Assumptions C13_no_alias_partial.
(** For every history in which only live blocks are released, in any order: no
    counter wraps, every live block has the requested size and lies in existing
    memory, and when all blocks are released all the memory is free again. *)
Theorem C13_sizes : forall h, legal 0 h ->
  exists s live, drun (dm_init, []) h = Some (s, live) /\ Forall2 has_size live (wants h) /\
    (forall x c, In x live -> owns x c -> exists_cell s c) /\
    (live = [] -> forall ck k, In ck (dm_chunks s) -> p_busy (ck_pool ck k) = 0 /\ ck_parts ck = 0).
Proof.
  intros h Hs. destruct (drun_legal h dm_init [] [] linv_init eq_refl Hs) as (s & live & E & (HB & BS & G1 & G2) & Hw).
  exists s, live. split; [exact E|]. unfold wants. rewrite Hw. split; [|split].
  - clear - G1. induction live as [|x l IH]; cbn [map]; [constructor|]. constructor; [now apply G1; left|]. apply IH. intros y Hy. apply G1. now right.
  - intros x [[k hp] i] Hx (p & Ep & Eh & Hi). destruct (G2 x k p Hx Ep) as (ck & E1 & K1 & K2).
    exists ck. split; [eapply nth_error_In; eassumption|]. split; [congruence|lia].
  - intros -> ck k Hc. apply In_nth_error in Hc. destruct Hc as [c Ec]. split; [apply (proj1 (clean_empty s HB) c ck k Ec)|].
    destruct HB as [_ B2]. destruct (B2 c ck Ec) as [-> _]. reflexivity.
Qed.
Print Assumptions C13_sizes.
(** Compaction either throws and changes nothing, or is done when no block is live,
    or does nothing. *)
Theorem C13_defragment : forall h s live, legal 0 h -> drun (dm_init, []) h = Some (s, live) ->
  fst (dm_defragment s) = s \/ (snd (dm_defragment s) = false /\ live = []).
Proof.
  intros h s live Hs E. destruct (drun_legal h dm_init [] [] linv_init eq_refl Hs) as (s' & live' & E' & (HB & _) & _).
  assert (s' = s /\ live' = live) as [-> ->] by (split; congruence).
  destruct (snd (dm_defragment s)) eqn:Ed; [left; now apply defrag_throw|].
  destruct (defrag_live s live HB Ed); auto.
Qed.
Print Assumptions C13_defragment.
(** Full property fails: after A and B are requested, A released, C requested and B
    released, the next block D overlaps the live C. *)
Definition reals (n : nat) : kind -> nat := fun k => match k with KR => n | _ => 0 end.
Definition alias_history : list dop :=
  [DAlloc (reals 30); DRelease 0; DAlloc (reals 10); DAlloc (reals 10); DRelease 1; DAlloc (reals 10); DRelease 1; DAlloc (reals 10)].
Theorem C13_any_order_refuted : exists h s live x y c, legal 0 h /\ drun (dm_init, []) h = Some (s, live) /\
  nth_error live 0 = Some x /\ nth_error live 1 = Some y /\ owns x c /\ owns y c.
Proof.
  exists alias_history.
  assert (H : (do st <- drun (dm_init, []) alias_history; do x <- nth_error (snd st) 0; do y <- nth_error (snd st) 1;
               Some (pt_piece x KR, pt_piece y KR)) = Some (Some (Piece 1 20 10), Some (Piece 1 20 10))) by (vm_compute; reflexivity).
  destruct (drun (dm_init, []) alias_history) as [[s live]|]; [|discriminate H]. cbn [obind snd] in H. exists s, live.
  destruct (nth_error live 0) as [x|]; [|discriminate H]. cbn [obind] in H.
  destruct (nth_error live 1) as [y|]; [|discriminate H]. cbn [obind] in H. apply Some_inj in H.
  exists x, y, (KR, 1, 20). split; [cbn; lia|]. split; [reflexivity|]. split; [reflexivity|]. split; [reflexivity|].
  split; exists (Piece 1 20 10); (split; [congruence|cbn; lia]).
Qed.
Print Assumptions C13_any_order_refuted.
(* a scoped history with two chunks, nested use and out-of-order releases at the end *)
Definition nested_history : list dop :=
  [DAlloc (reals 10); DAlloc (reals 20); DAlloc (fun _ => 3); DRelease 0; DAlloc (reals 4); DRelease 2; DRelease 0; DRelease 0;
   DDefrag; DAlloc (reals 25); DAlloc (reals 4)].
Example C13_case : scoped 0 false nested_history /\ legal 0 nested_history /\ legal 0 alias_history.
Proof. cbn. repeat split; lia. Qed.

(** ** C14 *)
(** In every reachable state every slot is either owned by exactly one thread or
    reusable, an owned slot holds a pool object, and different slots hold different
    objects. *)
Theorem C14_exclusive : forall s own, reach (s, own) ->
  NoDup (map snd own) /\
  (forall id, id < length (pr_mem s) <-> (exists t, In (t, id) own) \/ In id (pr_unused s)) /\
  (forall t id, In (t, id) own -> ~ In id (pr_unused s)) /\ NoDup (pr_unused s) /\
  (forall t id, In (t, id) own -> exists o, par_get id s = Some o) /\
  (forall t t' id id' o, In (t, id) own -> In (t', id') own -> par_get id s = Some o -> par_get id' s = Some o -> id = id' /\ t = t').
Proof.
  intros s own H. apply reach_inv in H. destruct H as (H1 & H2 & objs & E & N & F).
  apply nodup_app_iff in H1. destruct H1 as (N1 & N2 & D).
  assert (Hin : forall t id, In (t, id) own -> In id (map snd own)) by (intros t id Hi; change id with (snd (t, id)); now apply in_map).
  split; [exact N1|]. split; [|split; [|split; [exact N2|split]]].
  - intros id. rewrite <- H2, in_app_iff. split; (intros [Hi|Hi]; [left|now right]).
    + apply in_map_iff in Hi. destruct Hi as ([t id'] & E1 & Hi). cbn in E1. subst. now exists t.
    + destruct Hi as [t Hi]. eapply Hin; eassumption.
  - intros t id Hi. apply D. eapply Hin; eassumption.
  - intros t id Hi. assert (L : id < length (pr_mem s)) by (apply H2, in_app_iff; left; eapply Hin; eassumption).
    unfold par_get, rd. rewrite E in *. rewrite map_length in L. rewrite nth_error_map.
    destruct (nth_error objs id) as [o|] eqn:Eo; [|apply nth_error_None in Eo; lia]. exists o. reflexivity.
  - intros t t' id id' o Hi Hi' E1 E2. unfold par_get, rd in E1, E2. rewrite E, !nth_error_map in *.
    destruct (nth_error objs id) as [a|] eqn:Ea; [|discriminate E1]. destruct (nth_error objs id') as [b|] eqn:Eb; [|discriminate E2].
    cbn in E1, E2. assert (id = id').
    { eapply (proj1 (NoDup_nth_error objs) N); [apply nth_error_Some; congruence|congruence]. }
    subst id'. split; [reflexivity|]. eapply slot_owner; eassumption.
Qed.
Print Assumptions C14_exclusive.
(** Every operation succeeds, gives out only slots nobody owns, exactly as many as
    asked for, takes away only what is released, and leaves the objects of all other
    owned slots in place. *)
Theorem C14_step : forall st o, reach st -> pallowed (snd st) o -> exists st', pstep st o = Some st' /\
  (forall t id, In (t, id) (snd st) -> In (t, id) (snd st') -> par_get id (fst st') = par_get id (fst st)) /\
  match o with
  | PAlloc t => exists id, snd st' = (t, id) :: snd st /\ ~ In id (map snd (snd st))
  | PRange t n => exists lo, snd st' = map (fun id => (t, id)) (seq lo n) ++ snd st /\ forall id, lo <= id < lo + n -> ~ In id (map snd (snd st))
  | PRelease t id => forall t' id', In (t', id') (snd st') <-> In (t', id') (snd st) /\ (t', id') <> (t, id)
  | PReleaseRange t lo hi => forall t' id', In (t', id') (snd st') <-> In (t', id') (snd st) /\ ~ (lo <= id' < hi)
  | PReleaseAll | PClear => snd st' = []
  end.
Proof.
  intros st o H Ha. apply reach_inv in H. destruct (pstep_ok st o H Ha) as (st' & E & _ & H1 & H2). eauto.
Qed.
Print Assumptions C14_step.
(* two threads; the range is given first, thread 1 reuses a slot released by thread 0 *)
Definition two_threads : list pop := [PRange 0 3; PAlloc 1; PRelease 0 1; PAlloc 1; PReleaseRange 0 0 1; PAlloc 1].
Fixpoint prun (st : pstate) (h : list pop) : option pstate :=
  match h with [] => Some st | o :: r => do st' <- pstep st o; prun st' r end.
Example C14_case : prun (par_init, []) two_threads = Some (ParMem [Some 0; Some 1; Some 2; Some 3] [] 4, [(1, 0); (1, 1); (1, 3); (0, 2)]).
Proof. reflexivity. Qed.
Example C14_case_reach : exists s own, reach (s, own) /\ own = [(1, 3); (0, 0); (0, 1); (0, 2)] /\ pallowed own (PRelease 0 1) /\ pallowed own (PReleaseRange 0 0 2).
Proof.
  eexists _, _. split; [|split; [reflexivity|]].
  - eapply (reach_step _ (PAlloc 1)); [eapply (reach_step _ (PRange 0 3)); [apply reach_init|exact I|reflexivity]|exact I|reflexivity].
  - cbn. split; [auto|]. split; [lia|]. intros [|[|id]] H; auto. lia.
Qed.

(** ** C15 *)
Local Open Scope Z_scope.
(** For fewer than 2^32 iterations every iteration is executed by exactly one thread,
    on a contiguous range, with sizes that differ by at most one. *)
Theorem C15_once_partial : forall niters n k, 0 <= niters < 2 ^ 32 -> 1 <= n -> 0 <= k < niters ->
  exists! t, 0 <= t < n /\ runs niters n t k.
Proof. exact partition_once. Qed.
Print Assumptions C15_once_partial.
Theorem C15_balanced_partial : forall niters n t lo hi, 0 <= niters < 2 ^ 32 -> 1 <= n -> 0 <= t < n -> thread_range niters n t = (lo, hi) ->
  0 <= lo <= hi /\ hi <= niters /\ niters / n <= hi - lo <= niters / n + 1.
Proof. exact range_shape. Qed.
Print Assumptions C15_balanced_partial.
(** Missing: larger loops.  The products of the 32-bit batch size wrap, and two
    threads execute the same iteration. *)
Theorem C15_large_refuted : exists niters n k t t', 1 <= n /\ 0 <= k < niters /\ 0 <= t < n /\ 0 <= t' < n /\ t <> t' /\
  runs niters n t k /\ runs niters n t' k.
Proof.
  exists (3 * (2 ^ 32 - 1)), 3, (2 ^ 32 - 2), 0, 1. do 5 (split; [lia|]). unfold runs.
  split; destruct (thread_range _ _ _) as [lo hi] eqn:E; vm_compute in E; injection E as <- <-; lia.
Qed.
Print Assumptions C15_large_refuted.
Example C15_case : map (thread_range 11 4) [1; 2; 3; 0] = [(0, 3); (3, 6); (6, 9); (9, 11)].
Proof. reflexivity. Qed.
Local Close Scope Z_scope.

(** ** C16 *)
Ltac scratch E Em Ed Ei :=
  cbv beta iota zeta in E, Em, Ed, Ei;
  apply Some_inj in E; rewrite <- E; clear E;
  unfold scratch_ok, null in *;
  cbn [v_XYG v_XYP v_PSI v_DET v_MES v_NRM v_XYL v_WG v_DU v_DIFF v_U v_V v_extraR v_Dfn v_extraI v_ROW v_COL v_MTX];
  cbn [mr_m mr_d mr_i rq_U rq_R rq_I rq_parts fst snd] in *;
  revert Em Ed Ei; hide_products; intros Em Ed Ei;
  split; [cbn [fst snd]; lia|repeat (apply Forall_cons; [intros x0 [X Y]; cbn [fst snd] in X, Y; lia|]); apply Forall_nil].
(** Bilinear forms, run-time operators: arrays are inside the buffers and disjoint,
    their lengths are right, and the scratch area holds an elemental matrix of every
    fused tetrahedron. *)
Theorem C16_tet : forall same rU rV U V dfn q f normal copyquad mem a,
  init_tet same rU rV U V dfn q f normal copyquad mem = Some a ->
  layout_ok a mem /\ geometry_sizes a q f /\ scratch_ok a mem (sh_nfa U * sh_nfa V * f) /\
  snd (v_U a) = rq_U rU /\ (same = false -> snd (v_V a) = rq_U rV) /\ snd (v_Dfn a) = dfn /\
  (normal = true -> snd (v_NRM a) = 3 * f) /\ (copyquad = true -> snd (v_XYL a) = 4 * q /\ snd (v_WG a) = q) /\
  snd (v_DU a) = sh_dim V * (if normal then 3 else 1) * q * sh_nfa U * f /\
  sh_dim V * (sh_dim U * (if normal then 3 else 1)) * q * f <= snd (v_DIFF a) /\ sh_dim V * sh_nfa U * q * f <= snd (v_DIFF a) /\
  rq_R rU <= snd (v_extraR a) /\ (same = false -> rq_R rV <= snd (v_extraR a)) /\
  rq_I rU <= snd (v_extraI a) /\ (same = false -> rq_I rV <= snd (v_extraI a)).
Proof.
  intros same rU rV U V dfn q f normal copyquad mem a E0.
  split; [eapply init_tet_ok; eassumption|].
  assert (E := E0). unfold init_tet in E.
  destruct (guard _) as [x|] eqn:Eg; [|discriminate E]. cbn [obind] in E. apply enough_split in Eg. destruct Eg as (Em & Ed & Ei).
  unfold req_tet, joinreq in *.
  assert (Hsz : geometry_sizes a q f).
  { destruct same, normal, copyquad; apply Some_inj in E; rewrite <- E; unfold geometry_sizes; cbn [v_XYG v_XYP v_PSI v_DET v_MES snd]; lia. }
  split; [exact Hsz|]. split.
  - destruct same, normal, copyquad; scratch E Em Ed Ei.
  - clear Em Ed Ei Hsz E0.
    assert (M1 : sh_dim V * (sh_dim U * (if normal then 3 else 1)) * q * f <= sh_dim V * Nat.max (sh_dim U * (if normal then 3 else 1)) (sh_nfa U) * q * f).
    { do 2 apply Nat.mul_le_mono_r. apply Nat.mul_le_mono_l. lia. }
    assert (M2 : sh_dim V * sh_nfa U * q * f <= sh_dim V * Nat.max (sh_dim U * (if normal then 3 else 1)) (sh_nfa U) * q * f).
    { do 2 apply Nat.mul_le_mono_r. apply Nat.mul_le_mono_l. lia. }
    destruct same, normal, copyquad; apply Some_inj in E; rewrite <- E;
      cbn [v_U v_V v_Dfn v_NRM v_XYL v_WG v_DU v_DIFF v_extraR v_extraI rq_R rq_I snd null];
      (split; [reflexivity|]); (split; [intros; first [discriminate|reflexivity]|]); (split; [reflexivity|]);
      (split; [intros; first [discriminate|reflexivity]|]); (split; [intros; first [discriminate|split; reflexivity]|]);
      (split; [reflexivity|]); (split; [exact M1|]); (split; [exact M2|]); (split; [lia|]);
      (split; [intros; first [discriminate|lia]|]); (split; [lia|]); intros; first [discriminate|lia].
Qed.
Print Assumptions C16_tet.
(** A buffer of exactly the size returned by the query is accepted. *)
Theorem C16_tet_enough : forall same rU rV U V dfn q f normal copyquad,
  exists a, init_tet same rU rV U V dfn q f normal copyquad (req_tet same rU rV U V dfn q f normal copyquad) = Some a.
Proof.
  intros. unfold init_tet. cbv zeta. rewrite !Nat.ltb_irrefl. cbn [orb negb guard obind].
  destruct normal, copyquad, same; cbn [joinreq]; eexists; reflexivity.
Qed.
Print Assumptions C16_tet_enough.
(** The same for compile-time operators (the buffer is a static array of the queried size or more). *)
Theorem C16_tet_static : forall same rA rB A B q f normal copyquad mem,
  mr_d (req_tet_ct same rA rB A B q f normal copyquad) <= mr_d mem ->
  mr_i (req_tet_ct same rA rB A B q f normal copyquad) <= mr_i mem ->
  let a := init_tet_ct same rA rB A B q f normal copyquad (mr_i mem) in
  layout_ok a mem /\ geometry_sizes a q f /\ scratch_ok a mem (sh_nfa B * sh_nfa A * f) /\
  snd (v_U a) = rq_U rA /\ (same = false -> snd (v_V a) = rq_U rB).
Proof.
  intros same rA rB A B q f normal copyquad mem Hd Hi a.
  split; [now apply init_tet_ct_ok|].
  assert (Em : 0 <= mr_m mem) by lia. assert (E : Some a = Some a) by reflexivity. unfold a at 1 in E. clearbody a.
  unfold init_tet_ct in E. unfold req_tet_ct in *.
  split; [|split; [|split]].
  - destruct same, normal, copyquad; apply Some_inj in E; rewrite <- E; unfold geometry_sizes; cbn [v_XYG v_XYP v_PSI v_DET v_MES snd]; lia.
  - rewrite (Nat.mul_comm (if normal then 3 else 1) (sh_dim B)), (Nat.mul_comm (if normal then 3 else 1) (sh_dim A)) in E.
    destruct same, normal, copyquad; cbv beta iota zeta in E, Hd, Hi; cbn [mr_d mr_i] in Hd, Hi.
    all: repeat match type of E with context [0 <? ?x] => destruct (Nat.ltb_spec 0 x) end.
    all: scratch E Em Hd Hi.
  - destruct same, normal, copyquad; apply Some_inj in E; rewrite <- E; reflexivity.
  - intros ->. destruct normal, copyquad; apply Some_inj in E; rewrite <- E; cbn [v_V]; destruct (Nat.ltb_spec 0 (rq_U rB)); cbn [snd null]; lia.
Qed.
Print Assumptions C16_tet_static.
(** Evaluation of an operator of a function, with and without a tensor. *)
Theorem C16_apply : forall rU U d1 dfn q f normal mem a, init_applyD rU U d1 dfn q f normal mem = Some a ->
  layout_ok a mem /\ geometry_sizes a q f /\ scratch_ok a mem (sh_nfa U * f) /\
  (1 < rq_parts rU -> 1 < q -> scratch_ok a mem (sh_dim U * q * f)) /\
  snd (v_U a) = rq_U rU /\ snd (v_V a) = sh_dim U * q * f /\ snd (v_DU a) = d1 * q * f /\ snd (v_DIFF a) = d1 * sh_dim U * q * f /\ snd (v_Dfn a) = dfn.
Proof.
  intros rU U d1 dfn q f normal mem a E0. split; [eapply init_applyD_ok; eassumption|].
  assert (E := E0). unfold init_applyD in E.
  destruct (guard _) as [x|] eqn:Eg; [|discriminate E]. cbn [obind] in E. apply enough_split in Eg. destruct Eg as (Em & Ed & Ei).
  unfold req_applyD in *. rewrite !Nat.mul_1_r in *. split; [|split; [|split]].
  - destruct normal; apply Some_inj in E; rewrite <- E; unfold geometry_sizes; cbn [v_XYG v_XYP v_PSI v_DET v_MES snd]; lia.
  - destruct ((1 <? rq_parts rU) && (1 <? q)), normal; scratch E Em Ed Ei.
  - intros Hp Hq. rewrite (proj2 (Nat.ltb_lt _ _) Hp), (proj2 (Nat.ltb_lt _ _) Hq) in *. cbn [andb] in *. clear Hp Hq.
    destruct normal; scratch E Em Ed Ei.
  - destruct normal; apply Some_inj in E; rewrite <- E; cbn [v_U v_V v_DU v_DIFF v_Dfn snd]; repeat split; lia.
Qed.
Print Assumptions C16_apply.
Theorem C16_apply_identity : forall rU U q f copyquad mem a, init_applyND rU U q f copyquad mem = Some a ->
  layout_ok a mem /\ geometry_sizes a q f /\ scratch_ok a mem (sh_nfa U * f) /\
  (1 < rq_parts rU -> 1 < q -> scratch_ok a mem (sh_dim U * q * f)) /\ snd (v_U a) = rq_U rU.
Proof.
  intros rU U q f copyquad mem a E0. split; [eapply init_applyND_ok; eassumption|].
  assert (E := E0). unfold init_applyND in E.
  destruct (guard _) as [x|] eqn:Eg; [|discriminate E]. cbn [obind] in E. apply enough_split in Eg. destruct Eg as (Em & Ed & Ei).
  unfold req_applyND in *. rewrite !Nat.mul_1_r in *. split; [|split; [|split]].
  - destruct copyquad; apply Some_inj in E; rewrite <- E; unfold geometry_sizes; cbn [v_XYG v_XYP v_PSI v_DET v_MES snd]; lia.
  - destruct (Nat.ltb_spec (rq_R rU) (sh_nfa U * f)), ((1 <? rq_parts rU) && (1 <? q)), copyquad; revert H; scratch E Em Ed Ei.
  - intros Hp Hq. rewrite (proj2 (Nat.ltb_lt _ _) Hp), (proj2 (Nat.ltb_lt _ _) Hq) in *. cbn [andb] in *. clear Hp Hq.
    destruct (Nat.ltb_spec (rq_R rU) (sh_nfa U * f)), copyquad; revert H; scratch E Em Ed Ei.
  - destruct copyquad; apply Some_inj in E; rewrite <- E; reflexivity.
Qed.
Print Assumptions C16_apply_identity.
Theorem C16_apply_enough : forall rU U d1 dfn q f normal copyquad,
  (exists a, init_applyD rU U d1 dfn q f normal (req_applyD rU U d1 dfn q f normal) = Some a) /\
  (exists a, init_applyND rU U q f copyquad (req_applyND rU U q f copyquad) = Some a).
Proof.
  intros. unfold init_applyD, init_applyND. cbv zeta. rewrite !Nat.ltb_irrefl. cbn [orb negb guard obind].
  split; [destruct normal|destruct copyquad]; eexists; reflexivity.
Qed.
Print Assumptions C16_apply_enough.
(* GRAD(P2) x GRAD(P1) with 5 points and 2 fused tetrahedra *)
Example C16_case : option_map (fun a => (v_DU a, v_DIFF a, v_U a, v_V a, v_extraR a))
    (init_tet false (OpReq 300 40 0 1) (OpReq 120 0 0 1) (Shape 3 10) (Shape 3 4) 9 5 2 false true
       (req_tet false (OpReq 300 40 0 1) (OpReq 120 0 0 1) (Shape 3 10) (Shape 3 4) 9 5 2 false true))
  = Some ((101, 300), (401, 300), (701, 300), (1001, 120), (1121, 40)).
Proof. vm_compute. reflexivity. Qed.
