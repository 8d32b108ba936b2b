(** Appending and repeating matrices. *)
From Verif Require Import Prelude RSum DirProofs2 CoreProofs SpModel CoreModel CoreSpec SpSpec SpProofs.
Local Open Scope R_scope.

Lemma move_loop : forall A (g : A -> A) n lo L E (l : list A),
  (forall i j, (lo <= i)%nat -> (i < j)%nat -> (j < lo + n)%nat -> (E + i <> L + j)%nat) ->
  (forall i, (lo <= i < lo + n)%nat -> (L + i < length l)%nat /\ (E + i < length l)%nat) ->
  exists l', for_range lo n (fun i l => do x <- rd l (L + i); wr l (E + i) (g x)) l = Some l' /\ length l' = length l /\
    (forall i, (lo <= i < lo + n)%nat -> rd l' (E + i) = option_map g (rd l (L + i))) /\
    (forall c, ~ (E + lo <= c < E + lo + n)%nat -> rd l' c = rd l c).
Proof.
  intros A g n. induction n as [|n IH]; intros lo L E l Hne Hlt.
  - exists l. split; [reflexivity|]. split; [reflexivity|]. split; [intros; lia|auto].
  - destruct (Hlt lo) as [H1 H2]; [lia|]. destruct (rd_some l (L + lo) H1) as (x & Ex).
    destruct (wr_some l (E + lo) (g x) H2) as (l1 & E1 & L1 & W1). destruct (IH (S lo) L E l1) as (l2 & E2 & L2 & A2 & B2).
    + intros i j Hi Hj Hj2. apply Hne; lia.
    + intros i Hi. rewrite L1. apply Hlt. lia.
    + exists l2. split; [cbn [for_range]; rewrite Ex; cbn [obind]; rewrite E1; exact E2|]. split; [congruence|]. split.
      * intros i Hi. destruct (Nat.eq_dec i lo) as [->|Hi'].
        -- rewrite B2 by lia. rewrite W1, Nat.eqb_refl, Ex. reflexivity.
        -- rewrite A2 by lia. rewrite W1. destruct (Nat.eqb_spec (L + i) (E + lo)) as [e|]; [|reflexivity]. exfalso. apply (Hne lo i); lia.
      * intros c Hc. rewrite B2 by lia. rewrite W1. destruct (Nat.eqb_spec c (E + lo)); [lia|reflexivity].
Qed.

Section Two.
Variables f q : nat.
Notation holds := (holds f q). Notation post := (post f q).
Definition jreq (a b : req) : req := {| rU := (rU a + rU b)%nat; rE := Nat.max (rE a) (rE b); rP := (rP a + rP b)%nat |}.

Lemma ends : forall m b d nf V lo hi, holds m b d nf V lo hi -> rd (coli m) (os b + np b) = Some nf /\ rd (rowi m) (os b + np b) = Some d.
Proof.
  intros m b d nf V lo hi (bl & L & N & Er & Ec & Hv & Hr & Hc & Hh & Hi). rewrite <- L. split.
  - rewrite (Hc (length bl)) by lia. now rewrite firstn_all, Ec.
  - rewrite (Hr (length bl)) by lia. now rewrite firstn_all, Er.
Qed.

Lemma sh_le : forall n, (sh n <= 1)%nat.
Proof. intros n. unfold sh. destruct (0 <? n)%nat; lia. Qed.
Lemma sh_pos : forall n, (0 < n)%nat -> sh n = 1%nat.
Proof. intros n H. unfold sh. destruct (Nat.ltb_spec 0 n); [reflexivity|lia]. Qed.

(** the index part of append *)
Lemma append_idx : forall (g : list blk -> nat) (l : list nat) L E n a bl, (forall x y, g (x ++ y) = (g x + g y)%nat) ->
  idx g l L bl -> (E = L \/ L = E + 1)%nat -> n = length bl -> (L + n < length l)%nat ->
  exists l', for_range 1 n (fun i c => do x <- rd c (L + i); wr c (E + i) (a + x))%nat l = Some l' /\ length l' = length l /\
    (forall c, (c <= E)%nat -> rd l' c = rd l c) /\ (forall p, (1 <= p <= length bl)%nat -> rd l' (E + p) = Some (a + g (firstn p bl))%nat).
Proof.
  intros g l L E n a bl Hg Hi HE -> HL. destruct (move_loop nat (fun x => a + x)%nat (length bl) 1 L E l) as (l' & El & Ll & A & B).
  - intros i j H1 H2 H3. lia.
  - intros i H. lia.
  - exists l'. split; [exact El|]. split; [exact Ll|]. split.
    + intros c Hc. apply B. lia.
    + intros p Hp. rewrite A by lia. rewrite (Hi p) by lia. reflexivity.
Qed.

Lemma append_ok : forall m0 u0 la m1 res d nf V lb m2 b d' nf' V',
  post m0 u0 la m1 res d nf V -> busy m1 = (busy m0 + np res)%nat ->
  post m1 (u0 + rU la) lb m2 b d' nf' V' -> busy m2 = (busy m1 + np b)%nat ->
  pre m0 u0 (jreq la lb) ->
  exists m3 res', append m2 res b nf d = Some (m3, res') /\
    post m0 u0 (jreq la lb) m3 res' (d + d') (nf + nf') (vjoin d nf V V') /\ busy m3 = (busy m0 + np res')%nat.
Proof.
  intros m0 u0 la m1 res d nf V lb m2 b d' nf' V' (F1 & Od1 & Os1 & Np1 & Bz1 & H1) B1 (F2 & Od2 & Os2 & Np2 & Bz2 & H2) B2 Hpre.
  assert (Hres := holds_np _ _ _ _ _ _ _ _ _ H1). assert (Hb := holds_np _ _ _ _ _ _ _ _ _ H2).
  destruct F1 as (Lh1 & Fh1 & Lm1 & Fm1 & Lr1 & Fr1 & Lc1 & Fc1 & Ee1 & Es1). destruct F2 as (Lh2 & Fh2 & Lm2 & Fm2 & Lr2 & Fr2 & Lc2 & Fc2 & Ee2 & Es2).
  destruct Hpre as (P1 & P2 & P3 & P4 & P5 & P6 & P7). cbn [jreq rU rE rP] in P1, P3, P4, P5, P6, P7.
  rewrite (sh_pos (busy m1)) in * by lia. assert (Hsh := sh_le (busy m0)).
  destruct H1 as (bl1 & L1 & N1 & Er1 & Ec1 & Hv1 & Hr1 & Hc1 & Hh1 & Hi1). destruct H2 as (bl2 & L2 & N2 & Er2 & Ec2 & Hv2 & Hr2 & Hc2 & Hh2 & Hi2).
  set (E := (os res + np res)%nat).
  assert (HE : (E = os b \/ os b = E + 1)%nat) by (unfold E, sh in *; destruct (0 <? busy m0)%nat; lia).
  destruct (append_idx cols (coli m2) (os b) E (np b) nf bl2 cols_app Hc2 HE (eq_sym L2)) as (ci & Eci & Lci & Kci & Vci); [unfold E in *; lia|].
  destruct (append_idx rows (rowi m2) (os b) E (np b) d bl2 rows_app Hr2 HE (eq_sym L2)) as (ri & Eri & Lri & Kri & Vri); [unfold E in *; lia|].
  destruct (wr_some ci E nf) as (ci' & Wc & Lc & Rc); [unfold E in *; lia|]. destruct (wr_some ri E d) as (ri' & Wr & Lr & Rr); [unfold E in *; lia|].
  exists (set_idx m2 ri' ci'), {| np := (np res + np b)%nat; od := od res; os := os res |}. split.
  { unfold append. fold E. rewrite Eci. cbn [obind]. rewrite Eri. cbn [obind]. rewrite Wc. cbn [obind]. rewrite Wr. reflexivity. }
  split; [|cbn; lia].
  assert (Kc : forall c, (c < E)%nat -> rd ci' c = rd (coli m1) c).
  { intros c Hc. rewrite Rc. destruct (Nat.eqb_spec c E); [lia|]. rewrite Kci by lia. apply Fc2. unfold E in *. lia. }
  assert (Kr : forall c, (c < E)%nat -> rd ri' c = rd (rowi m1) c).
  { intros c Hc. rewrite Rr. destruct (Nat.eqb_spec c E); [lia|]. rewrite Kri by lia. apply Fr2. unfold E in *. lia. }
  split; [|cbn [od os np set_idx busy]; split; [exact Od1|split; [exact Os1|split; [cbn; lia|split; [lia|]]]]].
  - cbn [jreq rU]. split; [cbn; congruence|]. split; [|split; [cbn; congruence|split; [|split; [cbn; congruence|split; [|split; [cbn; congruence|split; [|cbn; split; congruence]]]]]]]; cbn [set_idx hp mtx rowi coli].
    + intros c Hc Hce. rewrite Fh2; [apply Fh1; [lia|exact Hce]|lia|rewrite Ee1, Es1; exact Hce].
    + intros c Hc. rewrite Fm2 by lia. now apply Fm1.
    + intros c Hc. rewrite Kr by (unfold E; lia). now apply Fr1.
    + intros c Hc. rewrite Kc by (unfold E; lia). now apply Fc1.
  - exists (bl1 ++ bl2). cbn [np od os set_idx hp mtx rowi coli]. split; [rewrite app_length; lia|]. split; [destruct bl1; [congruence|discriminate]|].
    split; [rewrite rows_app; lia|]. split; [rewrite cols_app; lia|]. split; [|split; [|split; [|split]]].
    + apply views_app.
      * apply (views_frame _ (mtx m1)); [exact Hv1|]. intros c Hc. apply Fm2. lia.
      * replace (od res + length bl1)%nat with (od b) by lia. exact Hv2.
    + apply idx_app; [exact rows_app| |].
      * intros p Hp. destruct (Nat.eq_dec p (length bl1)) as [->|Hne].
        -- rewrite firstn_all, Er1. rewrite L1. fold E. rewrite Rr, Nat.eqb_refl. reflexivity.
        -- rewrite Kr by (unfold E; lia). now apply Hr1.
      * intros p Hp. rewrite L1. fold E. destruct (Nat.eq_dec p 0) as [->|Hne].
        -- rewrite Nat.add_0_r, Rr, Nat.eqb_refl. cbn [firstn]. change (rows []) with 0%nat. now rewrite Er1, Nat.add_0_r.
        -- rewrite Rr. destruct (Nat.eqb_spec (E + p) E); [lia|]. rewrite Vri by lia. now rewrite Er1.
    + apply idx_app; [exact cols_app| |].
      * intros p Hp. destruct (Nat.eq_dec p (length bl1)) as [->|Hne].
        -- rewrite firstn_all, Ec1. rewrite L1. fold E. rewrite Rc, Nat.eqb_refl. reflexivity.
        -- rewrite Kc by (unfold E; lia). now apply Hc1.
      * intros p Hp. rewrite L1. fold E. destruct (Nat.eq_dec p 0) as [->|Hne].
        -- rewrite Nat.add_0_r, Rc, Nat.eqb_refl. cbn [firstn]. change (cols []) with 0%nat. now rewrite Ec1, Nat.add_0_r.
        -- rewrite Rc. destruct (Nat.eqb_spec (E + p) E); [lia|]. rewrite Vci by lia. now rewrite Ec1.
    + rewrite <- Er1, <- Ec1. apply vals_app; [|exact Hh2]. apply (vals_frame f q (hp m1) _ _ _ u0 (u0 + rU la)); [exact Hh1|exact Hi1|].
      intros c Hc. apply Fh2; [lia|]. rewrite Ee1, Es1. lia.
    + cbn [jreq rU]. apply inside_app; [apply (inside_weak f q _ _ _ _ _ Hi1); lia|apply (inside_weak f q _ _ _ _ _ Hi2); lia].
Qed.

(** *** Repetition *)
Fixpoint repl (n : nat) (bl : list blk) : list blk := match n with 0%nat => [] | S n => repl n bl ++ bl end.
Lemma repl_len : forall n bl, length (repl n bl) = (n * length bl)%nat.
Proof. induction n; intros; cbn [repl]; [reflexivity|]. rewrite app_length, IHn. lia. Qed.
Lemma repl_rows : forall n bl, rows (repl n bl) = (n * rows bl)%nat.
Proof. induction n; intros; cbn [repl]; [reflexivity|]. rewrite rows_app, IHn. lia. Qed.
Lemma repl_cols : forall n bl, cols (repl n bl) = (n * cols bl)%nat.
Proof. induction n; intros; cbn [repl]; [reflexivity|]. rewrite cols_app, IHn. lia. Qed.
Definition vrep (d nf : nat) (V : value) : value := fun r n k i => if (k / d =? i / nf)%nat then V r n (k mod d)%nat (i mod nf)%nat else 0.
Lemma div_last : forall a n k, (n * a <= k < n * a + a)%nat -> (k / a = n /\ k mod a = k - n * a)%nat.
Proof. intros a n k H. assert (a <> 0)%nat by lia. split; symmetry; [apply (Nat.div_unique k a n (k - n * a))|apply (Nat.mod_unique k a n (k - n * a))]; lia. Qed.
Lemma div_below : forall a n k, (k < n * a)%nat -> (k / a < n)%nat.
Proof. intros a n k H. apply Nat.div_lt_upper_bound; lia. Qed.
Lemma vals_repl : forall h n bl V, vals f q h bl V -> vals f q h (repl n bl) (vrep (rows bl) (cols bl) V).
Proof.
  intros h n bl V H. induction n as [|n IH]; [intros [|p] b E; discriminate|]. cbn [repl]. eapply vals_ext; [exact (vals_app _ _ _ _ _ _ _ IH H)|].
  intros r t k i Hr Ht Hk Hi. rewrite rows_app in Hk. rewrite cols_app in Hi. rewrite repl_rows in *. rewrite repl_cols in *. unfold vjoin.
  destruct (Nat.ltb_spec k (n * rows bl)) as [Hk1|Hk1]; destruct (Nat.ltb_spec i (n * cols bl)) as [Hi1|Hi1]; unfold vrep.
  - reflexivity.
  - destruct (div_last (cols bl) n i) as [-> _]; [lia|]. assert (X := div_below _ _ _ Hk1). destruct (Nat.eqb_spec (k / rows bl) n); [lia|reflexivity].
  - destruct (div_last (rows bl) n k) as [-> _]; [lia|]. assert (X := div_below _ _ _ Hi1). destruct (Nat.eqb_spec n (i / cols bl)); [lia|reflexivity].
  - destruct (div_last (rows bl) n k) as [-> ->]; [lia|]. destruct (div_last (cols bl) n i) as [-> ->]; [lia|]. now rewrite Nat.eqb_refl.
Qed.
Lemma inside_repl : forall n bl lo hi, inside f q bl lo hi -> inside f q (repl n bl) lo hi.
Proof. intros n bl lo hi H. induction n as [|n IH]; [intros [|p] b E; discriminate|]. cbn [repl]. now apply inside_app. Qed.

Lemma rep_views : forall n o bl x, bl <> [] -> (1 <= n)%nat -> views q x o bl -> (o + n * length bl <= length x)%nat ->
  exists x', for_range 1 (n - 1) (fun d x => for_ (length bl) (fun i x => do v <- rd x (o + i); wr x (o + d * length bl + i) v) x) x = Some x' /\
    length x' = length x /\ views q x' o (repl n bl) /\ (forall c, (c < o)%nat -> rd x' c = rd x c).
Proof.
  intros n o bl x Hne Hn Hv Hl.
  destruct (for_range_inv (fun d x' => length x' = length x /\ views q x' o (repl d bl) /\ forall c, (c < o)%nat -> rd x' c = rd x c) (n - 1) 1
    (fun d x => for_ (length bl) (fun i x => do v <- rd x (o + i); wr x (o + d * length bl + i) v) x) x) as (x' & E & L & V & K).
  - split; [reflexivity|]. split; [exact Hv|auto].
  - intros d0 x1 Hd (L1 & V1 & K1). destruct d0 as [|d]; [lia|]. change (S d) with (1 + d)%nat in *.
    destruct (move_loop _ (fun v : nat * nat => v) (length bl) 0 o (o + (1 + d) * length bl) x1) as (x2 & E2 & L2 & A2 & B2).
    + intros i j H1 H2 H3. nia.
    + intros i Hi. rewrite L1. assert (((1 + d) * length bl + length bl <= n * length bl)%nat) by (replace ((1 + d) * length bl + length bl)%nat with ((2 + d) * length bl)%nat by ring; apply Nat.mul_le_mono_r; lia). nia.
    + exists x2. split; [exact E2|]. split; [congruence|]. split.
      * change (repl (S (1 + d)) bl) with (repl (1 + d) bl ++ bl). apply views_app.
        -- apply (views_frame _ x1); [exact V1|]. intros c Hc. apply B2. rewrite repl_len in Hc. lia.
        -- rewrite repl_len. intros p b Ep. assert (p < length bl)%nat by (apply nth_error_Some; congruence).
           rewrite A2 by lia. cbn [option_map]. assert (X : rd x1 (o + p) = Some (b_off b, (q * b_rw b)%nat)).
           { clear - V1 Ep. induction d as [|d IH]; [exact (V1 p b Ep)|]. apply IH. intros p' b' E'. apply (V1 p' b').
             change (repl (1 + S d) bl) with (repl (1 + d) bl ++ bl). rewrite nth_error_app1; [exact E'|]. apply nth_error_Some. congruence. }
           rewrite X. reflexivity.
      * intros c Hc. rewrite B2 by nia. now apply K1.
  - exists x'. split; [exact E|]. split; [exact L|]. split; [|exact K]. replace (1 + (n - 1))%nat with n in V by lia. exact V.
Qed.
Lemma rep_idx : forall (g : list blk -> nat) n o bl l s, (forall x y, g (x ++ y) = (g x + g y)%nat) -> g [] = 0%nat -> s = g bl -> bl <> [] -> (1 <= n)%nat -> idx g l o bl -> (o + n * length bl < length l)%nat ->
  exists l', for_range 1 (n - 1) (fun d l => do l <- for_ (length bl) (fun i l => do x <- rd l (o + i); wr l (o + d * length bl + i) (x + s * d))%nat l; wr l (o + (d + 1) * length bl) (s * (d + 1))%nat) l = Some l' /\
    length l' = length l /\ idx g l' o (repl n bl) /\ (forall c, (c < o)%nat -> rd l' c = rd l c).
Proof.
  intros g n o bl l s Hg Hg0 Hs Hne Hn Hv Hl. assert (Gr : forall n, g (repl n bl) = (n * s)%nat) by (induction n0; cbn [repl]; [exact Hg0|rewrite Hg, IHn0, Hs; lia]).
  assert (Hpos : (1 <= length bl)%nat) by (destruct bl; [congruence|cbn; lia]).
  destruct (for_range_inv (fun d x' => length x' = length l /\ idx g x' o (repl d bl) /\ forall c, (c < o)%nat -> rd x' c = rd l c) (n - 1) 1
    (fun d l => do l <- for_ (length bl) (fun i l => do x <- rd l (o + i); wr l (o + d * length bl + i) (x + s * d))%nat l; wr l (o + (d + 1) * length bl) (s * (d + 1))%nat) l) as (x' & E & L & V & K).
  - split; [reflexivity|]. split; [exact Hv|auto].
  - intros d0 x1 Hd (L1 & V1 & K1). destruct d0 as [|d]; [lia|]. change (S d) with (1 + d)%nat in *.
    assert (Hle : ((2 + d) * length bl <= n * length bl)%nat) by (apply Nat.mul_le_mono_r; lia).
    destruct (move_loop _ (fun x => x + s * (1 + d))%nat (length bl) 0 o (o + (1 + d) * length bl) x1) as (x2 & E2 & L2 & A2 & B2).
    + intros i j H1 H2 H3. nia.
    + intros i Hi. rewrite L1. nia.
    + destruct (wr_some x2 (o + (1 + d + 1) * length bl) (s * (1 + d + 1))%nat) as (x3 & E3 & L3 & W3); [rewrite L2, L1; lia|].
      exists x3. split; [unfold for_; rewrite E2; exact E3|]. split; [congruence|]. split.
      * change (repl (S (1 + d)) bl) with (repl (1 + d) bl ++ bl).
        assert (X : forall p, (p <= length bl)%nat -> rd x3 (o + length (repl (1 + d) bl) + p) = Some (g (repl (1 + d) bl) + g (firstn p bl))%nat).
        { intros p Hp. rewrite repl_len, W3. rewrite Gr. destruct (Nat.eqb_spec (o + (1 + d) * length bl + p) (o + (1 + d + 1) * length bl)) as [e|ne].
          - assert (p = length bl) by lia. subst p. rewrite firstn_all, <- Hs. f_equal. lia.
          - assert (p < length bl)%nat by (destruct (Nat.eq_dec p (length bl)); [subst; lia|lia]). rewrite A2 by lia.
            assert (Y : rd x1 (o + p) = Some (g (firstn p bl))).
            { assert (Z := V1 p). rewrite repl_len in Z. rewrite Z by lia. f_equal. f_equal. clear - H. induction d as [|d IH]; [reflexivity|].
              rewrite <- IH. change (repl (1 + S d) bl) with (repl (1 + d) bl ++ bl). rewrite firstn_app_l; [reflexivity|]. rewrite repl_len. lia. }
            rewrite Y. cbn [option_map]. f_equal. lia. }
        apply idx_app; [exact Hg| |exact X]. intros p Hp. rewrite repl_len in Hp. destruct (Nat.eq_dec p ((1 + d) * length bl)) as [->|Hne'].
        -- assert (Z := X 0%nat). rewrite repl_len in Z. rewrite Nat.add_0_r in Z. rewrite Z by lia. cbn [firstn]. rewrite Hg0, Nat.add_0_r. f_equal. f_equal. rewrite <- (repl_len (1 + d) bl). now rewrite firstn_all.
        -- rewrite W3. destruct (Nat.eqb_spec (o + p) (o + (1 + d + 1) * length bl)) as [e|_]; [nia|]. rewrite B2 by lia. apply V1. rewrite repl_len. lia.
      * intros c Hc. rewrite W3. destruct (Nat.eqb_spec c (o + (1 + d + 1) * length bl)); [lia|]. rewrite B2 by nia. now apply K1.
  - exists x'. split; [exact E|]. split; [exact L|]. split; [|exact K]. replace (1 + (n - 1))%nat with n in V by lia. exact V.
Qed.

Lemma rep_ok : forall m0 u lr m1 b d nf V n, post m0 u lr m1 b d nf V -> busy m1 = (busy m0 + np b)%nat -> (1 <= n)%nat ->
  (busy m0 + rP lr * n <= length (mtx m0))%nat -> (busy m0 + rP lr * n + 2 <= length (rowi m0))%nat -> (busy m0 + rP lr * n + 2 <= length (coli m0))%nat ->
  exists m2 b2, rep_mtx m1 b n = Some (m2, b2) /\ post m0 u {| rU := rU lr; rE := rE lr; rP := rP lr * n |}%nat m2 b2 (n * d) (n * nf) (vrep d nf V) /\
    busy m2 = (busy m0 + np b2)%nat /\ np b2 = (np b * n)%nat.
Proof.
  intros m0 u lr m1 b d nf V n (F & Od & Os & Np & Bz & H) B Hn P1 P2 P3. assert (Hnp := holds_np _ _ _ _ _ _ _ _ _ H). destruct (ends _ _ _ _ _ _ _ H) as [Ec Er].
  destruct F as (Lh & Fh & Lm & Fm & Lr & Fr & Lc & Fc & Ee & Es). destruct H as (bl & L & N & Er1 & Ec1 & Hv & Hr & Hc & Hh & Hi).
  assert (Hs := sh_le (busy m0)). assert (Hle : (np b * n <= rP lr * n)%nat) by (apply Nat.mul_le_mono_r; exact Np).
  destruct (rep_views n (od b) bl (mtx m1) N Hn Hv) as (x & Ex & Lx & Vx & Kx); [rewrite L; lia|].
  destruct (rep_idx cols n (os b) bl (coli m1) nf cols_app eq_refl (eq_sym Ec1) N Hn Hc) as (c & Ecc & Lcc & Vc & Kc); [rewrite L; lia|].
  destruct (rep_idx rows n (os b) bl (rowi m1) d rows_app eq_refl (eq_sym Er1) N Hn Hr) as (r & Err & Lrr & Vr & Kr); [rewrite L; lia|].
  exists (set_busy (set_idx (set_mtx m1 x) r c) (busy m1 + (n - 1) * np b)), {| np := (np b * n)%nat; od := od b; os := os b |}.
  split.
  { unfold rep_mtx. destruct (Nat.ltb_spec 0 n) as [_|]; [|lia]. cbn [guard obind]. rewrite Ec, Er. cbn [obind]. rewrite L in *. rewrite Ex. cbn [obind]. rewrite Ecc. cbn [obind]. rewrite Err. reflexivity. }
  assert (Hb : (busy m1 + (n - 1) * np b = busy m0 + np b * n)%nat) by (rewrite B; nia).
  split; [|cbn [set_busy busy np]; split; [exact Hb|reflexivity]].
  split; [|cbn [set_busy set_idx set_mtx np od os busy rP rU]; split; [exact Od|split; [exact Os|split; [lia|split; [lia|]]]]].
  - unfold frame. cbn [set_busy set_idx set_mtx rU hp mtx rowi coli edat esz]. split; [exact Lh|]. split; [exact Fh|]. split; [congruence|].
    split; [|split; [congruence|split; [|split; [congruence|split; [|split; congruence]]]]].
    + intros y Hy. rewrite Kx by lia. now apply Fm.
    + intros y Hy. rewrite Kr by lia. now apply Fr.
    + intros y Hy. rewrite Kc by lia. now apply Fc.
  - exists (repl n bl). cbn [set_busy set_idx set_mtx np od os hp mtx rowi coli]. split; [rewrite repl_len; lia|].
    split; [intros e; assert (X := repl_len n bl); rewrite e in X; cbn in X; nia|]. split; [rewrite repl_rows; lia|]. split; [rewrite repl_cols; lia|].
    split; [exact Vx|]. split; [exact Vr|]. split; [exact Vc|]. split; [rewrite <- Er1, <- Ec1; now apply vals_repl|now apply inside_repl].
Qed.
End Two.
