(** Library spaces, work memory, divergence and curl of a repeated scalar space. *)
From Verif Require Import Prelude RSum DirProofs2 CoreProofs SpModel CoreModel CoreSpec SpSpec SpProofs SpProofs2 SpProofs3.
Local Open Scope R_scope.

Lemma rows1 : forall u d nf, rows [(u, d, nf)] = d.
Proof. intros. rewrite rows_cons. change (rows []) with 0%nat. cbn [b_rw fst snd]. apply Nat.add_0_r. Qed.
Lemma cols1 : forall u d nf, cols [(u, d, nf)] = nf.
Proof. intros. rewrite cols_cons. change (cols []) with 0%nat. cbn [b_cl snd]. apply Nat.add_0_r. Qed.
Lemma fresh_os : forall m n, os (fresh m n) = (busy m + sh (busy m))%nat.
Proof. reflexivity. Qed.
Section Ops.
Variables f q : nat.
Notation holds := (holds f q). Notation post := (post f q).
(** [gspec G lr ex P d nf V]: the operator G with requirement lr makes a d x nf matrix with P parts and
    values V; with ex it marks exactly its parts as busy *)
Definition gspec (G : mem -> nat -> option (mem * bx)) (lr : req) (ex : bool) (P d nf : nat) (V : value) : Prop :=
  forall m u, pre m u lr -> exists m' b, G m u = Some (m', b) /\ post m u lr m' b d nf V /\ np b = P /\ (ex = true -> busy m' = (busy m + np b)%nat).

Lemma frame_refl : forall m u n, frame m u n m.
Proof. intros m u n. repeat split; auto. Qed.
Lemma frame_weak : forall m u n n' m', frame m u n m' -> (n <= n')%nat -> frame m u n' m'.
Proof.
  intros m u n n' m' (Lh & Fh & R) H. split; [exact Lh|]. split; [|exact R]. intros c H1 H2. apply Fh; [lia|exact H2].
Qed.
Lemma frame_hp : forall m u n m' h, frame m u n m' -> length h = length (hp m') -> (forall c, ~ (u <= c < u + n)%nat -> ~ (edat m <= c < edat m + esz m)%nat -> rd h c = rd (hp m') c) -> frame m u n (set_hp m' h).
Proof.
  intros m u n m' h (Lh & Fh & R) L H. split; [cbn; congruence|]. split; [|exact R]. intros c H1 H2. cbn [set_hp hp]. rewrite H by assumption. now apply Fh.
Qed.
Lemma frame_esz : forall m u n m' , frame m u n m' -> frame m u n (set_esz m' (esz m)).
Proof. intros m u n m' (A & B & C & D & E & F & G & H & I & J). repeat split; auto. Qed.
Lemma put_start_ok : forall m0 u n m b, frame m0 u n m -> os b = (busy m0 + sh (busy m0))%nat -> (os b < length (rowi m0))%nat -> (os b < length (coli m0))%nat ->
  exists m', put_start m b = Some m' /\ frame m0 u n m' /\ rd (rowi m') (os b) = Some 0%nat /\ rd (coli m') (os b) = Some 0%nat /\ hp m' = hp m /\ busy m' = busy m.
Proof.
  intros m0 u n m b (Lh & Fh & Lm & Fm & Lr & Fr & Lc & Fc & Ee & Es) Ho H1 H2.
  destruct (wr_some (rowi m) (os b) 0%nat) as (r & Er & Hlr & Hr); [lia|]. destruct (wr_some (coli m) (os b) 0%nat) as (c & Ec & Hlc & Hc); [lia|].
  exists (set_idx m r c). split; [unfold put_start; rewrite Er; cbn [obind]; rewrite Ec; reflexivity|]. cbn [set_idx rowi coli hp busy]. split.
  - unfold frame. cbn [set_idx hp mtx rowi coli edat esz]. split; [exact Lh|]. split; [exact Fh|]. split; [exact Lm|]. split; [exact Fm|]. split; [congruence|]. split; [|split; [congruence|split; [|auto]]].
    + intros x Hx. rewrite Hr. destruct (Nat.eqb_spec x (os b)); [lia|]. now apply Fr.
    + intros x Hx. rewrite Hc. destruct (Nat.eqb_spec x (os b)); [lia|]. now apply Fc.
  - rewrite Hr, Hc, Nat.eqb_refl. auto.
Qed.
Lemma one_ok : forall m0 u lr m b d nf V, pre m0 u lr -> frame m0 u (rU lr) m -> od b = busy m0 -> os b = (busy m0 + sh (busy m0))%nat -> (1 <= rP lr)%nat ->
  rd (rowi m) (os b) = Some 0%nat -> rd (coli m) (os b) = Some 0%nat -> (q * d * (nf * f) <= rU lr)%nat ->
  (forall r n k i, (r < f)%nat -> (n < q)%nat -> (k < d)%nat -> (i < nf)%nat -> rd (hp m) (u + ((k + d * n) + q * d * (i + nf * r))) = Some (V r n k i)) ->
  exists m', put_part m b (u, q * d)%nat d nf = Some m' /\ busy m' = busy m /\
    forall B, (busy m0 <= B <= busy m0 + 1)%nat -> post m0 u lr (set_busy m' B) {| np := 1; od := od b; os := os b |} d nf V.
Proof.
  intros m0 u lr m b d nf V (P1 & P2 & P3 & P4 & P5 & P6 & P7) (Lh & Fh & Lm & Fm & Lr & Fr & Lc & Fc & Ee & Es) Hod Hos HP Z1 Z2 HU HV. assert (Hs := sh_le (busy m0)).
  destruct (wr_some (mtx m) (od b) (u, q * d)%nat) as (x & Ex & Lx & Hx); [lia|].
  destruct (wr_some (rowi m) (os b + 1) d) as (r & Er & Hlr & Hr); [lia|]. destruct (wr_some (coli m) (os b + 1) nf) as (c & Ec & Hlc & Hc); [lia|].
  exists (set_idx (set_mtx m x) r c). split; [unfold put_part; rewrite Ex; cbn [obind]; rewrite Er; cbn [obind]; rewrite Ec; reflexivity|]. split; [reflexivity|].
  intros B HB. split; [|cbn [od os np set_busy busy]; split; [exact Hod|split; [exact Hos|split; [exact HP|split; [lia|]]]]].
  - unfold frame. cbn [set_busy set_idx set_mtx hp mtx rowi coli edat esz]. split; [exact Lh|]. split; [exact Fh|]. split; [congruence|]. split; [|split; [congruence|split; [|split; [congruence|split; [|auto]]]]].
    + intros y Hy. rewrite Hx. destruct (Nat.eqb_spec y (od b)); [lia|]. now apply Fm.
    + intros y Hy. rewrite Hr. destruct (Nat.eqb_spec y (os b + 1)); [lia|]. now apply Fr.
    + intros y Hy. rewrite Hc. destruct (Nat.eqb_spec y (os b + 1)); [lia|]. now apply Fc.
  - exists [(u, d, nf)]. cbn [set_busy set_idx set_mtx hp mtx rowi coli od os np]. split; [reflexivity|]. split; [discriminate|].
    split; [apply rows1|]. split; [apply cols1|]. split; [|split; [|split; [|split]]].
    + intros [|[|p]] y E; try discriminate. apply Some_inj' in E. subst y. rewrite Nat.add_0_r, Hx, Nat.eqb_refl. reflexivity.
    + intros [|[|p]] Hp; [| |cbn in Hp; lia].
      * rewrite Nat.add_0_r, Hr. destruct (Nat.eqb_spec (os b) (os b + 1)); [lia|]. exact Z1.
      * rewrite Hr, Nat.eqb_refl. f_equal. symmetry. apply rows1.
    + intros [|[|p]] Hp; [| |cbn in Hp; lia].
      * rewrite Nat.add_0_r, Hc. destruct (Nat.eqb_spec (os b) (os b + 1)); [lia|]. exact Z2.
      * rewrite Hc, Nat.eqb_refl. f_equal. symmetry. apply cols1.
    + now apply vals_one.
    + intros [|[|p]] y E; try discriminate. apply Some_inj' in E. subst y. cbn. lia.
Qed.

Lemma base_ok_ok : forall o b, base_ok f q b -> supp o (SBase b) ->
  exists rq, mreq f q o (SBase b) = Some rq /\ gspec (base_apply f q o b) rq true 1 (dim_op o (b_dim b)) (b_nfa b) (b_val b o).
Proof.
  intros o b (Hd & Hu & _) Hs. exists {| rU := b_usz b o f q; rE := b_esz b o f q; rP := 1 |}. split.
  { cbn [mreq]. cbn [supp] in Hs. destruct o; try reflexivity; rewrite Hs; reflexivity. }
  intros m u Hpre. assert (Hpre' := Hpre). destruct Hpre' as (P1 & P2 & P3 & P4 & P5 & P6 & P7). cbn [rU rE rP] in *.
  unfold base_apply. replace (match o with DIV | CURL => guard (b_dim b =? 3)%nat | _ => Some tt end) with (Some tt) by (cbn [supp] in Hs; destruct o; try reflexivity; rewrite Hs; reflexivity).
  cbn [obind]. destruct (Nat.leb_spec (b_esz b o f q) (esz m)) as [_|]; [|lia]. cbn [guard obind].
  destruct (fill_ok (b_usz b o f q) u (b_junk b o) (hp m)) as (h1 & E1 & L1 & A1 & B1); [exact P1|]. rewrite E1. cbn [obind].
  destruct (fill_ok (esz m) (edat m) (fun i => b_junk b o (b_usz b o f q + i)%nat) h1) as (h2 & E2 & L2 & A2 & B2); [lia|]. rewrite E2. cbn [obind].
  set (d := dim_op o (b_dim b)). set (nf := b_nfa b).
  assert (HU : (q * d * (nf * f) <= b_usz b o f q)%nat) by (specialize (Hu o); fold d nf in Hu; nia).
  destruct (quad_wr (fun _ => True) f nf q d (fun r i n k h => wr h (u + ((k + d * n) + q * d * (i + nf * r))) (b_val b o r n k i))
    (fun r i n k => u + ((k + d * n) + q * d * (i + nf * r)))%nat (fun r i n k => b_val b o r n k i) h2) as (h3 & E3 & L3 & A3 & B3).
  { intros r i n k Hr Hi Hn Hk. split; [exact I|]. assert (X := cell4_lt d q nf f k n i r Hk Hn Hi Hr). lia. }
  { intros r i n k r' i' n' k' Hr Hi Hn Hk Hr' Hi' Hn' Hk' E. apply Nat.add_cancel_l in E. apply cell4_inj in E; try assumption. destruct E as (-> & -> & -> & ->). reflexivity. }
  { reflexivity. }
  rewrite E3. cbn [obind].
  assert (F3 : frame m u (b_usz b o f q) (set_hp m h3)).
  { apply frame_hp; [apply frame_refl|congruence|]. intros c H1 H2. rewrite B3, B2, B1; try assumption; [reflexivity|].
    intros r i n k Hr Hi Hn Hk. assert (X := cell4_lt d q nf f k n i r Hk Hn Hi Hr). lia. }
  assert (Hsh := sh_le (busy m)).
  destruct (put_start_ok m u _ (set_hp m h3) (fresh (set_hp m h3) 1) F3) as (m4 & E4 & F4 & Z1 & Z2 & H4 & B4); [reflexivity|rewrite fresh_os; cbn [set_hp busy]; lia|rewrite fresh_os; cbn [set_hp busy]; lia|].
  rewrite E4. cbn [obind].
  destruct (one_ok m u {| rU := b_usz b o f q; rE := b_esz b o f q; rP := 1 |} m4 (fresh (set_hp m h3) 1) d nf (b_val b o)) as (m5 & E5 & B5 & Q5); auto.
  { intros r n k i Hr Hn Hk Hi. rewrite H4. cbn [set_hp hp]. now apply A3. }
  rewrite E5. cbn [obind]. exists (set_busy m5 (busy m5 + 1)), (fresh (set_hp m h3) 1). split; [reflexivity|].
  assert (Bm : busy m5 = busy m) by (rewrite B5, B4; reflexivity). split; [|split; [reflexivity|intros _; cbn; lia]].
  apply (Q5 (busy m5 + 1)%nat). lia.
Qed.

(** *** Work memory *)
Lemma work_ok : forall G g ex P d nf V m u lr, gspec G g ex P d nf V -> pre m u lr -> (rE g + rU g <= rE lr)%nat -> (rP g <= rP lr)%nat ->
  exists m' b, with_work G g m = Some (m', b) /\ frame m u 0 m' /\ od b = busy m /\ os b = (busy m + sh (busy m))%nat /\ np b = P /\ (np b <= rP g)%nat /\
    (ex = true -> busy m' = (busy m + np b)%nat) /\ holds m' b d nf V (edat m + (esz m - rU g)) (edat m + esz m).
Proof.
  intros G g ex P d nf V m u lr HG (P1 & P2 & P3 & P4 & P5 & P6 & P7) HE HP.
  destruct (HG (set_esz m (esz m - rU g)) (edat m + (esz m - rU g))%nat) as (m' & b & E & ((Lh & Fh & Lm & Fm & Lr & Fr & Lc & Fc & Ee & Es) & Od & Os & Np & Bz & H) & HnP & Hex).
  { unfold pre. cbn [set_esz hp mtx rowi coli busy edat esz]. repeat split; lia. }
  cbn [set_esz hp mtx rowi coli busy edat esz] in *.
  exists (set_esz m' (esz m)), b. split.
  { unfold with_work. destruct (Nat.leb_spec (rU g) (esz m)) as [_|]; [|lia]. cbn [guard obind]. rewrite E. cbn [obind fst snd]. rewrite Es. replace (esz m - rU g + rU g)%nat with (esz m) by lia. reflexivity. }
  split; [|split; [exact Od|split; [exact Os|split; [exact HnP|split; [exact Np|split; [exact Hex|]]]]]].
  - unfold frame. cbn [set_esz hp mtx rowi coli busy edat esz]. split; [exact Lh|]. split; [|split; [exact Lm|split; [exact Fm|split; [exact Lr|split; [exact Fr|split; [exact Lc|split; [exact Fc|auto]]]]]]].
    intros c H1 H2. apply Fh; lia.
  - replace (edat m + esz m)%nat with (edat m + (esz m - rU g) + rU g)%nat by lia. exact H.
Qed.
(** read one part of a matrix *)
Lemma holds_view : forall m b d nf V lo hi, holds m b d nf V lo hi -> np b = 1%nat ->
  exists o, rd (mtx m) (od b) = Some (o, q * d)%nat /\ (lo <= o)%nat /\ (o + q * d * (nf * f) <= hi)%nat /\
    rd (rowi m) (os b) = Some 0%nat /\ rd (coli m) (os b) = Some 0%nat /\
    forall h r n k i, (forall c, (lo <= c < hi)%nat -> rd h c = rd (hp m) c) -> (r < f)%nat -> (n < q)%nat -> (k < d)%nat -> (i < nf)%nat ->
      vrd h (o, q * d)%nat (k + d * n) (i + nf * r) = Some (V r n k i).
Proof.
  intros m b d nf V lo hi (bl & L & N & Er & Ec & Hv & Hr & Hc & Hh & Hi) H1. rewrite H1 in L. destruct bl as [|x [|]]; try discriminate.
  destruct x as [[o rw] cl]. rewrite rows1 in Er. rewrite cols1 in Ec. subst rw cl.
  exists o. split; [specialize (Hv 0%nat _ eq_refl); rewrite Nat.add_0_r in Hv; exact Hv|]. destruct (Hi 0%nat _ eq_refl) as [I1 I2]. cbn in I1, I2.
  split; [exact I1|]. split; [exact I2|]. split; [specialize (Hr 0%nat); rewrite Nat.add_0_r in Hr; apply Hr; lia|]. split; [specialize (Hc 0%nat); rewrite Nat.add_0_r in Hc; apply Hc; lia|].
  intros h r n k i Hf Hr' Hn Hk Hii. destruct (Hh 0%nat _ eq_refl r n i Hr' Hn Hii) as [A _]. specialize (A k Hk). cbn [firstn] in A. change (rows []) with 0%nat in A. change (cols []) with 0%nat in A. cbn [Nat.add] in A.
  rewrite <- A. unfold vrd. cbn [fst snd]. rewrite Hf; [reflexivity|].
  assert (X := cell_in f q (o, d, nf) r n k i Hr' Hn Hk Hii). unfold cell in X. cbn in X. lia.
Qed.
Lemma set_busy_np1 : forall b, np b = 1%nat -> {| np := 1; od := od b; os := os b |} = b.
Proof. intros [a b c] H. cbn in *. now subst. Qed.

(** *** VectorFemSpace, three copies of a scalar space *)
Lemma vec_div_ok : forall G g nfa V, gspec G g true 1 3 nfa V ->
  gspec (vec_div f q G g nfa) (over_req (3 * q * f * nfa) g) true 1 1 (3 * nfa) (from_grad DIV (vrep 3 nfa V)).
Proof.
  intros G g nfa V HG m u Hpre. destruct (work_ok G g true 1 3 nfa V m u _ HG Hpre) as (m1 & b & E & Fr & Od & Os & HP & Hle & _ & H); [cbn; lia|cbn; lia|].
  unfold vec_div. rewrite E. cbn [obind fst snd]. rewrite HP. cbn [Nat.eqb guard obind].
  destruct (holds_view _ _ _ _ _ _ _ H HP) as (o & Ev & Ho1 & Ho2 & Z1 & Z2 & Hval). rewrite Ev. cbn [obind].
  assert (Hpre' := Hpre). destruct Hpre' as (P1 & P2 & P3 & P4 & P5 & P6 & P7). cbn [over_req rU rE rP] in *. assert (Hl := proj1 Fr).
  assert (Hin : forall r i n k, (r < f)%nat -> (i < nfa)%nat -> (n < q)%nat -> (k < 3)%nat -> (n + q * (i + nfa * (k + 3 * r)) < 3 * q * f * nfa)%nat).
  { intros r i n k Hr Hi Hn Hk. assert (X1 := cell_lt 3 f k r Hk Hr). assert (X2 := cell_lt nfa (3 * f) i _ Hi X1). assert (X3 := cell_lt q _ n _ Hn X2). lia. }
  destruct (quad_wr (fun c => u <= c < u + 3 * q * f * nfa)%nat f nfa q 3
    (fun r i n k h => do x <- vrd h (o, q * 3)%nat (k + 3 * n) (i + nfa * r); wr h (u + (n + q * (i + nfa * (k + 3 * r)))) x)
    (fun r i n k => u + (n + q * (i + nfa * (k + 3 * r))))%nat (fun r i n k => V r n k i) (hp m1)) as (h2 & E2 & L2 & A2 & B2).
  { intros r i n k Hr Hi Hn Hk. specialize (Hin r i n k Hr Hi Hn Hk). split; lia. }
  { intros r i n k r' i' n' k' Hr Hi Hn Hk Hr' Hi' Hn' Hk' X. apply Nat.add_cancel_l in X. apply cell_inj in X; try assumption. destruct X as [-> X].
    apply cell_inj in X; try assumption. destruct X as [-> X]. apply cell_inj in X; try assumption. destruct X as [-> ->]. reflexivity. }
  { intros r i n k h1 Hr Hi Hn Hk (_ & Ha). rewrite (Hval h1 r n k i); try assumption; [reflexivity|]. intros c Hc. apply Ha. lia. }
  rewrite E2. cbn [obind].
  destruct (one_ok m u (over_req (3 * q * f * nfa) g) (set_hp m1 h2) b 1 (3 * nfa) (from_grad DIV (vrep 3 nfa V))) as (m3 & E3 & B3 & Q3); auto; cbn [over_req rU rE rP]; try lia.
  { apply frame_hp; [apply (frame_weak _ _ 0); [exact Fr|lia]|exact L2|]. intros c H1 H2. apply B2. intros r i n k Hr Hi Hn Hk. specialize (Hin r i n k Hr Hi Hn Hk). lia. }
  { intros r n k i Hr Hn Hk Hi. cbn [set_hp hp]. assert (k = 0%nat) by lia. subst k.
    assert (Hn0 : nfa <> 0%nat) by (intros ->; lia). assert (Hk3 : (i / nfa < 3)%nat) by (apply div_below; lia). assert (Hi3 : (i mod nfa < nfa)%nat) by (now apply Nat.mod_upper_bound).
    assert (Ei := Nat.div_mod i nfa Hn0). remember (i / nfa)%nat as l eqn:El. remember (i mod nfa)%nat as d eqn:Ed. symmetry in El, Ed.
    replace (u + (0 + 1 * n + q * 1 * (i + 3 * nfa * r)))%nat with (u + (n + q * (d + nfa * (l + 3 * r))))%nat by (rewrite Ei; ring).
    rewrite (A2 r d n l) by assumption. f_equal. unfold from_grad, vrep.
    change (0 / 3)%nat with 0%nat. change (4 / 3)%nat with 1%nat. change (8 / 3)%nat with 2%nat. change (0 mod 3)%nat with 0%nat. change (4 mod 3)%nat with 1%nat. change (8 mod 3)%nat with 2%nat.
    rewrite El, Ed. destruct l as [|[|[|y]]]; cbn [Nat.eqb]; try lra. lia. }
  rewrite Nat.mul_1_r in E3. replace (nfa * 3)%nat with (3 * nfa)%nat by lia. rewrite E3. cbn [obind]. exists (set_busy m3 (busy m + 1)), b. split; [reflexivity|].
  rewrite (set_busy_np1 b HP) in Q3. split; [apply Q3; lia|]. split; [exact HP|]. intros _. rewrite HP. reflexivity.
Qed.

Definition cI (e : nat) : nat := nth e [1; 2; 0; 2; 0; 1]%nat 0%nat.
Definition cJ (e : nat) : nat := nth e [2; 1; 2; 0; 1; 0]%nat 0%nat.
Definition cL (e : nat) : nat := nth e [0; 0; 1; 1; 2; 2]%nat 0%nat.
Definition cS (e : nat) : R := nth e [1; -1; -1; 1; 1; -1] 0.
Lemma six : forall (P : nat -> Prop), P 0%nat -> P 1%nat -> P 2%nat -> P 3%nat -> P 4%nat -> P 5%nat -> forall e, (e < 6)%nat -> P e.
Proof. intros P H0 H1 H2 H3 H4 H5 e He. destruct e as [|[|[|[|[|[|e]]]]]]; try assumption. lia. Qed.
Lemma cIL_inj : forall e e', (e < 6)%nat -> (e' < 6)%nat -> cI e = cI e' -> cL e = cL e' -> e = e'.
Proof. intros e e' He He' H1 H2. destruct e as [|[|[|[|[|[|e]]]]]]; try lia; destruct e' as [|[|[|[|[|[|e']]]]]]; try lia; discriminate. Qed.
Lemma cIL_ne : forall e, (e < 6)%nat -> cI e <> cL e.
Proof. intros e He. destruct e as [|[|[|[|[|[|e]]]]]]; try lia; discriminate. Qed.
Lemma vec_curl_ok : forall G g nfa V, gspec G g true 1 3 nfa V ->
  gspec (vec_curl f q G g nfa) (over_req (9 * q * f * nfa) g) true 1 3 (3 * nfa) (from_grad CURL (vrep 3 nfa V)).
Proof.
  intros G g nfa V HG m u Hpre. destruct (work_ok G g true 1 3 nfa V m u _ HG Hpre) as (m1 & b & E & Fr & Od & Os & HP & Hle & _ & H); [cbn; lia|cbn; lia|].
  unfold vec_curl. rewrite E. cbn [obind fst snd].
  destruct (holds_view _ _ _ _ _ _ _ H HP) as (o & Ev & Ho1 & Ho2 & Z1 & Z2 & Hval).
  assert (Hpre' := Hpre). destruct Hpre' as (P1 & P2 & P3 & P4 & P5 & P6 & P7). cbn [over_req rU rE rP] in *. assert (Hl := proj1 Fr).
  destruct (fill_ok (3 * q * 3 * nfa * f) u (fun _ => 0) (hp m1)) as (h1 & E1 & L1 & A1 & B1); [lia|]. rewrite E1. cbn [obind].
  rewrite HP. cbn [Nat.eqb guard obind]. rewrite Ev. cbn [obind].
  assert (HI : forall e, (e < 6)%nat -> (cI e < 3 /\ cJ e < 3 /\ cL e < 3)%nat) by (apply six; cbn; lia).
  assert (Hin : forall r i n k, (r < f)%nat -> (i < 3 * nfa)%nat -> (n < q)%nat -> (k < 3)%nat -> ((k + 3 * n) + q * 3 * (i + 3 * nfa * r) < 9 * q * f * nfa)%nat).
  { intros r i n k Hr Hi Hn Hk. assert (X := cell4_lt 3 q (3 * nfa) f k n i r Hk Hn Hi Hr). lia. }
  set (col e d := (d + nfa * cL e)%nat).
  assert (Hcol : forall e d, (e < 6)%nat -> (d < nfa)%nat -> (col e d < 3 * nfa)%nat).
  { intros e d He Hd. destruct (HI e He) as (_ & _ & X). unfold col. assert (Y := cell_lt nfa 3 d (cL e) Hd X). lia. }
  set (tgt := fun r n e d => (u + ((cI e + 3 * n) + q * 3 * (col e d + 3 * nfa * r)))%nat).
  destruct (quad_wr (fun c => u <= c < u + 9 * q * f * nfa)%nat f q 6 nfa
    (fun r n e d h => do x <- vrd h (o, q * 3)%nat (cJ e + n * 3) (d + nfa * r); wr h (u + ((cI e + 3 * n) + 3 * q * (d + nfa * (cL e + 3 * r)))) (cS e * x))
    tgt (fun r n e d => cS e * V r n (cJ e) d) h1) as (h2 & E2 & L2 & A2 & B2).
  { intros r n e d Hr Hn He Hd. destruct (HI e He) as (X1 & X2 & X3). assert (Y := Hin r (col e d) n (cI e) Hr (Hcol e d He Hd) Hn X1). unfold tgt. split; lia. }
  { intros r n e d r' n' e' d' Hr Hn He Hd Hr' Hn' He' Hd' X. unfold tgt in X. apply Nat.add_cancel_l in X.
    apply cell4_inj in X; auto; try (apply HI; assumption). destruct X as (X1 & -> & X3 & ->). unfold col in X3. apply cell_inj in X3; try assumption. destruct X3 as [-> X3].
    assert (e = e'); [|now subst]. now apply cIL_inj. }
  { intros r n e d h3 Hr Hn He Hd (_ & Ha). destruct (HI e He) as (X1 & X2 & X3). rewrite (Nat.mul_comm n 3). rewrite (Hval h3 r n (cJ e) d); try assumption.
    - cbn [obind]. f_equal. unfold tgt, col. ring.
    - intros c Hc. rewrite Ha by lia. apply B1. lia. }
  match goal with |- context [obind (for_ f ?bd h1) _] => replace (for_ f bd h1) with (Some h2) by (symmetry; exact E2) end.
  cbn [obind].
  destruct (one_ok m u (over_req (9 * q * f * nfa) g) (set_hp m1 h2) b 3 (3 * nfa) (from_grad CURL (vrep 3 nfa V))) as (m3 & E3 & B3 & Q3); auto; cbn [over_req rU rE rP]; try lia.
  { apply frame_hp; [apply (frame_weak _ _ 0); [exact Fr|lia]|congruence|]. intros c H1 H2. rewrite B2; [apply B1; lia|]. intros r n e d Hr Hn He Hd. destruct (HI e He) as (X1 & X2 & X3).
    assert (Y := Hin r (col e d) n (cI e) Hr (Hcol e d He Hd) Hn X1). unfold tgt. lia. }
  { intros r n k i Hr Hn Hk Hi. cbn [set_hp hp].
    assert (Hn0 : nfa <> 0%nat) by (intros ->; lia). assert (Hk3 : (i / nfa < 3)%nat) by (apply div_below; lia). assert (Hi3 : (i mod nfa < nfa)%nat) by (now apply Nat.mod_upper_bound).
    assert (Ei := Nat.div_mod i nfa Hn0). set (l := (i / nfa)%nat) in *. set (d := (i mod nfa)%nat) in *.
    destruct (Nat.eq_dec k l) as [e|ne].
    - rewrite B2.
      + rewrite A1 by (assert (Y := Hin r i n k Hr Hi Hn Hk); lia). f_equal. unfold from_grad, vrep. fold l. rewrite <- e.
        destruct k as [|[|[|k]]]; [| | |lia]; cbn -[Nat.div]; repeat match goal with |- context [(?x / 3)%nat] => let v := eval cbv in (x / 3)%nat in change (x / 3)%nat with v end; cbn [Nat.eqb]; lra.
      + intros r' n' e' d' Hr' Hn' He' Hd' X. unfold tgt in X. apply Nat.add_cancel_l in X. apply cell4_inj in X; auto; try (apply HI; assumption). destruct X as (X1 & -> & X3 & ->).
        assert (cL e' = l). { rewrite Ei in X3. unfold col in X3. rewrite (Nat.add_comm (nfa * l)) in X3. apply cell_inj in X3; try assumption. destruct X3; congruence. }
        apply (cIL_ne e' He'). congruence.
    - assert (Hex : exists e, (e < 6)%nat /\ cI e = k /\ cL e = l).
      { clearbody l. destruct k as [|[|[|k]]]; [| | |lia]; destruct l as [|[|[|l]]]; try lia; [exists 2%nat|exists 4%nat|exists 0%nat|exists 5%nat|exists 1%nat|exists 3%nat]; cbn; lia. }
      destruct Hex as (e & He & HIe & HLe).
      replace (u + (k + 3 * n + q * 3 * (i + 3 * nfa * r)))%nat with (tgt r n e d) by (unfold tgt, col; rewrite HIe, HLe; rewrite Ei; ring).
      rewrite A2 by assumption. f_equal. unfold from_grad, vrep. fold l d. rewrite <- HLe in *. rewrite <- HIe. clear - He. revert e He.
      apply six; cbn -[Nat.div Nat.modulo]; repeat match goal with |- context [(?x / 3)%nat] => let v := eval cbv in (x / 3)%nat in change (x / 3)%nat with v | |- context [(?x mod 3)%nat] => let v := eval cbv in (x mod 3)%nat in change (x mod 3)%nat with v end; cbn [Nat.eqb]; lra. }
  replace (3 * q)%nat with (q * 3)%nat by lia. replace (nfa * 3)%nat with (3 * nfa)%nat by lia. rewrite E3. cbn [obind]. exists (set_busy m3 (busy m + 1)), b. split; [reflexivity|].
  rewrite (set_busy_np1 b HP) in Q3. split; [apply Q3; lia|]. split; [exact HP|]. intros _. rewrite HP. reflexivity.
Qed.
End Ops.
