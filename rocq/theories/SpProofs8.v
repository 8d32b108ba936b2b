(** Reading the result of an operator as a block matrix. *)
From Verif Require Import Prelude RSum CoreModel CoreSpec SpModel SpSpec SpProofs SpProofs2 SpProofs3 SpProofs4 SpProofs5 SpProofs6 SpProofs7 DofProofs OrdProofs2.
Local Open Scope R_scope.

Lemma fits_pre : forall m u r, fits m u r -> pre m u r.
Proof. intros m u r H. exact H. Qed.
Lemma frame_untouched : forall m u n m', frame m u n m' -> untouched m u n m'.
Proof. intros m u n m' H. exact H. Qed.

Lemma slice_ok : forall A (l : list A) o n, (o + n <= length l)%nat -> exists x, slice l o n = Some x /\ length x = n /\ forall i, (i < n)%nat -> nth_error x i = nth_error l (o + i).
Proof.
  intros A l o n H. unfold slice. destruct (Nat.leb_spec (o + n) (length l)); [|lia]. eexists. split; [reflexivity|]. split.
  - rewrite firstn_length, skipn_length. lia.
  - intros i Hi. rewrite nth_error_firstn', nth_error_skipn' by exact Hi. reflexivity.
Qed.
Lemma all_opt_ok : forall A (g : nat -> option A) n, (forall i, (i < n)%nat -> exists a, g i = Some a) ->
  exists l, all_opt (map g (seq 0 n)) = Some l /\ length l = n /\ forall i, (i < n)%nat -> nth_error l i = g i.
Proof.
  intros A g n. assert (X : forall st, (forall i, (i < n)%nat -> exists a, g (st + i)%nat = Some a) ->
    exists l, all_opt (map g (seq st n)) = Some l /\ length l = n /\ forall i, (i < n)%nat -> nth_error l i = g (st + i)%nat).
  { induction n as [|n IH]; intros st H.
    - exists []. split; [reflexivity|]. split; [reflexivity|]. intros i Hi. lia.
    - destruct (H 0%nat ltac:(lia)) as (a & Ea). rewrite Nat.add_0_r in Ea.
      destruct (IH (S st)) as (l & El & Ll & Hl). { intros i Hi. replace (S st + i)%nat with (st + S i)%nat by lia. apply H. lia. }
      exists (a :: l). cbn [seq map all_opt]. rewrite Ea. cbn [obind]. rewrite El. split; [reflexivity|]. split; [cbn; lia|].
      intros [|i] Hi; cbn [nth_error]; [now rewrite Nat.add_0_r|]. rewrite Hl by lia. f_equal. lia. }
  apply (X 0%nat).
Qed.
Lemma firstn_S_app : forall A (l : list A) p x, nth_error l p = Some x -> firstn (S p) l = firstn p l ++ [x].
Proof.
  intros A l. induction l as [|a l IH]; intros [|p] x E; try discriminate.
  - cbn in E. now injection E as ->.
  - cbn [nth_error] in E. specialize (IH p x E). change (firstn (S (S p)) (a :: l)) with (a :: firstn (S p) l). rewrite IH. reflexivity.
Qed.
Lemma rd_slice_len : forall A (l : list A) i x, rd l i = Some x -> (i < length l)%nat.
Proof. intros A l i x E. apply nth_error_Some. unfold rd in E. congruence. Qed.

Section Read.
Variables f q : nat.
Lemma nth_of : forall (l : list nat) i x, nth_error l i = Some x -> nth i l 0%nat = x.
Proof. intros l i x E. now apply nth_error_nth. Qed.
(** every block has its place in some row of [bl] *)
Lemma holds_band : forall m b d nf V lo hi, (hi <= length (hp m))%nat -> holds f q m b d nf V lo hi ->
  exists U, read_band f m b = Some U /\ band_of U d nf q f V.
Proof.
  intros m b d nf V lo hi Hhi (bl & L & N & Er & Ec & Hv & Hr & Hc & Hh & Hi).
  assert (Lr : (os b + S (np b) <= length (rowi m))%nat). { specialize (Hr (length bl) ltac:(lia)). apply rd_slice_len in Hr. lia. }
  assert (Lc : (os b + S (np b) <= length (coli m))%nat). { specialize (Hc (length bl) ltac:(lia)). apply rd_slice_len in Hc. lia. }
  destruct (slice_ok _ (rowi m) (os b) (S (np b)) Lr) as (rs & Ers & Lrs & Hrs).
  destruct (slice_ok _ (coli m) (os b) (S (np b)) Lc) as (cs & Ecs & Lcs & Hcs).
  assert (Rs : forall p, (p <= np b)%nat -> nth p rs 0%nat = rows (firstn p bl)). { intros p Hp. apply nth_of. rewrite Hrs by lia. apply (Hr p). lia. }
  assert (Cs : forall p, (p <= np b)%nat -> nth p cs 0%nat = cols (firstn p bl)). { intros p Hp. apply nth_of. rewrite Hcs by lia. apply (Hc p). lia. }
  assert (SR : forall p x, nth_error bl p = Some x -> rows (firstn (S p) bl) = (rows (firstn p bl) + b_rw x)%nat).
  { intros p x E. rewrite (firstn_S_app _ _ _ _ E), rows_app. destruct x as [[? ?] ?]. rewrite rows1. reflexivity. }
  assert (SC : forall p x, nth_error bl p = Some x -> cols (firstn (S p) bl) = (cols (firstn p bl) + b_cl x)%nat).
  { intros p x E. rewrite (firstn_S_app _ _ _ _ E), cols_app. destruct x as [[? ?] ?]. rewrite cols1. reflexivity. }
  assert (HB : forall p, (p < np b)%nat -> exists x, nth_error bl p = Some x). { intros p Hp. destruct (nth_error bl p) eqn:E; [eauto|]. apply nth_error_None in E. lia. }
  set (g := fun p => do v <- rd (mtx m) (od b + p)%nat; do d <- slice (hp m) (fst v) (snd v * ((nth (S p) cs 0 - nth p cs 0) * f))%nat; Some (d, snd v)).
  assert (G : forall p x, nth_error bl p = Some x -> exists dt, g p = Some (dt, (q * b_rw x)%nat) /\ forall i, (i < q * b_rw x * (b_cl x * f))%nat -> nth_error dt i = rd (hp m) (b_off x + i)).
  { intros p x E. assert (p < length bl)%nat by (apply nth_error_Some; congruence). unfold g. rewrite (Hv p x E). cbn [obind fst snd].
    rewrite (Cs (S p)), (Cs p), (SC p x E) by lia. replace (cols (firstn p bl) + b_cl x - cols (firstn p bl))%nat with (b_cl x) by lia.
    destruct (Hi p x E). destruct (slice_ok _ (hp m) (b_off x) (q * b_rw x * (b_cl x * f))) as (dt & Ed & _ & Hd); [lia|]. rewrite Ed. cbn [obind]. eauto. }
  destruct (all_opt_ok _ g (np b)) as (ps & Eps & Lps & Hps). { intros p Hp. destruct (HB p Hp) as (x & E). destruct (G p x E) as (dt & Ed & _). eauto. }
  exists {| parts := ps; st_row := rs; st_col := cs |}. split.
  { unfold read_band. rewrite Ers. cbn [obind]. rewrite Ecs. cbn [obind]. fold g. rewrite Eps. reflexivity. }
  unfold band_of, nparts. cbn [parts st_row st_col]. rewrite Lps.
  split; [destruct bl; [congruence|cbn in L; lia]|]. split; [exact Lrs|]. split; [exact Lcs|].
  split; [rewrite Rs by lia; reflexivity|]. split; [rewrite Rs by lia; rewrite <- L, firstn_all; exact Er|].
  split; [rewrite Cs by lia; reflexivity|]. split; [rewrite Cs by lia; rewrite <- L, firstn_all; exact Ec|]. split; [|split].
  - intros p Hp. destruct (HB p Hp) as (x & E). rewrite !Rs, !Cs, (SR p x E), (SC p x E) by lia. lia.
  - intros p Hp. destruct (HB p Hp) as (x & E). destruct (G p x E) as (dt & Ed & Hd). exists dt. rewrite !Rs, !Cs, (SR p x E), (SC p x E) by lia.
    replace (rows (firstn p bl) + b_rw x - rows (firstn p bl))%nat with (b_rw x) by lia. replace (cols (firstn p bl) + b_cl x - cols (firstn p bl))%nat with (b_cl x) by lia.
    split; [rewrite Hps by exact Hp; exact Ed|]. intros r n k i Hr' Hn Hk Hii.
    destruct (Hh p x E r n (i - cols (firstn p bl))%nat Hr' Hn ltac:(lia)) as [A _]. specialize (A (k - rows (firstn p bl))%nat ltac:(lia)).
    replace (rows (firstn p bl) + (k - rows (firstn p bl)))%nat with k in A by lia. replace (cols (firstn p bl) + (i - cols (firstn p bl)))%nat with i in A by lia.
    assert (B := cell_in f q x r n (k - rows (firstn p bl)) (i - cols (firstn p bl)) Hr' Hn ltac:(lia) ltac:(lia)). unfold cell in *.
    rewrite Hd by lia. rewrite <- A. f_equal. lia.
  - intros p p' r n k i Hp Hp' Hne Hr' Hn Hk Hii. destruct (HB p Hp) as (x & E). destruct (HB p' Hp') as (x' & E'). rewrite !Rs in Hk by lia. rewrite !Cs, (SC p' x' E') in Hii by lia. rewrite (SR p x E) in Hk.
    destruct (Hh p' x' E' r n (i - cols (firstn p' bl))%nat Hr' Hn ltac:(lia)) as [_ B]. replace (cols (firstn p' bl) + (i - cols (firstn p' bl)))%nat with i in B by lia. apply B.
    + assert (X : (rows (firstn (S p) bl) <= rows bl)%nat) by (rewrite <- (firstn_skipn (S p) bl) at 2; rewrite rows_app; lia). rewrite (SR p x E) in X. lia.
    + assert (M : forall a c, (a <= c)%nat -> (rows (firstn a bl) <= rows (firstn c bl))%nat).
      { intros a c Hac. replace (firstn a bl) with (firstn a (firstn c bl)) by (rewrite firstn_firstn; f_equal; lia). rewrite <- (firstn_skipn a (firstn c bl)) at 2. rewrite rows_app. lia. }
      destruct (Nat.lt_total p p') as [H|[H|H]]; [|congruence|].
      * specialize (M (S p) p' ltac:(lia)). rewrite (SR p x E) in M. lia.
      * specialize (M (S p') p ltac:(lia)). rewrite (SR p' x' E') in M. lia.
Qed.

(** a matrix survives a later operator *)
Lemma holds_after : forall m b d nf V lo hi u n m', holds f q m b d nf V lo hi -> frame m u n m' -> (hi <= u \/ u + n <= lo)%nat -> (hi <= edat m \/ edat m + esz m <= lo)%nat ->
  (od b + np b <= busy m)%nat -> (os b + np b < busy m + sh (busy m))%nat -> holds f q m' b d nf V lo hi.
Proof.
  intros m b d nf V lo hi u n m' H (_ & F1 & _ & F2 & _ & F3 & _ & F4 & _) D1 D2 H1 H2. apply (holds_frame f q m); [exact H| | | |]; intros c Hc.
  - apply F1; lia.
  - apply F2; lia.
  - apply F3; lia.
  - apply F4; lia.
Qed.
End Read.
