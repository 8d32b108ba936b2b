(** Cholesky: triangular solves and the complete solver. *)
From Verif Require GeoProofs2.
From Verif Require Import Prelude RSum DenseModel DenseSpec DenseProofs.
Local Open Scope R_scope.

Lemma Rsum_head : forall n f, Rsum (S n) f = f 0%nat + Rsum n (fun i => f (S i)).
Proof. induction n as [|n IH]; intros f; [cbn; lra|]. rewrite Rsum_S, IH. cbn [Rsum]. lra. Qed.
Lemma Rsum_rev : forall n f, Rsum n f = Rsum n (fun i => f (n - 1 - i)%nat).
Proof.
  induction n as [|n IH]; intros f; [reflexivity|]. rewrite (Rsum_head n (fun i => f (S n - 1 - i)%nat)). cbn [Rsum]. rewrite IH. rewrite Rplus_comm. f_equal.
  - f_equal. lia.
  - apply Rsum_ext. intros i Hi. f_equal. lia.
Qed.
Lemma store_rd : forall N M (y : matrix) i k, (i < N)%nat -> (k < M)%nat -> rd (store N M y) (i + N * k) = Some (y i k).
Proof. intros. now apply mrd_store. Qed.
Lemma store_wr : forall N M (y : matrix) i k v, (i < N)%nat -> (k < M)%nat -> wr (store N M y) (i + N * k) v = Some (store N M (upd2 y i k v)).
Proof. intros. now apply mwr_store. Qed.

(** one row of a substitution: x(i,k) := (x(i,k) - sum over u < t of x(c u, k) l(u)) / d *)
Lemma subst_row : forall N M (y0 : matrix) i t (c : nat -> nat) (l : nat -> R) d rl rdd, (i < N)%nat ->
  (forall u, (u < t)%nat -> (c u < N)%nat /\ c u <> i) -> (forall u, (u < t)%nat -> rl u = Some (l u)) -> rdd = Some d ->
  for_ M (fun k Y =>
    do Y <- for_ t (fun u Y => do y <- rd Y (i + N * k); do z <- rd Y (c u + N * k); do a <- rl u; wr Y (i + N * k) (y - z * a)) Y;
    do y <- rd Y (i + N * k); do e <- rdd; wr Y (i + N * k) (y / e)) (store N M y0)
  = Some (store N M (fun p k => if (p =? i)%nat then (y0 i k - Rsum t (fun u => y0 (c u) k * l u)) / d else y0 p k)).
Proof.
  intros N M y0 i t c l d rl rdd Hi Hc Hl ->.
  set (z := fun k => (y0 i k - Rsum t (fun u => y0 (c u) k * l u)) / d).
  match goal with |- for_ M ?b _ = _ => set (body := b) end.
  destruct (for_rep0 (store N M) (fun k y => forall p q, y p q = if ((p =? i) && (q <? k))%nat then z q else y0 p q) M body y0) as (y & E & H).
  - intros p q. cbn. now rewrite Bool.andb_false_r.
  - intros k y1 Hk Hy. unfold body.
    match goal with |- context [for_ t ?b _] => set (bd := b) end.
    destruct (for_rep0 (store N M) (fun j y => forall p q, y p q = if ((p =? i) && (q =? k))%nat then y0 i k - Rsum j (fun u => y0 (c u) k * l u) else y1 p q) t bd y1) as (y2 & E2 & H2).
    + intros p q. cbn [Rsum]. destruct (Nat.eqb_spec p i) as [->|]; [|reflexivity]. destruct (Nat.eqb_spec q k) as [->|]; [|reflexivity]. cbn [andb]. rewrite Hy, Nat.ltb_irrefl, Bool.andb_false_r. lra.
    + intros u y3 Hu Hy3. destruct (Hc u Hu) as [Hcu Hne]. unfold bd. rewrite !store_rd by assumption. rewrite (Hl u Hu). cbn [obind]. rewrite store_wr by assumption.
      eexists. split; [reflexivity|]. intros p q. unfold upd2. rewrite !Hy3. rewrite !Nat.eqb_refl. cbn [andb].
      destruct (Nat.eqb_spec (c u) i); [contradiction|]. cbn [andb]. rewrite Hy. destruct (Nat.eqb_spec (c u) i); [contradiction|]. cbn [andb Rsum].
      destruct ((p =? i) && (q =? k))%nat; [lra|reflexivity].
    + rewrite E2. cbn [obind]. rewrite store_rd by assumption. cbn [obind]. rewrite store_wr by assumption. eexists. split; [reflexivity|].
      intros p q. unfold upd2. rewrite !H2, !Nat.eqb_refl. cbn [andb]. fold (z k). rewrite Hy.
      destruct (Nat.eqb_spec p i) as [->|]; [|reflexivity]. cbn [andb].
      destruct (Nat.eqb_spec q k) as [->|]; [destruct (Nat.ltb_spec k (S k)); [reflexivity|lia]|].
      destruct (Nat.ltb_spec q k), (Nat.ltb_spec q (S k)); try lia; reflexivity.
  - rewrite E. apply f_equal, store_ext. intros p q Hp Hq. rewrite H. destruct (Nat.ltb_spec q M); [|lia]. rewrite Bool.andb_true_r. destruct (Nat.eqb_spec p i); reflexivity.
Qed.

Lemma chol_forward_ok : forall N M m0 m (l b : matrix), pk N m0 m l -> (forall i, (i < N)%nat -> l i i <> 0) ->
  exists y, chol_forward N M m (store N M b) = Some (store N M y) /\
    forall p k, (p < N)%nat -> Rsum (S p) (fun j => l p j * y j k) = b p k.
Proof.
  intros N M m0 m l b Hm Hd. unfold chol_forward. match goal with |- context [for_ N ?b _] => set (body := b) end.
  destruct (for_rep0 (store N M) (fun i y => (forall p k, (p < i)%nat -> Rsum (S p) (fun j => l p j * y j k) = b p k) /\ (forall p k, (i <= p)%nat -> y p k = b p k)) N body b) as (y & E & H).
  - split; [intros; lia|reflexivity].
  - intros i y Hi [H1 H2]. unfold body. rewrite (GeoProofs2.for_ext M _ (fun k Y =>
    do Y <- for_ i (fun u Y => do y <- rd Y (i + N * k); do z <- rd Y (u + N * k); do a <- rd m (pid N i u); wr Y (i + N * k) (y - z * a)) Y;
    do y <- rd Y (i + N * k); do e <- rd m (pid N i i); wr Y (i + N * k) (y / e))) by (intros k s _; now rewrite (Nat.mul_comm k N)).
    rewrite (subst_row N M y i i (fun u => u) (fun u => l i u) (l i i)); [|exact Hi|intros u Hu; lia|intros u Hu; apply (pk_rd _ _ _ _ _ _ Hm); lia|apply (pk_rd _ _ _ _ _ _ Hm); lia].
    eexists. split; [reflexivity|]. split.
    + intros p k Hp. destruct (Nat.eq_dec p i) as [->|].
      * cbn [Rsum]. rewrite Nat.eqb_refl. rewrite (Rsum_ext i _ (fun u => y u k * l i u)) by (intros j Hj; destruct (Nat.eqb_spec j i); [lia|ring]).
        rewrite (H2 i k) by lia. field. now apply Hd.
      * rewrite <- H1 by lia. apply Rsum_ext. intros j Hj. destruct (Nat.eqb_spec j i); [lia|reflexivity].
    + intros p k Hp. destruct (Nat.eqb_spec p i); [lia|]. apply H2. lia.
  - exists y. split; [exact E|]. apply H.
Qed.
Lemma chol_backward_ok : forall N M m0 m (l b : matrix), pk N m0 m l -> (forall i, (i < N)%nat -> l i i <> 0) -> (forall i j, (i < j)%nat -> l i j = 0) ->
  exists x, chol_backward N M m (store N M b) = Some (store N M x) /\
    forall p k, (p < N)%nat -> Rsum N (fun j => l j p * x j k) = b p k.
Proof.
  intros N M m0 m l b Hm Hd Hz. unfold chol_backward. match goal with |- context [for_ N ?b _] => set (body := b) end.
  destruct (for_rep0 (store N M) (fun t y => (forall p k, (N - t <= p < N)%nat -> Rsum N (fun j => l j p * y j k) = b p k) /\ (forall p k, (p < N - t)%nat -> y p k = b p k)) N body b) as (y & E & H).
  - split; [intros; lia|reflexivity].
  - intros t y Ht [H1 H2]. unfold body. cbv zeta. set (i := (N - 1 - t)%nat). rewrite (GeoProofs2.for_ext M _ (fun k Y =>
    do Y <- for_ t (fun u Y => do y <- rd Y (i + N * k); do z <- rd Y ((N - 1 - u) + N * k); do a <- rd m (pid N (N - 1 - u) i); wr Y (i + N * k) (y - z * a)) Y;
    do y <- rd Y (i + N * k); do e <- rd m (pid N i i); wr Y (i + N * k) (y / e))) by (intros k s _; now rewrite (Nat.mul_comm k N)).
    rewrite (subst_row N M y i t (fun u => (N - 1 - u)%nat) (fun u => l (N - 1 - u)%nat i) (l i i)); [|lia|intros u Hu; lia|intros u Hu; apply (pk_rd _ _ _ _ _ _ Hm); lia|apply (pk_rd _ _ _ _ _ _ Hm); lia].
    eexists. split; [reflexivity|]. split.
    + intros p k Hp. destruct (Nat.eq_dec p i) as [->|].
      * rewrite Rsum_rev. rewrite (Rsum_tail_zero N (S t)) by (try lia; intros u Hu; rewrite Hz by lia; lra). cbn [Rsum].
        replace (N - 1 - t)%nat with i by lia. rewrite Nat.eqb_refl.
        rewrite (Rsum_ext t _ (fun u => y (N - 1 - u)%nat k * l (N - 1 - u)%nat i)) by (intros u Hu; destruct (Nat.eqb_spec (N - 1 - u) i); [lia|ring]).
        rewrite (H2 i k) by lia. field. apply Hd. lia.
      * rewrite <- (H1 p k) by lia. apply Rsum_ext. intros j Hj. destruct (Nat.eqb_spec j i) as [->|]; [|reflexivity]. rewrite Hz by lia. lra.
    + intros p k Hp. destruct (Nat.eqb_spec p i); [lia|]. apply H2. lia.
  - exists y. split; [exact E|]. intros p k Hp. apply H. lia.
Qed.

(** copying *)
Lemma copy_n_arr : forall {A} n (f g : nat -> A), copy_n n (arr n f) (arr n g) = Some (arr n f).
Proof.
  intros A n f g. unfold copy_n.
  destruct (for_rep0 (arr n) (fun i h => forall j, h j = if (j <? i)%nat then f j else g j) n (fun i dst => do v <- rd (arr n f) i; wr dst i v) g) as (h & E & H).
  - intros j. reflexivity.
  - intros i h Hi Hh. rewrite rd_arr by assumption. cbn [obind]. rewrite wr_arr by assumption. eexists. split; [reflexivity|].
    intros j. unfold upd. rewrite Hh. beqs; reflexivity.
  - rewrite E. apply f_equal, arr_ext. intros j Hj. rewrite H. destruct (Nat.ltb_spec j n); [reflexivity|lia].
Qed.
Lemma copy_n_list : forall {A} (d : A) n (src dst : list A), length src = n -> length dst = n -> copy_n n src dst = Some src.
Proof.
  intros A d n src dst H1 H2. pose proof (copy_n_arr n (fun i => nth i src d) (fun i => nth i dst d)) as E.
  assert (Es : arr n (fun i => nth i src d) = src) by (rewrite <- H1; symmetry; apply list_arr).
  assert (Ed : arr n (fun i => nth i dst d) = dst) by (rewrite <- H2; symmetry; apply list_arr).
  rewrite Es, Ed in E. exact E.
Qed.

Definition pack_of (N : nat) (inplace : bool) (A mem : list R) : option (list R) :=
  if inplace then chol_pack_inplace N mem else chol_pack N A mem.
Lemma pack_of_ok : forall N (inplace : bool) a mem, (if inplace then mem = store N N a else (tot N <= length mem)%nat) ->
  exists m, pack_of N inplace (store N N a) mem = Some m /\ pk N mem m a /\ (tot N <= length mem)%nat.
Proof.
  unfold pack_of. intros N [] a mem H.
  - subst. destruct (chol_pack_inplace_ok N a) as (m & E & P). exists m. split; [exact E|]. split; [exact P|].
    rewrite store_length. unfold tot. apply Nat.div_le_upper_bound; nia.
  - destruct (chol_pack_ok N a mem H) as (m & E & P). eauto.
Qed.
Definition solved (N M : nat) (a b : matrix) (mem : list R) (r : option (list R * list R)) : Prop :=
  match r with
  | Some (X, mem') => positive_definite N a /\ (exists x, X = store N M x /\ solves N M a x b) /\ length mem' = length mem /\ (forall p, (N * (N + 1) / 2 <= p)%nat -> rd mem' p = rd mem p)
  | None => ~ positive_definite N a
  end.
Lemma cholesky_solve_ok : forall N M (inplace same : bool) a b X mem, symmetric N a ->
  (if same then X = store N M b else length X = (N * M)%nat) ->
  (if inplace then mem = store N N a else (N * (N + 1) / 2 <= length mem)%nat) ->
  exists r, cholesky_solve N M inplace same (store N N a) (store N M b) X mem = Some r /\ solved N M a b mem r.
Proof.
  intros N M inplace same a b X mem Hs HX Hmem. unfold cholesky_solve.
  destruct (pack_of_ok N inplace a mem Hmem) as (m & E & P & Hn). unfold pack_of in E. rewrite E. cbn [obind].
  destruct (chol_factor_ok N mem m a Hn P) as ([m'|] & E2 & H2); rewrite E2; cbn [obind].
  - destruct H2 as [P2 Hp]. 
    assert (P3 : pk N mem m' (Lf a)).
    { eapply pk_ext; [|exact P2]. intros i j Hij. unfold Lf. destruct (Nat.leb_spec j i); [|lia]. apply fiter_keep. lia. }
    assert (Hd : forall i, (i < N)%nat -> Lf a i i <> 0) by (intros i Hi; pose proof (Lf_diag_pos a i (Hp i Hi)); lra).
    destruct (chol_forward_ok N M mem m' (Lf a) b P3 Hd) as (y & Ey & Hy).
    destruct (chol_backward_ok N M mem m' (Lf a) y P3 Hd (Lf_above a)) as (x & Ex & Hx).
    unfold chol_finish.
    assert (EY : (if same then Some X else copy_n (N * M) (store N M b) X) = Some (store N M b)).
    { destruct same; [now rewrite HX|]. apply (copy_n_list 0); [apply store_length|exact HX]. }
    rewrite EY. cbn [obind]. rewrite Ey. cbn [obind]. rewrite Ex. cbn [obind]. eexists. split; [reflexivity|].
    cbn. split; [now apply pivots_pd|]. split; [exists x; split; [reflexivity|]|split; apply P3].
    intros i k Hi Hk. rewrite (Rsum_ext N _ (fun j => Rsum N (fun n => Lf a i n * (Lf a j n * x j k)))).
    2:{ intros j Hj. rewrite (chol_product N a i j) by assumption. rewrite <- Rsum_scal_r. apply Rsum_ext. intros; ring. }
    rewrite Rsum_swap. rewrite (Rsum_ext N _ (fun n => Lf a i n * y n k)).
    2:{ intros n Hn'. rewrite Rsum_scal. f_equal. now apply Hx. }
    rewrite (Rsum_tail_zero N (S i)) by (try lia; intros n Hn'; rewrite Lf_above by lia; lra). now apply Hy.
  - eexists. split; [reflexivity|]. cbn. intros Hpd. destruct H2 as (k & Hk & Hle & _). pose proof (pd_pivots N a Hs Hpd k Hk). lra.
Qed.
Lemma fill_identity_ok : forall N Inv, length Inv = (N * N)%nat -> fill_identity N Inv = Some (store N N identity).
Proof.
  intros N Inv H. unfold fill_identity.
  assert (E1 : for_ (N * N) (fun i Inv => wr Inv i 0) Inv = Some (store N N (fun _ _ => 0))).
  { rewrite (list_arr 0 Inv), H.
    destruct (for_rep0 (arr (N * N)) (fun i h => forall j, (j < i)%nat -> h j = 0) (N * N) (fun i Inv => wr Inv i 0) (fun i => nth i Inv 0)) as (h & E & Hh).
    - intros; lia.
    - intros i h Hi Hh. rewrite wr_arr by assumption. eexists. split; [reflexivity|]. intros j Hj. unfold upd. destruct (Nat.eqb_spec j i); [reflexivity|]. apply Hh. lia.
    - rewrite E. apply f_equal, arr_ext. intros j Hj. now rewrite Hh. }
  rewrite E1. cbn [obind].
  destruct (for_rep0 (store N N) (fun k y => forall i j, y i j = if ((i =? j) && (i <? k))%nat then 1 else 0) N (fun i Inv => wr Inv (i + i * N) 1) (fun _ _ => 0)) as (y & E & Hy).
  - intros i j. cbn. now rewrite Bool.andb_false_r.
  - intros i y Hi Hy. rewrite (Nat.mul_comm i N), store_wr by assumption. eexists. split; [reflexivity|]. intros p q. unfold upd2. rewrite Hy. beqs; reflexivity.
  - rewrite E. apply f_equal, store_ext. intros i j Hi Hj. rewrite Hy. unfold identity. beqs; reflexivity.
Qed.
