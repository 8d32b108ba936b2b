(** Lexicographic order, sorted maps, sums. *)
From Verif Require Import Prelude ExtModel ExtSpec.
Local Arguments Nat.ltb : simpl never.
Local Arguments Nat.eqb : simpl never.
Local Arguments Nat.leb : simpl never.
Local Arguments sm : simpl never.

(** * Order *)
Lemma keyb_eq a b : keyb a b = true <-> a = b.
Proof.
  revert b. induction a as [|x a IH]; intros [|y b]; cbn; try (split; [discriminate|congruence]); [tauto|]. rewrite andb_true_iff, Nat.eqb_eq, IH. split; [intros (-> & ->); auto|intros E; injection E as -> ->; auto].
Qed.
Lemma keyb_refl a : keyb a a = true.
Proof. apply keyb_eq. reflexivity. Qed.
Lemma keyb_sym a b : keyb a b = keyb b a.
Proof. apply eq_true_iff_eq. rewrite !keyb_eq. split; congruence. Qed.
Lemma lexb_irr a : lexb a a = false.
Proof. induction a as [|x a IH]; [reflexivity|]. cbn. rewrite Nat.ltb_irrefl, Nat.eqb_refl, IH. reflexivity. Qed.
Lemma lexb_trans a b c : lexb a b = true -> lexb b c = true -> lexb a c = true.
Proof.
  revert b c. induction a as [|x a IH]; intros [|y b] [|z c]; cbn; try discriminate; auto.
  rewrite !orb_true_iff, !andb_true_iff, !Nat.ltb_lt, !Nat.eqb_eq. intros [H|(-> & H)] [H'|(-> & H')]; try (left; lia). right. eauto.
Qed.
Lemma lexb_total a b : lexb a b = true \/ a = b \/ lexb b a = true.
Proof.
  revert b. induction a as [|x a IH]; intros [|y b]; cbn; auto. rewrite !orb_true_iff, !andb_true_iff, !Nat.ltb_lt, !Nat.eqb_eq.
  destruct (Nat.lt_trichotomy x y) as [H|[->|H]]; auto. destruct (IH b) as [H|[->|H]]; auto.
Qed.
Lemma lexb_asym a b : lexb a b = true -> lexb b a = false.
Proof. intros H. destruct (lexb b a) eqn:E; [|reflexivity]. pose proof (lexb_trans _ _ _ H E) as C. rewrite lexb_irr in C. discriminate. Qed.
Lemma lexb_app a b c d : length a = length c -> lexb (a ++ b) (c ++ d) = lexb a c || (keyb a c && lexb b d).
Proof.
  revert c. induction a as [|x a IH]; intros [|y c] H; cbn in *; try discriminate; [reflexivity|]. rewrite IH by lia. destruct (x <? y), (x =? y), (lexb a c), (keyb a c), (lexb b d); reflexivity.
Qed.
Lemma keyb_app a b c d : length a = length c -> keyb (a ++ b) (c ++ d) = keyb a c && keyb b d.
Proof. revert c. induction a as [|x a IH]; intros [|y c] H; cbn in *; try discriminate; [reflexivity|]. rewrite IH by lia. rewrite andb_assoc. reflexivity. Qed.
Lemma lex_lexb a b : length a = length b -> lexb a b = true <-> lex a b.
Proof.
  revert b. induction a as [|x a IH]; intros [|y b] H; cbn in *; try discriminate.
  - split; [discriminate|intros C; inversion C].
  - rewrite orb_true_iff, andb_true_iff, Nat.ltb_lt, Nat.eqb_eq, IH by lia. split.
    + intros [C|(-> & C)]; [apply lex_head|apply lex_tail]; auto.
    + intros C. inversion C; subst; auto.
Qed.

(** Prefixes *)
Definition plt (t : nat) (a b : key) : bool := lexb (firstn t a) (firstn t b).
Lemma firstn_len {X} t (a b : list X) : length a = length b -> length (firstn t a) = length (firstn t b).
Proof. intros H. rewrite !firstn_length. lia. Qed.
Lemma lexb_split t a b : length a = length b -> lexb a b = plt t a b || (same t a b && lexb (skipn t a) (skipn t b)).
Proof. intros H. rewrite <- (firstn_skipn t a), <- (firstn_skipn t b) at 1. rewrite lexb_app by (apply firstn_len; auto). reflexivity. Qed.
Lemma keyb_split t a b : length a = length b -> keyb a b = same t a b && keyb (skipn t a) (skipn t b).
Proof. intros H. rewrite <- (firstn_skipn t a), <- (firstn_skipn t b) at 1. rewrite keyb_app by (apply firstn_len; auto). reflexivity. Qed.
Lemma firstn_S_nth t (a : key) : t < length a -> firstn (S t) a = firstn t a ++ [at_ t a].
Proof. unfold at_. revert a. induction t as [|t IH]; intros [|x a] H; cbn in *; try lia; [reflexivity|]. f_equal. apply IH. lia. Qed.
Lemma plt_S t a b : length a = length b -> t < length a -> plt (S t) a b = plt t a b || (same t a b && (at_ t a <? at_ t b)).
Proof.
  intros H Ht. unfold plt, same. rewrite !firstn_S_nth by lia. rewrite lexb_app by (apply firstn_len; auto). cbn. rewrite andb_false_r, orb_false_r. reflexivity.
Qed.
Lemma same_S t a b : length a = length b -> t < length a -> same (S t) a b = same t a b && (at_ t a =? at_ t b).
Proof.
  intros H Ht. unfold same. rewrite !firstn_S_nth by lia. rewrite keyb_app by (apply firstn_len; auto). cbn. rewrite andb_true_r. reflexivity.
Qed.
Lemma same_eq t a b : same t a b = true <-> firstn t a = firstn t b.
Proof. apply keyb_eq. Qed.
Lemma same_le t t' a b : t' <= t -> same t a b = true -> same t' a b = true.
Proof. intros H. rewrite !same_eq. intros E. apply (f_equal (firstn t')) in E. rewrite !firstn_firstn in E. replace (Nat.min t' t) with t' in E by lia. exact E. Qed.
Lemma plt_le t t' a b : t' <= t -> length a = length b -> plt t' a b = true -> plt t a b = true.
Proof.
  intros H Hl E. unfold plt. rewrite (lexb_split t'); [|apply firstn_len; auto]. unfold plt. rewrite !firstn_firstn. replace (Nat.min t' t) with t' by lia. unfold plt in E. rewrite E. reflexivity.
Qed.
Lemma plt_same t a b : plt t a b = true -> same t a b = false.
Proof. unfold plt, same. intros H. destruct (keyb (firstn t a) (firstn t b)) eqn:E; [|reflexivity]. apply keyb_eq in E. rewrite E, lexb_irr in H. discriminate. Qed.
Lemma plt_lex t a b : length a = length b -> plt t a b = true -> lexb a b = true.
Proof. intros H E. rewrite (lexb_split t) by auto. rewrite E. reflexivity. Qed.
Lemma same_refl t a : same t a a = true.
Proof. apply keyb_refl. Qed.
Lemma same_sym t a b : same t a b = same t b a.
Proof. apply keyb_sym. Qed.
Lemma same_plt_l t a b c : same t a b = true -> plt t a c = plt t b c.
Proof. rewrite same_eq. unfold plt. intros ->. reflexivity. Qed.
Lemma same_plt_r t a b c : same t a b = true -> plt t c a = plt t c b.
Proof. rewrite same_eq. unfold plt. intros ->. reflexivity. Qed.
Lemma same_same_l t a b c : same t a b = true -> same t a c = same t b c.
Proof. rewrite same_eq. unfold same. intros ->. reflexivity. Qed.
Lemma same_same_r t a b c : same t a b = true -> same t c a = same t c b.
Proof. rewrite same_eq. unfold same. intros ->. reflexivity. Qed.
Lemma pfx_cases t a b : plt t a b = true \/ same t a b = true \/ plt t b a = true.
Proof. unfold plt, same. destruct (lexb_total (firstn t a) (firstn t b)) as [H|[H|H]]; auto. right; left. apply keyb_eq; auto. Qed.

(** fill, set *)
Lemma fill_len t a : length (fill t a) = length a.
Proof. unfold fill. rewrite app_length, repeat_length, firstn_length. lia. Qed.
Lemma set_len i v a : length (set i v a) = length a.
Proof. revert i. induction a as [|x a IH]; intros [|i]; cbn; auto. Qed.
Lemma fill_firstn t u a : u <= t -> firstn u (fill t a) = firstn u a.
Proof.
  intros H. unfold fill. rewrite firstn_app, firstn_firstn. replace (Nat.min u t) with u by lia. rewrite firstn_length.
  destruct (Nat.le_gt_cases u (length a)).
  - replace (u - Nat.min t (length a)) with 0 by lia. cbn. apply app_nil_r.
  - replace (length a - t) with 0 by lia. cbn. rewrite firstn_nil. apply app_nil_r.
Qed.
Lemma fill_same t u a b : u <= t -> same u b (fill t a) = same u b a.
Proof. intros H. unfold same. rewrite fill_firstn; auto. Qed.
Lemma fill_plt t u a b : u <= t -> plt u b (fill t a) = plt u b a.
Proof. intros H. unfold plt. rewrite fill_firstn; auto. Qed.
Lemma lexb_zero a k : length a = k -> lexb a (repeat 0 k) = false.
Proof. intros <-. induction a as [|x a IH]; [reflexivity|]. cbn. rewrite IH. destruct (Nat.ltb_spec x 0); [lia|]. destruct (x =? 0); reflexivity. Qed.
Lemma lexb_fill t a b : length a = length b -> lexb a (fill t b) = plt t a b.
Proof.
  intros H. rewrite (lexb_split t) by (rewrite fill_len; auto). rewrite fill_plt by lia. unfold fill.
  rewrite skipn_app, firstn_length. destruct (Nat.le_gt_cases t (length b)).
  - rewrite (skipn_all2 (firstn t b)) by (rewrite firstn_length; lia). cbn [app]. replace (t - Nat.min t (length b)) with 0 by lia. cbn [skipn].
    rewrite (lexb_zero (skipn t a)) by (rewrite skipn_length; lia). rewrite andb_false_r, orb_false_r. reflexivity.
  - rewrite (skipn_all2 a) by lia. rewrite (skipn_all2 (firstn t b)) by (rewrite firstn_length; lia). replace (length b - t) with 0 by lia. cbn [repeat]. rewrite skipn_nil. cbn. rewrite andb_false_r, orb_false_r. reflexivity.
Qed.
Lemma at_firstn i t a : i < t -> at_ i (firstn t a) = at_ i a.
Proof. unfold at_. revert i t. induction a as [|x a IH]; intros i [|t] H; try lia; destruct i; cbn; auto. apply IH. lia. Qed.
Lemma at_fill i t a : i < t -> at_ i (fill t a) = at_ i a.
Proof. intros H. rewrite <- (at_firstn i t (fill t a)) by auto. rewrite fill_firstn by lia. apply at_firstn; auto. Qed.
Lemma at_fill_0 i t a : t <= i -> at_ i (fill t a) = 0.
Proof.
  intros H. unfold at_, fill. destruct (Nat.le_gt_cases (length a) t).
  - rewrite nth_overflow; [auto|]. rewrite app_length, firstn_length, repeat_length. lia.
  - rewrite app_nth2 by (rewrite firstn_length; lia). set (j := i - _). generalize (length a - t) as k. generalize j. clear. induction j as [|j IH]; intros [|k]; cbn; auto.
Qed.
Lemma at_set_eq i v a : i < length a -> at_ i (set i v a) = v.
Proof. unfold at_. revert i. induction a as [|x a IH]; intros [|i] H; cbn in *; try lia; auto. apply IH. lia. Qed.
Lemma at_set_ne i j v a : i <> j -> at_ i (set j v a) = at_ i a.
Proof. unfold at_. revert i j. induction a as [|x a IH]; intros [|i] [|j] H; cbn; auto; try lia. Qed.
Lemma set_firstn i v t a : t <= i -> firstn t (set i v a) = firstn t a.
Proof. revert i t. induction a as [|x a IH]; intros [|i] [|t] H; cbn; auto; try lia. f_equal. apply IH. lia. Qed.
Lemma set_set i v w a : set i v (set i w a) = set i v a.
Proof. revert i. induction a as [|x a IH]; intros [|i]; cbn; auto. f_equal. apply IH. Qed.
Lemma ext_at a b : length a = length b -> (forall i, i < length a -> at_ i a = at_ i b) -> a = b.
Proof.
  revert b. induction a as [|x a IH]; intros [|y b] H E; cbn in *; try discriminate; [auto|]. f_equal; [apply (E 0); lia|]. apply IH; [lia|]. intros i Hi. apply (E (S i)). lia.
Qed.
Lemma set_id i a : set i (at_ i a) a = a.
Proof. unfold at_. revert i. induction a as [|x a IH]; intros [|i]; cbn; auto. f_equal. apply IH. Qed.
(** The successor of a prefix *)
Lemma lexb_succ t a b : length a = length b -> t < length b -> lexb a (set t (S (at_ t b)) (fill (S t) b)) = plt (S t) a b || same (S t) a b.
Proof.
  intros H Ht. set (c := set t (S (at_ t b)) (fill (S t) b)).
  assert (Hc : length c = length b) by (unfold c; rewrite set_len, fill_len; auto).
  assert (Ht0 : firstn t c = firstn t b) by (unfold c; rewrite set_firstn, fill_firstn by lia; auto).
  assert (Hat : at_ t c = S (at_ t b)) by (unfold c; rewrite at_set_eq; [auto|rewrite fill_len; auto]).
  assert (Hf : c = fill (S t) c).
  { apply ext_at; [rewrite fill_len; auto|]. intros i Hi. destruct (Nat.le_gt_cases (S t) i) as [C|C]; [|rewrite at_fill; auto].
    rewrite at_fill_0 by auto. unfold c. rewrite at_set_ne by lia. apply at_fill_0. auto. }
  rewrite Hf, lexb_fill by lia. rewrite !plt_S, same_S by lia. unfold plt, same. rewrite Ht0, Hat.
  destruct (lexb (firstn t a) (firstn t b)), (keyb (firstn t a) (firstn t b)); cbn; auto. destruct (Nat.ltb_spec (at_ t a) (S (at_ t b))), (Nat.ltb_spec (at_ t a) (at_ t b)), (Nat.eqb_spec (at_ t a) (at_ t b)); cbn; auto; lia.
Qed.

(** * Sums *)
Lemma sm_app {X} (f : X -> nat) l l' : sm f (l ++ l') = sm f l + sm f l'.
Proof. unfold sm. induction l as [|x l IH]; cbn; [auto|]. lia. Qed.
Lemma sm_cons {X} (f : X -> nat) x l : sm f (x :: l) = f x + sm f l.
Proof. reflexivity. Qed.
Lemma sm_ext {X} (f g : X -> nat) l : (forall x, In x l -> f x = g x) -> sm f l = sm g l.
Proof. induction l as [|x l IH]; intros H; [auto|]. rewrite !sm_cons, (H x), IH; cbn; auto. intros; apply H; cbn; auto. Qed.
Lemma sm_add {X} (f g : X -> nat) l : sm (fun x => f x + g x) l = sm f l + sm g l.
Proof. induction l as [|x l IH]; [auto|]. rewrite !sm_cons, IH. lia. Qed.
Lemma sm_mul {X} (f : X -> nat) c l : sm (fun x => c * f x) l = c * sm f l.
Proof. induction l as [|x l IH]; [unfold sm; cbn; lia|]. rewrite !sm_cons, IH. lia. Qed.
Lemma sm_0 {X} (f : X -> nat) l : (forall x, In x l -> f x = 0) -> sm f l = 0.
Proof. induction l as [|x l IH]; intros H; [auto|]. rewrite sm_cons, (H x), IH; cbn; auto. intros; apply H; cbn; auto. Qed.
Lemma sm_filter {X} (f : X -> nat) p l : sm f (filter p l) = sm (fun x => if p x then f x else 0) l.
Proof. induction l as [|x l IH]; [auto|]. cbn [filter]. destruct (p x) eqn:E; rewrite !sm_cons, ?E, IH; auto. Qed.
Lemma sm_map {X Y} (f : Y -> nat) (g : X -> Y) l : sm f (map g l) = sm (fun x => f (g x)) l.
Proof. induction l as [|x l IH]; [auto|]. cbn [map]. rewrite !sm_cons, IH. auto. Qed.
Lemma sm_le {X} (f g : X -> nat) l : (forall x, In x l -> f x <= g x) -> sm f l <= sm g l.
Proof. induction l as [|x l IH]; intros H; [auto|]. rewrite !sm_cons. pose proof (H x (or_introl eq_refl)). assert (sm f l <= sm g l) by (apply IH; intros; apply H; cbn; auto). lia. Qed.
Definition b2n (b : bool) : nat := if b then 1 else 0.
Definition cnt {X} (p : X -> bool) (l : list X) : nat := sm (fun x => b2n (p x)) l.

(** * Sorted lists of keys *)
Fixpoint incr {X} (f : X -> key) (l : list X) : Prop := match l with [] => True | a :: r => (forall b, In b r -> lexb (f a) (f b) = true) /\ incr f r end.
Lemma incr_map {X} (f : X -> key) l : incr f l <-> incr (fun x => x) (map f l).
Proof.
  induction l as [|x l IH]; [tauto|]. cbn. rewrite IH. split; intros (H1 & H2); split; auto.
  - intros b Hb. apply in_map_iff in Hb as (y & <- & Hy). auto.
  - intros b Hb. apply H1, in_map, Hb.
Qed.
Lemma incr_skipn {X} (f : X -> key) c l : incr f l -> incr f (skipn c l).
Proof. revert l. induction c as [|c IH]; intros [|x l] H; auto. cbn. apply IH. apply H. Qed.
(** A scan from the lower bound visits the elements satisfying the condition *)
Lemma while_filter {X} (f : X -> key) (p : X -> bool) l : incr f l -> (forall a b, In a l -> In b l -> lexb (f a) (f b) = true -> p b = true -> p a = true) -> while_ p l = filter p l.
Proof.
  induction l as [|x l IH]; intros H HP; [auto|]. cbn. destruct H as (H1 & H2). destruct (p x) eqn:E.
  - f_equal. apply IH; auto. intros a b Ha Hb. apply HP; cbn; auto.
  - symmetry. assert (HF : forall y, In y l -> p y = false).
    { intros y Hy. destruct (p y) eqn:Ey; auto. rewrite (HP x y) in E; cbn; auto. }
    clear -HF. induction l as [|y l IH]; [auto|]. cbn. rewrite HF by (cbn; auto). apply IH. intros; apply HF; cbn; auto.
Qed.
Lemma scan_filter {X} (f : X -> key) (p : X -> bool) l x : incr f l -> (forall a, In a l -> p a = true -> lexb (f a) x = false) ->
  (forall a b, In a l -> In b l -> lexb (f a) x = false -> lexb (f a) (f b) = true -> p b = true -> p a = true) ->
  while_ p (skipn (lb (map f l) x) l) = filter p l.
Proof.
  induction l as [|y l IH]; intros H H1 H2; [auto|]. cbn [map lb]. destruct (lexb (f y) x) eqn:E.
  - cbn [skipn filter]. destruct (p y) eqn:Ey; [rewrite H1 in E; cbn; auto; discriminate|]. apply IH; [apply H|intros; apply H1; cbn; auto|intros a b ? ? ? ? ?; apply (H2 a b); cbn; auto].
  - cbn [skipn]. apply (while_filter f); [exact H|]. intros a b Ha Hb Hab Hp. apply (H2 a b); auto. destruct Ha as [<-|Ha]; [auto|].
    destruct (lexb (f a) x) eqn:Ea; [|auto]. rewrite <- E. symmetry. apply (lexb_trans _ (f a)); auto. apply H, Ha.
Qed.
Lemma lb_cnt l x : incr (fun x => x) l -> lb l x = cnt (fun a => lexb a x) l.
Proof.
  unfold cnt. induction l as [|y l IH]; intros H; [auto|]. rewrite sm_cons. cbn [lb]. destruct (lexb y x) eqn:E; cbn [b2n]; [rewrite IH; [auto|apply H]|].
  rewrite sm_0; [auto|]. intros a Ha. destruct (lexb a x) eqn:Ea; [|auto]. rewrite (lexb_trans y a x) in E; [discriminate| |auto]. apply H, Ha.
Qed.
Lemma lb_firstn h l x : lb (firstn h l) x = Nat.min h (lb l x).
Proof. revert l. induction h as [|h IH]; intros [|y l]; cbn; auto. destruct (lexb y x); [rewrite IH|]; lia. Qed.
Lemma lb_skipn h l x : h <= lb l x -> lb (skipn h l) x = lb l x - h.
Proof. revert l. induction h as [|h IH]; intros [|y l] H; [cbn; lia|cbn [skipn]; lia|cbn in *; lia|]. cbn in *. destruct (lexb y x); [|lia]. rewrite IH by lia. lia. Qed.
Lemma lb_in_eq l lo hi x : lo <= lb l x <= hi -> lb_in l lo hi x = lb l x.
Proof. intros H. unfold lb_in. rewrite lb_firstn, lb_skipn by lia. lia. Qed.
Lemma lb_le l x : lb l x <= length l.
Proof. induction l as [|y l IH]; cbn; [auto|]. destruct (lexb y x); lia. Qed.
Lemma find_key_spec l x : incr (fun x => x) l -> match find_key l x with Some j => j = lb l x /\ nth_error l j = Some x | None => ~ In x l end.
Proof.
  induction l as [|y l IH]; intros H; [cbn; auto|]. cbn [find_key]. destruct (keyb y x) eqn:E.
  - apply keyb_eq in E as ->. cbn. rewrite lexb_irr. auto.
  - destruct H as (H1 & H2). specialize (IH H2). destruct (find_key l x) as [j|]; cbn [obind].
    + destruct IH as (-> & IH). cbn. rewrite (H1 x (nth_error_In _ _ IH)). auto.
    + intros [->|C]; [rewrite keyb_refl in E; discriminate|auto].
Qed.
Lemma incr_nth l i j a b : incr (fun x => x) l -> nth_error l i = Some a -> nth_error l j = Some b -> i < j -> lexb a b = true.
Proof.
  revert i j. induction l as [|y l IH]; intros [|i] [|j] H Ei Ej Hij; try discriminate; try lia; cbn in *; destruct H as (H1 & H2).
  - injection Ei as ->. apply H1. eapply nth_error_In; eauto.
  - apply (IH i j); auto. lia.
Qed.
Lemma lb_nth l x : match nth_error l (lb l x) with Some a => lexb a x = false | None => lb l x = length l end.
Proof.
  induction l as [|y l IH]; [reflexivity|]. cbn [lb length]. destruct (lexb y x) eqn:E; cbn [nth_error]; [|exact E].
  destruct (nth_error l (lb l x)); [exact IH|rewrite IH; reflexivity].
Qed.
Lemma contains_lb l x : incr (fun x => x) l -> match nth_error l (lb l x) with Some a => keyb a x | None => false end = true <-> In x l.
Proof.
  intros H. split.
  - destruct (nth_error l (lb l x)) eqn:E; [|discriminate]. rewrite keyb_eq. intros ->. eapply nth_error_In; eauto.
  - intros Hx. pose proof (find_key_spec l x H) as F. destruct (find_key l x) as [j|]; [|contradiction]. destruct F as (-> & ->). apply keyb_refl.
Qed.

(** * Maps *)
Section Map.
Context {K : Type} (ltb : K -> K -> bool).
Hypothesis irr : forall a, ltb a a = false.
Hypothesis trans : forall a b c, ltb a b = true -> ltb b c = true -> ltb a c = true.
Hypothesis total : forall a b, ltb a b = true \/ a = b \/ ltb b a = true.
Fixpoint ord {V} (M : list (K * V)) : Prop := match M with [] => True | a :: r => (forall b, In b r -> ltb (fst a) (fst b) = true) /\ ord r end.
Lemma upd_keys {V} f k (v : V) M x : In x (upd_ ltb f k v M) -> fst x = k \/ In x M.
Proof.
  induction M as [|(k', v') r IH]; cbn; [intros [<-|[]]; auto|]. destruct (ltb k k') eqn:E1; [intros [<-|H]; auto|]. destruct (ltb k' k) eqn:E2.
  - intros [<-|H]; auto. destruct (IH H); auto.
  - assert (k = k') by (destruct (total k k') as [?|[?|?]]; congruence). subst k'. intros [<-|H]; cbn; auto.
Qed.
Lemma upd_ord {V} f k (v : V) M : ord M -> ord (upd_ ltb f k v M).
Proof.
  induction M as [|(k', v') r IH]; cbn; [auto|]. intros (H1 & H2). destruct (ltb k k') eqn:E1; [|destruct (ltb k' k) eqn:E2].
  - split; [|split; auto]. intros b [<-|Hb]; cbn [fst]; [exact E1|]. apply (trans _ k'); [exact E1|]. apply (H1 b Hb).
  - split; [|auto]. intros b Hb. apply upd_keys in Hb as [Hb|Hb]; [cbn; rewrite Hb; auto|auto].
  - split; [|auto]. intros b Hb. cbn. apply (H1 b Hb).
Qed.
Lemma upd_has {V} f k (v : V) M : In k (map fst (upd_ ltb f k v M)).
Proof.
  induction M as [|(k', v') r IH]; cbn; auto. destruct (ltb k k') eqn:E1; [cbn; auto|destruct (ltb k' k) eqn:E2; cbn; auto].
  destruct (total k k') as [?|[->|?]]; try congruence. auto.
Qed.
Lemma upd_mono {V} f k (v : V) M x : In x (map fst M) -> In x (map fst (upd_ ltb f k v M)).
Proof. induction M as [|(k', v') r IH]; cbn; [tauto|]. destruct (ltb k k'); [cbn; auto|]. destruct (ltb k' k); cbn; tauto. Qed.
(** The weighted sum after an update *)
Lemma add_sum (phi : K -> nat) k v M : sm (fun e => phi (fst e) * snd e) (add_to ltb k v M) = phi k * v + sm (fun e => phi (fst e) * snd e) M.
Proof.
  unfold add_to. induction M as [|(k', v') r IH]; cbn [upd_]; [unfold sm; cbn; lia|]. destruct (ltb k k') eqn:E1; [rewrite !sm_cons; cbn; lia|]. destruct (ltb k' k) eqn:E2.
  - rewrite !sm_cons, IH. cbn. lia.
  - destruct (total k k') as [?|[->|?]]; try congruence. rewrite !sm_cons. cbn. lia.
Qed.
Lemma emplace_sum (phi : K -> nat) k v M : ~ In k (map fst M) -> sm (fun e => phi (fst e) * snd e) (emplace ltb k v M) = phi k * v + sm (fun e => phi (fst e) * snd e) M.
Proof.
  unfold emplace. induction M as [|(k', v') r IH]; cbn [upd_]; [unfold sm; cbn; lia|]. intros H. cbn in H. destruct (ltb k k') eqn:E1; [rewrite !sm_cons; cbn; lia|]. destruct (ltb k' k) eqn:E2.
  - rewrite !sm_cons, IH by tauto. cbn. lia.
  - destruct (total k k') as [?|[->|?]]; try congruence. tauto.
Qed.
Lemma emplace0_sum (phi : K -> nat) k M : sm (fun e => phi (fst e) * snd e) (emplace ltb k 0 M) = sm (fun e => phi (fst e) * snd e) M.
Proof.
  unfold emplace. induction M as [|(k', v') r IH]; cbn [upd_]; [unfold sm; cbn; lia|]. destruct (ltb k k') eqn:E1; [rewrite !sm_cons; cbn; lia|]. destruct (ltb k' k) eqn:E2; auto. rewrite !sm_cons, IH. cbn. lia.
Qed.
End Map.
Lemma nat_total a b : (a <? b) = true \/ a = b \/ (b <? a) = true.
Proof. rewrite !Nat.ltb_lt. lia. Qed.
Lemma nat_trans a b c : (a <? b) = true -> (b <? c) = true -> (a <? c) = true.
Proof. rewrite !Nat.ltb_lt. lia. Qed.
Notation ordk := (ord lexb).
Lemma ordk_incr {V} (M : list (key * V)) : ordk M <-> incr fst M.
Proof. induction M as [|a r IH]; cbn; [tauto|]. rewrite IH. tauto. Qed.

(** [M] holds the sums over [A] of the keys [f a] *)
Definition reps (M : mapk) (A : list key) (f : key -> key) : Prop :=
  ordk M /\ (forall phi : key -> nat, sm (fun e => phi (fst e) * snd e) M = sm (fun a => phi (f a)) A) /\ (forall e, In e M -> exists a, In a A /\ fst e = f a).
