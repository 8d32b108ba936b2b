(** What the operator matrices of a space should be. *)
From Verif Require Import Prelude RSum SpModel CoreModel CoreSpec.
Local Open Scope R_scope.

(** [value s o r n k i]: component k of operator o of basis function i of the space s at point n
    of element r, for o = IDEN or GRAD; row 3 c + x of GRAD is the derivative of component c
    along axis x.  Repetitions and compositions are block diagonal, a union has the functions of
    its members one after another. *)
Definition value := nat -> nat -> nat -> nat -> R.
Fixpoint com_value (l : list (nat * nat * value)) : value :=
  match l with
  | [] => fun _ _ _ _ => 0
  | (d, nf, v) :: tl => fun r n k i =>
      if (k <? d)%nat then if (i <? nf)%nat then v r n k i else 0
      else if (i <? nf)%nat then 0 else com_value tl r n (k - d)%nat (i - nf)%nat
  end.
Fixpoint uni_value (l : list (nat * value)) : value :=
  match l with
  | [] => fun _ _ _ _ => 0
  | (nf, v) :: tl => fun r n k i => if (i <? nf)%nat then v r n k i else uni_value tl r n k (i - nf)%nat
  end.
Fixpoint plain_value (o : op) (s : space) : value :=
  match s with
  | SBase b => b_val b o
  | SVec _ s' => fun r n k i =>
      let d := odim o s' in let nf := snfa s' in
      if (k / d =? i / nf)%nat then plain_value o s' r n (k mod d)%nat (i mod nf)%nat else 0
  | SCom l => com_value (map (fun s => (odim o s, snfa s, plain_value o s)) l)
  | SUni l => uni_value (map (fun s => (snfa s, plain_value o s)) l)
  | SUser s' => plain_value o s'
  end.
(** The other operators from the gradient g: row 3 c + x of the gradient is d u_c / d x *)
Definition from_grad (o : op) (g : value) : value := fun r n k i =>
  match o with
  | DIV => g r n 0%nat i + g r n 4%nat i + g r n 8%nat i
  | CURL =>
      match k with
      | 0%nat => g r n (3 * 2 + 1)%nat i - g r n (3 * 1 + 2)%nat i
      | 1%nat => g r n (3 * 0 + 2)%nat i - g r n (3 * 2 + 0)%nat i
      | _ => g r n (3 * 1 + 0)%nat i - g r n (3 * 0 + 1)%nat i
      end
  | DUDX x => g r n (3 * k + x)%nat i
  | _ => 0
  end.
Definition op_value (o : op) (s : space) : value :=
  match o with IDEN | GRAD => plain_value o s | _ => from_grad o (plain_value GRAD s) end.

(** *** Well-formed spaces *)
Definition base_ok (f q : nat) (b : base) : Prop :=
  (1 <= b_dim b)%nat /\
  (forall o, (dim_op o (b_dim b) * q * f * b_nfa b <= b_usz b o f q)%nat) /\
  (* the operators of a library space agree with its gradient: see C37 *)
  (forall o r n k i, (o = DIV \/ o = CURL -> b_dim b = 3%nat) -> o <> IDEN -> o <> GRAD -> (k < dim_op o (b_dim b))%nat -> (i < b_nfa b)%nat ->
     b_val b o r n k i = from_grad o (b_val b GRAD) r n k i).
Fixpoint wf (f q : nat) (s : space) : Prop :=
  match s with
  | SBase b => base_ok f q b
  | SVec n s' => (1 <= n)%nat /\ wf f q s'
  | SCom l => l <> [] /\ fold_right (fun s P => wf f q s /\ P) True l
  | SUni l => l <> [] /\ fold_right (fun s P => (wf f q s /\ forall t, In t l -> sdim t = sdim s) /\ P) True l
  | SUser s' => wf f q s'
  end.
(** number of parts of IDEN and GRAD *)
Fixpoint nparts_of (s : space) : nat :=
  match s with
  | SBase _ | SUni _ => 1
  | SVec n s' => n * nparts_of s'
  | SCom l => list_sum (map nparts_of l)
  | SUser s' => nparts_of s'
  end%nat.
(** Operators that are defined for the space.  The inherited DIV is excluded, and the inherited
    DUDX for a gradient with several parts. *)
Fixpoint supp (o : op) (s : space) : Prop :=
  match s with
  | SBase b => match o with DIV | CURL => b_dim b = 3%nat | DUDX x => (x < 3)%nat | _ => True end
  | SVec n s' => match o with DIV | CURL => (n * sdim s' = 3 /\ (n = 3 \/ supp o s'))%nat | _ => supp o s' end
  | SCom l =>
      match o with
      | DIV => sdim s = 3%nat /\
          match l with
          | [s0] => supp DIV s0
          | [s0; s1] => (sdim s0 = 1%nat -> supp (DUDX 0) s0) /\ (sdim s1 = 1%nat -> supp (DUDX 2) s1)
          | [s0; s1; s2] => supp (DUDX 0) s0 /\ supp (DUDX 1) s1 /\ supp (DUDX 2) s2
          | _ => True
          end
      | CURL => sdim s = 3%nat
      | _ => fold_right (fun s P => supp o s /\ P) True l
      end
  | SUni l => fold_right (fun s P => supp o s /\ P) True l
  | SUser s' => match o with IDEN | GRAD => True | DIV => False | CURL => sdim s' = 3%nat | DUDX x => (x < 3 /\ nparts_of s' = 1)%nat end
  end.

(** *** What a call of an operator needs and leaves alone *)
(** The memory at u and the work memory are large enough and apart, and there is room for the
    views and for the starts of their rows and columns. *)
Definition fits (m : mem) (u : nat) (r : req) : Prop :=
  (u + rU r <= length (hp m) /\ edat m + esz m <= length (hp m) /\ rE r <= esz m /\
   (u + rU r <= edat m \/ edat m + esz m <= u) /\
   busy m + rP r <= length (mtx m) /\ busy m + rP r + 2 <= length (rowi m) /\ busy m + rP r + 2 <= length (coli m))%nat.
(** Only n numbers at u and the work memory change, and no view marked as busy *)
Definition untouched (m : mem) (u n : nat) (m' : mem) : Prop :=
  let k := (busy m + (if (0 <? busy m)%nat then 1 else 0))%nat in
  length (hp m') = length (hp m) /\ (forall c, ~ (u <= c < u + n)%nat -> ~ (edat m <= c < edat m + esz m)%nat -> rd (hp m') c = rd (hp m) c) /\
  length (mtx m') = length (mtx m) /\ (forall c, (c < busy m)%nat -> rd (mtx m') c = rd (mtx m) c) /\
  length (rowi m') = length (rowi m) /\ (forall c, (c < k)%nat -> rd (rowi m') c = rd (rowi m) c) /\
  length (coli m') = length (coli m) /\ (forall c, (c < k)%nat -> rd (coli m') c = rd (coli m) c) /\
  edat m' = edat m /\ esz m' = esz m.
(** The block matrix that a result stands for *)
Definition slice {A} (l : list A) (o n : nat) : option (list A) := if (o + n <=? length l)%nat then Some (firstn n (skipn o l)) else None.
Definition read_band (f : nat) (m : mem) (b : bx) : option band :=
  do rs <- slice (rowi m) (os b) (S (np b)); do cs <- slice (coli m) (os b) (S (np b));
  do ps <- all_opt (map (fun p => do v <- rd (mtx m) (od b + p);
                                  do d <- slice (hp m) (fst v) (snd v * ((nth (S p) cs 0 - nth p cs 0) * f)); Some (d, snd v)) (seq 0 (np b)))%nat;
  Some {| parts := ps; st_row := rs; st_col := cs |}.
(** [computes f q o s v]: with enough memory the operator o of the space s ends with a block
    matrix for v, and changes nothing but the memory given to it *)
Definition computes (f q : nat) (o : op) (s : space) (v : value) : Prop :=
  exists rq, mreq f q o s = Some rq /\ forall m u, fits m u rq ->
    exists m' b U, apply f q o s m u = Some (m', b) /\ read_band f m' b = Some U /\
      band_of U (odim o s) (snfa s) q f v /\ untouched m u (rU rq) m'.
(** Positions of the parts of a composition *)
Definition rows_of (o : op) (l : list space) : nat := list_sum (map (odim o) l).
Definition dofs_of (l : list space) : nat := list_sum (map snfa l).

(** *** Equality *)
(** every library space with the same family and order is the same *)
Fixpoint from_lib (lib : nat -> base) (s : space) : Prop :=
  match s with
  | SBase b => b = lib (b_id b)
  | SVec _ s' => from_lib lib s'
  | SCom l | SUni l => fold_right (fun s P => from_lib lib s /\ P) True l
  | SUser _ => False
  end.
(** the repetition counts in the order they occur *)
Fixpoint reps (s : space) : list nat :=
  match s with
  | SBase _ => []
  | SVec n s' => n :: reps s'
  | SCom l | SUni l => flat_map reps l
  | SUser s' => reps s'
  end.
