(** Elemental matrices and evaluation of fem expressions:
    fem/operations/core.inl:28-92, 277-575, core.h:167-195, fem/diff_tensor.h:62-135, 275-993.
    Only the hand-written products are modelled, not the Eigen ones.  Doubles are reals, a
    pointer is a list and an offset, [None] is an access out of range, a failed assertion or a
    thrown exception.  The operator matrices U and V are inputs. *)
From Verif Require Import Prelude RSum.
Local Open Scope R_scope.

(** core.inl:28-60 fusive_AT_mul_B *)
Definition at_mul_b (fuse nRow : nat) (A : list R) (oA ACol : nat) (B : list R) (oB BCol : nat) (Rm : list R) (oR : nat) : option (list R) :=
  for_ fuse (fun r Rm => for_ BCol (fun ia Rm => for_ ACol (fun ib Rm =>
    do s <- for_ nRow (fun j s =>
        do b <- rd B (oB + (j + nRow * (ia + BCol * r)));
        do a <- rd A (oA + (j + nRow * (ib + ACol * r)));
        Some (s + b * a)) 0;
    wr Rm (oR + (ib + ACol * (ia + BCol * r))) s) Rm) Rm) Rm.

(** core.inl:62-92 fusive_A_mul_B *)
Definition a_mul_b (fuse ACol : nat) (A : list R) (oA ARow : nat) (B : list R) (oB BCol : nat) (Rm : list R) (oR : nat) : option (list R) :=
  do Rm <- for_ (ARow * BCol) (fun i Rm => wr Rm (oR + i) 0) Rm;
  for_ fuse (fun r Rm => for_ ACol (fun j Rm => for_ ARow (fun ib Rm => for_ BCol (fun ia Rm =>
    do a <- rd A (oA + (ib + ARow * (j + ACol * r)));
    do b <- rd B (oB + (j + ACol * (ia + BCol * r)));
    do x <- rd Rm (oR + (ib + ARow * (ia + BCol * r)));
    wr Rm (oR + (ib + ARow * (ia + BCol * r))) (x + a * b)) Rm) Rm) Rm) Rm.

(** fem_memory.h:145-170 BandDenseMatrix and BandDenseMatrixX: parts with their number of
    rows, first row and first column of every part *)
Record band : Type := { parts : list (list R * nat); st_row : list nat; st_col : list nat }.
Definition nparts (U : band) : nat := length (parts U).

(** What the user's tensor function stored in its memory (column-major) and returned.
    diff_tensor.h:17-22 *)
Inductive tensor : Type := TNull | TScalar (s : R) | TSym (m : list R) | TGen (m : list R).
Inductive tkind : Type := KNull | KScalar | KFull.
Definition point : Type := (R * R * R)%type.
Definition functor : Type := point -> nat -> tensor.
Definition kind (t : tensor) : tkind := match t with TNull => KNull | TScalar _ => KScalar | _ => KFull end.

(** diff_tensor.h:73-96: the result is stored at D + off; rows, cols are Ddims *)
Definition dfunc (F : functor) (X : point) (rows cols iTet : nat) (D : list R) (off : nat) : option (tkind * list R) :=
  let t := F X iTet in
  do D <- match t with
    | TGen m => for_ cols (fun i D => for_ rows (fun j D => do v <- rd m (j + rows * i); wr D (off + (i + cols * j)) v) D) D
    | TSym m => do _ <- guard (rows =? cols)%nat; for_ (rows * cols) (fun i D => do v <- rd m i; wr D (off + i) v) D
    | TNull => Some D
    | TScalar s => wr D off s
    end;
  Some (kind t, D).

(** The loops of the internal_Dfunc::applyDU overloads, element r, tensor stored at off n.
    diff_tensor.h:296-309 (also 465-481, 534-547, 577-594, 682-696, 799-812, 917-931) *)
Definition du_gen (q jdim idim nfa : nat) (U : band) (w mes DIFF : list R) (off : nat -> nat) (r : nat) (DU : list R) : option (list R) :=
  do vol <- rd mes r;
  for_ (nparts U) (fun d DU =>
    do c0 <- rd (st_col U) d; do c1 <- rd (st_col U) (S d);
    do r0 <- rd (st_row U) d; do r1 <- rd (st_row U) (S d);
    do p <- rd (parts U) d;
    let isz := (c1 - c0)%nat in let jsz := (r1 - r0)%nat in
    for_range c0 isz (fun i DU => for_ q (fun n DU =>
      do wg <- rd w n;
      for_ jdim (fun k DU =>
        do s <- for_range r0 jsz (fun j s =>
            do x <- rd DIFF (off n + (j + idim * k));
            do u <- rd (fst p) ((j - r0) + n * jsz + snd p * ((i - c0) + isz * r));
            Some (s + x * u)) 0;
        wr DU (k + jdim * (n + q * (i + nfa * r))) (wg * vol * s)) DU) DU) DU) DU.
(** diff_tensor.h:317-331 (also 349-363, 385-398, 429-442, 612-625, 640-652, 716-729, 743-756,
    839-851, 876-889, 939-951, 967-979): the tensor is sc n times the identity.  The order of the
    factors of one product differs between the overloads; it is the same real number. *)
Definition du_diag (q jdim nfa : nat) (U : band) (w mes : list R) (sc : nat -> option R) (r : nat) (DU : list R) : option (list R) :=
  do vol <- rd mes r;
  for_ (nparts U) (fun d DU =>
    do c0 <- rd (st_col U) d; do c1 <- rd (st_col U) (S d);
    do r0 <- rd (st_row U) d; do r1 <- rd (st_row U) (S d);
    do p <- rd (parts U) d;
    let isz := (c1 - c0)%nat in let ksz := (r1 - r0)%nat in
    for_range c0 isz (fun i DU => for_ q (fun n DU =>
      do wg <- rd w n; do s <- sc n;
      for_range r0 ksz (fun k DU =>
        do u <- rd (fst p) ((k - r0) + n * ksz + snd p * ((i - c0) + isz * r));
        wr DU (k + jdim * (n + q * (i + nfa * r))) (s * wg * vol * u)) DU) DU) DU) DU.
(** diff_tensor.h:332-337 and its copies: a scalar function in a vector expression *)
Definition du_expand (q jdim idim nfa : nat) (r : nat) (DU : list R) : option (list R) :=
  if (jdim =? idim)%nat then Some DU else
  for_ q (fun n DU => for_range idim (jdim - idim) (fun k DU =>
    do x <- rd DU (0 + jdim * (n + q * (0 + nfa * r)));
    wr DU (k + jdim * (n + q * (0 + nfa * r))) x) DU) DU.
(** diff_tensor.h:312-314 and its copies *)
Definition compat (idim jdim nfa : nat) : bool := ((jdim =? idim) || ((nfa =? 1) && (idim =? 1)))%nat.

(** coordinates of point n of element r, e.g. diff_tensor.h:501 *)
Definition pnt (q : nat) (XYG : list R) (r n : nat) : option point :=
  do x <- rd XYG (3 * (n + r * q)); do y <- rd XYG (3 * (n + r * q) + 1); do z <- rd XYG (3 * (n + r * q) + 2);
  Some (x, y, z).

(** the loop over elements after the tensors are evaluated: every element with the same kind *)
Definition du_by_kind (k : tkind) (q f jdim idim nfa : nat) (U : band) (w mes DIFF : list R) (off : nat -> nat -> nat) (DU : list R) : option (list R) :=
  match k with
  | KFull => for_ f (fun r DU => du_gen q jdim idim nfa U w mes DIFF (off r) r DU) DU
  | KScalar =>
      do _ <- guard (compat idim jdim nfa);
      do DU <- for_ f (fun r DU => du_diag q jdim nfa U w mes (fun n => rd DIFF (off r n)) r DU) DU;
      for_ f (fun r DU => du_expand q jdim idim nfa r DU) DU
  | KNull =>
      do _ <- guard (compat idim jdim nfa);
      do DU <- for_ f (fun r DU => du_diag q jdim nfa U w mes (fun _ => Some 1) r DU) DU;
      for_ f (fun r DU => du_expand q jdim idim nfa r DU) DU
  end.

(** diff_tensor.h:503-527: a tensor that is a multiple of the identity is expanded in place *)
Definition fill_diag (idim jdim nfa : nat) (k : tkind) (D : list R) (off : nat) : option (list R) :=
  match k with
  | KFull => Some D
  | _ =>
    do _ <- guard (compat idim jdim nfa);
    do s <- (match k with KScalar => rd D off | _ => Some 1 end);
    do D <- for_ (idim * jdim) (fun i D => wr D (off + i) 0) D;
    let step := if (jdim =? idim)%nat then idim else 0%nat in
    for_ jdim (fun i D => wr D (off + (i + i * step)) s) D
  end.
Definition kind_is (k k' : tkind) : bool :=
  match k, k' with KNull, KNull | KScalar, KScalar | KFull, KFull => true | _, _ => false end.

(** DFUNC::TensorSparsity: a fixed type or one of PerPoint, PerTetra, PerSelection *)
Inductive sparsity : Type := PerPoint | PerTetra | PerSelection | Fixed (k : tkind).

Definition off_at (q idim jdim r n : nat) : nat := (idim * jdim * (n + q * r))%nat.
(** evaluation at every point of every element, checking the promised type; 787-794, 829-836 *)
Definition eval_all (F : functor) (chk : tkind -> bool) (q f jdim idim : nat) (XYG DIFF : list R) : option (list R) :=
  for_ f (fun r D => for_ q (fun n D =>
    do x <- pnt q XYG r n;
    do kD <- dfunc F x jdim idim r D (off_at q idim jdim r n);
    do _ <- guard (chk (fst kD));
    Some (snd kD)) D) DIFF.

(** diff_tensor.h:279-897: the overloads for OnePointTensor functions *)
Definition apply_DU (F : functor) (constant : bool) (sp : sparsity) (q f jdim idim nfa : nat) (U : band) (w mes XYG DIFF DU : list R) : option (list R) :=
  if constant then
    match sp with
    | Fixed KNull => (* 373-408 *)
        du_by_kind KNull q f jdim idim nfa U w mes DIFF (fun _ _ => 0%nat) DU
    | Fixed k => (* 409-487 *)
        do kD <- dfunc F (0, 0, 0) jdim idim 0 DIFF 0;
        do _ <- guard (kind_is k (fst kD));
        du_by_kind k q f jdim idim nfa U w mes (snd kD) (fun _ _ => 0%nat) DU
    | _ => (* 279-372 *)
        do kD <- dfunc F (0, 0, 0) jdim idim 0 DIFF 0;
        du_by_kind (fst kD) q f jdim idim nfa U w mes (snd kD) (fun _ _ => 0%nat) DU
    end
  else
    match sp with
    | Fixed KNull => (* 862-897 *)
        du_by_kind KNull q f jdim idim nfa U w mes DIFF (off_at q idim jdim) DU
    | Fixed k => (* 776-861 *)
        do D <- eval_all F (kind_is k) q f jdim idim XYG DIFF;
        du_by_kind k q f jdim idim nfa U w mes D (off_at q idim jdim) DU
    | PerPoint => (* 488-552 *)
        do D <- for_ f (fun r D => for_ q (fun n D =>
            do x <- pnt q XYG r n;
            do kD <- dfunc F x jdim idim r D (off_at q idim jdim r n);
            fill_diag idim jdim nfa (fst kD) (snd kD) (off_at q idim jdim r n)) D) DIFF;
        du_by_kind KFull q f jdim idim nfa U w mes D (off_at q idim jdim) DU
    | PerTetra => (* 553-656 *)
        do st <- for_ f (fun r st => let '(D, DU) := st in
            do x <- pnt q XYG r 0;
            do kD <- dfunc F x jdim idim r D 0;
            match fst kD with
            | KFull =>
                do D <- for_range 1 (q - 1) (fun n D => do x <- pnt q XYG r n; do kD <- dfunc F x jdim idim r D (idim * jdim * n); Some (snd kD)) (snd kD);
                do DU <- du_gen q jdim idim nfa U w mes D (fun n => (idim * jdim * n)%nat) r DU;
                Some (D, DU)
            | KScalar =>
                do _ <- guard (compat idim jdim nfa);
                do D <- for_range 1 (q - 1) (fun n D => do x <- pnt q XYG r n; do kD <- dfunc F x jdim idim r D (idim * jdim * n); Some (snd kD)) (snd kD);
                do DU <- du_diag q jdim nfa U w mes (fun n => rd D (idim * jdim * n)) r DU;
                do DU <- du_expand q jdim idim nfa r DU;
                Some (D, DU)
            | KNull =>
                do _ <- guard (compat idim jdim nfa);
                do DU <- du_diag q jdim nfa U w mes (fun _ => Some 1) r DU;
                do DU <- du_expand q jdim idim nfa r DU;
                Some (snd kD, DU)
            end) (DIFF, DU);
        Some (snd st)
    | PerSelection => (* 657-775 *)
        do x <- pnt q XYG 0 0;
        do kD <- dfunc F x jdim idim 0 DIFF 0;
        do D <- match fst kD with
          | KNull => Some (snd kD)
          | k =>
            (* 675 and 704: the points of element 0; 681 passes 0 as the element of every point, 710 passes r *)
            do D <- for_range 1 (q - 1) (fun n D => do x <- pnt q XYG 0 n; do kD <- dfunc F x jdim idim 0 D (off_at q idim jdim 0 n); Some (snd kD)) (snd kD);
            for_range 1 (f - 1) (fun r D => for_ q (fun n D =>
              do x <- pnt q XYG r n;
              do kD <- dfunc F x jdim idim (match k with KFull => 0%nat | _ => r end) D (off_at q idim jdim r n);
              Some (snd kD)) D) D
          end;
        du_by_kind (fst kD) q f jdim idim nfa U w mes D (off_at q idim jdim) DU
    end.

(** diff_tensor.h:112-135: the fusive wrapper.  The user's function returns the type and has
    stored the column-major matrix FV r n of every point *)
Definition dfunc_fusive (k : tkind) (sym : bool) (FV : nat -> nat -> list R) (q f rows cols : nat) (D lmem : list R) : option (list R) :=
  do D <- for_ f (fun r D => for_ q (fun n D => for_ (length (FV r n)) (fun i D => do v <- rd (FV r n) i; wr D (rows * cols * (n + q * r) + i) v) D) D) D;
  match k, sym with
  | KFull, false =>
      do st <- for_ f (fun r st => for_ q (fun n st => let '(D, lmem) := st in
        let off := (rows * cols * (n + q * r))%nat in
        do lmem <- for_ (rows * cols) (fun i lmem => do v <- rd D (off + i); wr lmem i v) lmem;
        do D <- for_ cols (fun i D => for_ rows (fun j D => do v <- rd lmem (j + rows * i); wr D (off + i + cols * j) v) D) D;
        Some (D, lmem)) st) (D, lmem);
      Some (fst st)
  | _, _ => Some D
  end.
(** diff_tensor.h:900-990 *)
Definition apply_DU_fusive (k : tkind) (sym : bool) (FV : nat -> nat -> list R) (constant : bool) (q f jdim idim nfa : nat) (U : band) (w mes DIFF lmem DU : list R) : option (list R) :=
  do D <- dfunc_fusive k sym FV q f jdim idim DIFF lmem;
  du_by_kind k q f jdim idim nfa U w mes D (if constant then (fun _ _ => 0%nat) else off_at q idim jdim) DU.

(** core.h:175-195 ProcessNormal; jdim is the number of rows of one point after the contraction *)
Definition process_normal (q f nfA jdim : nat) (NRM DU : list R) : option (list R) :=
  let nRow := (jdim * 3 * q)%nat in
  for_ f (fun r DU => for_ nfA (fun i DU => for_ q (fun n DU => for_ jdim (fun k DU =>
    do a <- rd DU ((0 + 3 * (k + jdim * n)) + nRow * (i + nfA * r)); do x <- rd NRM (3 * r + 0);
    do b <- rd DU ((1 + 3 * (k + jdim * n)) + nRow * (i + nfA * r)); do y <- rd NRM (3 * r + 1);
    do c <- rd DU ((2 + 3 * (k + jdim * n)) + nRow * (i + nfA * r)); do z <- rd NRM (3 * r + 2);
    wr DU (k + jdim * n + jdim * q * (i + nfA * r)) (a * x + b * y + c * z)) DU) DU) DU) DU.

(** core.inl:313-345 and 440-466: the product of V^T and DU *)
(* 319-335: the rows of one part are gathered into Dr (at oD in DIFF), the product goes to Ar (at oA in extraR) *)
Definition part_product (q f dimB nfA : nat) (V : band) (DU : list R) (d : nat) (st : list R * list R * nat * nat) : option (list R * list R * nat * nat) :=
  let '(DIFF, EX, oD, oA) := st in
  do r0 <- rd (st_row V) d; do r1 <- rd (st_row V) (S d);
  do c0 <- rd (st_col V) d; do c1 <- rd (st_col V) (S d);
  do p <- rd (parts V) d;
  let ldim := (r1 - r0)%nat in let nrow := (q * ldim)%nat in let ncol := (nfA * f)%nat in
  do DIFF <- for_ ncol (fun j D => for_ q (fun n D => for_range r0 ldim (fun i D =>
      do v <- rd DU (i + dimB * (n + q * j)); wr D (oD + ((i - r0 + ldim * n) + nrow * j)) v) D) D) DIFF;
  let lnfb := (c1 - c0)%nat in
  do EX <- at_mul_b f nrow (fst p) 0 lnfb DIFF oD nfA EX oA;
  Some (DIFF, EX, oD + nrow * ncol, oA + lnfb * nfA * f)%nat.
Definition vt_du (q f dimB nfA nfB : nat) (V : band) (DU DIFF EX A : list R) : option (list R) :=
  if (nparts V =? 1)%nat then
    do p <- rd (parts V) 0;
    at_mul_b f (q * dimB) (fst p) 0 nfB DU 0 nfA A 0
  else
    do st <- for_ (nparts V) (part_product q f dimB nfA V DU) (DIFF, EX, 0%nat, 0%nat);
    let '(_, EX, _, _) := st in
    for_ (nfA * f) (fun j A =>
      do st <- for_ (nparts V) (fun d st => let '(A, oA) := st in
        do c0 <- rd (st_col V) d; do c1 <- rd (st_col V) (S d);
        let lnfb := (c1 - c0)%nat in
        do A <- for_range c0 lnfb (fun i A => do v <- rd EX (oA + ((i - c0) + lnfb * j)); wr A (i + nfB * j) v) A;
        Some (A, oA + lnfb * nfA * f)%nat) (A, 0%nat);
      Some (fst st)) A.

(** core.inl:277-367 and 406-475 internalFem3Dtet, OnePointTensor functions *)
Definition fem3Dtet (F : functor) (constant : bool) (sp : sparsity) (normal : bool) (q f dimA dimB nfA nfB : nat) (U V : band)
    (w mes XYG NRM DIFF EX DU A : list R) : option (list R) :=
  let nD := (if normal then 3 else 1)%nat in
  do DU <- (if (1 <? nparts U)%nat then for_ (q * f * dimB * nfA * nD) (fun i DU => wr DU i 0) DU else Some DU);
  do DU <- apply_DU F constant sp q f (dimB * nD) dimA nfA U w mes XYG DIFF DU;
  do DU <- (if normal then process_normal q f nfA dimB NRM DU else Some DU);
  (* the content of DIFF is overwritten before it is read again *)
  vt_du q f dimB nfA nfB V DU DIFF EX A.

(** the same for a fusive function *)
Definition fem3Dtet_fusive (k : tkind) (sym : bool) (FV : nat -> nat -> list R) (constant normal : bool) (q f dimA dimB nfA nfB : nat) (U V : band)
    (w mes NRM DIFF lmem EX DU A : list R) : option (list R) :=
  let nD := (if normal then 3 else 1)%nat in
  do DU <- (if (1 <? nparts U)%nat then for_ (q * f * dimB * nfA * nD) (fun i DU => wr DU i 0) DU else Some DU);
  do DU <- apply_DU_fusive k sym FV constant q f (dimB * nD) dimA nfA U w mes DIFF lmem DU;
  do DU <- (if normal then process_normal q f nfA dimB NRM DU else Some DU);
  vt_du q f dimB nfA nfB V DU DIFF EX A.

(** core.inl:369-404, 477-513: internalFem3DApply without a tensor.  [EX] is mem.extraR.  For
    more than one part and q > 1 the products go to extraR; the copy at 394-401 does not depend on r *)
Definition apply_part (q f dim ndof : nat) (U : band) (dofs : list R) (T : list R) : option (list R) :=
  for_ (nparts U) (fun d T => for_ f (fun r T =>
    do r0 <- rd (st_row U) d; do r1 <- rd (st_row U) (S d);
    do c0 <- rd (st_col U) d; do c1 <- rd (st_col U) (S d);
    do p <- rd (parts U) d;
    let vrow := (r1 - r0)%nat in let vcol := ((c1 - c0) / f)%nat in
    a_mul_b f vcol (fst p) (q * vrow * vcol * r) (q * vrow) dofs (r * ndof + c0) 1 T (r * dim * q + r0 * q)) T) T.
Definition fem3Dapply (q f dim nf : nat) (U : band) (dofs EX opU : list R) : option (list R) :=
  if (nparts U =? 1)%nat then
    do p <- rd (parts U) 0;
    a_mul_b f nf (fst p) 0 (dim * q) dofs 0 1 opU 0
  else if (q <=? 1)%nat then apply_part q f dim nf U dofs opU
  else
    do T <- apply_part q f dim nf U dofs EX;
    for_ q (fun n opU => for_ (nparts U) (fun d opU =>
      do r0 <- rd (st_row U) d; do r1 <- rd (st_row U) (S d);
      let ldim := (r1 - r0)%nat in
      for_ ldim (fun i opU => do v <- rd T (r0 * q + ldim * n + i); wr opU (dim * n + r0 + i) v) opU) opU) opU.
(** eval.inl:7-8, 64-66: the size of extraR an evaluation gets; [op] is what the operator asks for *)
Definition apply_extraR (op nfa f : nat) : nat := Nat.max op (1 * nfa * f).
