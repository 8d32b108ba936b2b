(** Node metrics from a scalar field: utils/adapt_mesh.cpp, branch without Eigen.  Matrices 3 x 3 are lists of nine numbers,
    column-major.  Doubles are reals: there is no NaN, infinity is [None].  [eps] is the machine epsilon, [sweeps] is
    ANIFEM_JACOBI_MAX_SWEEPS, [ke] is kEigenEps. *)
From Verif Require Import Prelude RSum GeoModel SvdModel.
Local Open Scope R_scope.

(** adapt_mesh.h:16-31; max_quad_order only reaches the integrals, which are inputs here; verbosity only prints *)
Record traits := { heur : bool; strategy : nat; lam_min : R; lam_max : R; lam_rel : R; h_rel : R; boost : R; iso : R }.

(** std::cbrt, std::pow(x, -0.2) *)
Definition cbrt (x : R) : R := if Rlt_dec 0 x then Rpower x (1 / 3) else if Rlt_dec x 0 then - Rpower (- x) (1 / 3) else 0.
Definition pow_m02 (x : R) : R := Rpower x (- (1 / 5)).

(** adapt_mesh.cpp:30-35 *)
Definition voigt_to_dense (v : list R) : option (list R) :=
  do v0 <- rd v 0; do v1 <- rd v 1; do v2 <- rd v 2; do v3 <- rd v 3; do v4 <- rd v 4; do v5 <- rd v 5;
  Some [v0; v3; v5; v3; v1; v4; v5; v4; v2].
(** adapt_mesh.cpp:37-44 *)
Definition dense_to_voigt (A v : list R) : option (list R) :=
  do a0 <- rd A 0; do a4 <- rd A 4; do a8 <- rd A 8; do a1 <- rd A 1; do a3 <- rd A 3; do a5 <- rd A 5; do a7 <- rd A 7; do a2 <- rd A 2; do a6 <- rd A 6;
  do v <- wr v 0 a0; do v <- wr v 1 a4; do v <- wr v 2 a8;
  do v <- wr v 3 (1 / 2 * (a1 + a3)); do v <- wr v 4 (1 / 2 * (a5 + a7)); wr v 5 (1 / 2 * (a2 + a6)).
(** adapt_mesh.cpp:46-53 *)
Definition zero9 : list R := repeat 0 9.
Definition eye9 (s : R) : list R := [s; 0; 0; 0; s; 0; 0; 0; s].
(** adapt_mesh.cpp:55-63 *)
Definition dense_add (A B : list R) : option (list R) := for_ 9 (fun i A => do a <- rd A i; do b <- rd B i; wr A i (a + 1 * b)) A.
Definition dense_scale (A : list R) (s : R) : option (list R) := for_ 9 (fun i A => do a <- rd A i; wr A i (a * s)) A.
(** adapt_mesh.cpp:77-89 *)
Definition sort_asc := sort_eigen ltb 3.
(** adapt_mesh.cpp:91-97 *)
Definition reconstruct (e Q : list R) : option (list R) :=
  for_ 3 (fun k A => for_ 3 (fun j A => for_ 3 (fun i A =>
    do a <- mrd A 3 i j; do qi <- mrd Q 3 i k; do ek <- rd e k; do qj <- mrd Q 3 j k; mwr A 3 i j (a + qi * ek * qj)) A) A) zero9.
(** adapt_mesh.cpp:110-112, 265-267: the off-diagonal pair at positions p, q becomes its mean *)
Definition mean_pair (p q : nat) (A : list R) : option (list R) :=
  do x <- rd A p; do y <- rd A q; do A <- wr A q (1 / 2 * (x + y)); wr A p (1 / 2 * (x + y)).
Definition sym3 (A : list R) : option (list R) := do A <- mean_pair 1 3 A; do A <- mean_pair 2 6 A; mean_pair 5 7 A.
(** the loops over three eigenvalues, adapt_mesh.cpp:146-147, 157-158, 164-165, 191-197, 356-358 *)
Definition each (f : R -> R) (e : list R) : option (list R) := for_ 3 (fun i e => do x <- rd e i; wr e i (f x)) e.

(** CellHView, adapt_mesh.cpp:293-298 *)
Record view := { absH : list R; sv : list R; degen : bool; vvol : R }.
(** what the cell loop reads of a cell: gathered dofs (nfa), gradient products (nfa^2) and face integrals of the gradients
    (3 x nfa for each face), which fem3Dtet and fem3Dface compute; vertices; volume *)
Record cell := { c_d : list R; c_B : list R; c_A : nat -> list R; c_x : nat -> vec; c_vol : R }.

Section Num.
Variables (eps : R) (sweeps : nat) (ke : R).

(** sym_eigen3 and analyze_sym, adapt_mesh.cpp:107-141: eigenvalues ascending, eigenvectors *)
Definition analyze (A : list R) : option (list R * list R) :=
  do Sm <- sym3 A;
  do (ok, e, Q) <- jacobi_eigen eps sweeps 3 Sm [0; 0; 0] zero9;
  do eQ <- (if ok : bool then Some (e, Q) else do a0 <- rd A 0; do a4 <- rd A 4; do a8 <- rd A 8; Some ([a0; a4; a8], eye9 1));
  sort_asc eQ.
(** finish_spectrum, adapt_mesh.cpp:99-105 *)
Definition sdet (e : list R) : option R := do a <- rd e 0; do b <- rd e 1; do c <- rd e 2; Some (a * b * c).
Definition sratio (e : list R) : option (option R) := do a <- rd e 0; do c <- rd e 2; Some (if Rlt_dec ke (Rabs a) then Some (c / a) else None).
(** spectral_abs, adapt_mesh.cpp:144-153: |H| and the spectrum *)
Definition spectral_abs (H : list R) : option (list R * list R) :=
  do (e, Q) <- analyze H; do e <- each Rabs e; do (e, Q) <- sort_asc (e, Q);
  do A <- reconstruct e Q; Some (A, e).
(** adapt_mesh.cpp:155-167 *)
Definition matrix_log (M : list R) : option (list R) := do (e, Q) <- analyze M; do e <- each (fun x => ln (Rmax x ke)) e; reconstruct e Q.
Definition matrix_exp (M : list R) : option (list R) := do (e, Q) <- analyze M; do e <- each exp e; reconstruct e Q.
(** clamp_evals, adapt_mesh.cpp:170-203 *)
Definition clamp_abs (tr : traits) (x : R) : R :=
  let v := if Rlt_dec x (lam_min tr) then lam_min tr else x in if Rlt_dec (lam_max tr) v then lam_max tr else v.
Definition clamped (tr : traits) (x : R) : bool :=
  if Rlt_dec x (lam_min tr) then true else if Rlt_dec (lam_max tr) x then true else false.
Definition clamp_evals (tr : traits) (eQ : list R * list R) : option (bool * (list R * list R)) :=
  let '(e, Q) := eQ in
  do a <- rd e 0; do b <- rd e 1; do c <- rd e 2;
  let changed := (clamped tr a || clamped tr b || clamped tr c)%bool in
  do e <- each (clamp_abs tr) e;
  do (e, Q) <- sort_asc (e, Q);
  let r := Rmax (lam_rel tr) 1 in
  do a <- rd e 0; do b <- rd e 1; do c <- rd e 2;
  if Rlt_dec ke a then if Rlt_dec r (c / a) then
    let g := cbrt (a * b * c) in
    do e <- each (fun x => g * Rmin (sqrt r) (Rmax (1 / sqrt r) (x / g))) e;
    do e <- each (fun x => Rmin (lam_max tr) (Rmax (lam_min tr) x)) e;
    do eQ <- sort_asc (e, Q); Some (true, eQ)
  else Some (changed, (e, Q)) else Some (changed, (e, Q)).
(** clamp_spectrum, adapt_mesh.cpp:205-210 *)
Definition clamp_spectrum (tr : traits) (A : list R) : option (bool * list R) :=
  do eQ <- analyze A; do (ch, (e, Q)) <- clamp_evals tr eQ; do A <- reconstruct e Q; Some (ch, A).
(** h2_is_degenerate, adapt_mesh.cpp:212-216 *)
Definition h2_degenerate (tr : traits) (e : list R) : option bool :=
  do a <- rd e 0; do r <- sratio e;
  Some (if Rlt_dec ke a then match r with Some r => if Rlt_dec (h_rel tr) r then true else false | None => true end else true).

(** compute_H2_from_v2, adapt_mesh.cpp:224-268 *)
Definition vget (v : vec) (i : nat) : R := let '(a, b, c) := v in match i with O => a | 1%nat => b | _ => c end.
Definition face_int (nfa : nat) (A v2 : list R) (j : nat) : option R := for_ nfa (fun k s => do a <- mrd A 3 j k; do v <- rd v2 k; Some (s + a * v)) 0.
Definition compute_H2 (nfa : nat) (c : cell) (v2 : list R) : option (list R) :=
  if Rlt_dec 0 (c_vol c) then
    do H <- for_ 4 (fun f H =>
      let n := snd (face_normal (c_x c f) (c_x c ((f + 1) mod 4)%nat) (c_x c ((f + 2) mod 4)%nat) (c_x c ((f + 3) mod 4)%nat)) in
      do i0 <- face_int nfa (c_A c f) v2 0; do i1 <- face_int nfa (c_A c f) v2 1; do i2 <- face_int nfa (c_A c f) v2 2;
      for_ 3 (fun i H => for_ 3 (fun j H => do h <- mrd H 3 i j; mwr H 3 i j (h + vget n i * vget (i0, i1, i2) j)) H) H) zero9;
    do H <- dense_scale H (1 / c_vol c); sym3 H
  else Some zero9.
(** build_M_from_spectrum and absH_to_M_clamped, adapt_mesh.cpp:271-289; a real is always finite *)
Definition absH_to_M (tr : traits) (A : list R) : option (list R) :=
  do eQ <- analyze A; do (_, (e, Q)) <- clamp_evals tr eQ; do A <- reconstruct e Q; do d <- sdet e;
  if Rlt_dec ke d then dense_scale A (pow_m02 d) else Some (eye9 (iso tr)).
(** load_cell_H, store_cell_H, adapt_mesh.cpp:300-321 *)
Definition load (vol : R) (m : list R) : option view :=
  do A <- voigt_to_dense m; do s0 <- rd m 6; do s1 <- rd m 7; do s2 <- rd m 8; do fl <- rd m 9;
  Some {| absH := A; sv := [s0; s1; s2]; degen := if Rlt_dec (1 / 2) fl then true else if Rlt_dec ke s0 then false else true; vvol := vol |}.
Definition store_H (A s : list R) (dg : bool) (m : list R) : option (list R) :=
  do m <- dense_to_voigt A m; do s0 <- rd s 0; do s1 <- rd s 1; do s2 <- rd s 2;
  do m <- wr m 6 s0; do m <- wr m 7 s1; do m <- wr m 8 s2; wr m 9 (if dg then 1 else 0).
(** adapt_mesh.cpp:323-362 *)
Definition gt (x t : R) : bool := if Rlt_dec t x then true else false.
Definition above (t : R) (s : list R) : list R := filter (fun x => gt x t) s.
Definition count_above (t : R) (s : list R) : nat := length (above t s).
Definition prod_above (t : R) (s : list R) : R := match above t s with [] => 0 | l => fold_left Rmult l 1 end.
Definition min_above (t : R) (s : list R) : option R := match above t s with [] => None | x :: l => Some (fold_left Rmin l x) end.
(* the values s it also returns are not used by its only caller *)
Definition lift_zero (t : R) (A : list R) : option (list R) :=
  do (e, Q) <- analyze A;
  match min_above t e with
  | None => Some A
  | Some m => do e <- each (fun x => if gt x t then x else m) e; do (e, Q) <- sort_asc (e, Q); reconstruct e Q
  end.
(** fill_alpha_from_d, adapt_mesh.cpp:365-387 *)
Definition fill_alpha (hr : bool) (nfa : nat) (B d : list R) (sum_abs : R) : option (list R) :=
  if negb hr then Some d else
  if Rlt_dec 0 sum_abs then
    do s <- for_ nfa (fun i s => do bi <- for_ nfa (fun j b => do x <- mrd B nfa i j; do y <- rd d j; Some (b + x * y)) 0; do x <- rd d i; Some (s + x * bi)) 0;
    Some (map (fun x => Rabs x * Rabs s / sum_abs) d)
  else Some (map (fun _ => 0) d).
(** pick_max_det_M, adapt_mesh.cpp:391-409, with only_nonsing = true *)
Definition vdet (v : view) : option R := sdet (sv v).
Fixpoint pick_from (best : option (R * view)) (l : list view) : option (option (R * view)) :=
  match l with
  | [] => Some best
  | v :: l => if degen v then pick_from best l else do d <- vdet v;
      pick_from (match best with None => Some (d, v) | Some (b, _) => if Rlt_dec b d then Some (d, v) else best end) l
  end.
Definition pick_max_det (tr : traits) (patch : list view) : option (list R) :=
  do b <- pick_from None patch; match b with None => Some (eye9 (iso tr)) | Some (_, v) => absH_to_M tr (absH v) end.
(** geom_mean_M, adapt_mesh.cpp:411-431, with only_nonsing = true *)
Fixpoint sum_logs (tr : traits) (l : list view) (st : list R * nat) : option (list R * nat) :=
  match l with
  | [] => Some st
  | v :: l => if degen v then sum_logs tr l st else
      do M <- absH_to_M tr (absH v); do L <- matrix_log M; do A <- dense_add (fst st) L; sum_logs tr l (A, S (snd st))
  end.
Definition geom_mean (tr : traits) (patch : list view) : option (list R) :=
  do (A, n) <- sum_logs tr patch (zero9, O);
  if (n =? 0)%nat then Some (eye9 (iso tr)) else do A <- dense_scale A (1 / INR n); matrix_exp A.
(** project_all_degenerate, adapt_mesh.cpp:434-473 *)
Fixpoint pick_rank (t : R) (best : option (nat * R * view)) (l : list view) : option (nat * R * view) :=
  match l with
  | [] => best
  | v :: l => let n := count_above t (sv v) in let p := prod_above t (sv v) in
      pick_rank t (match best with None => Some (n, p, v) | Some (bn, bp, _) => if (bn <? n)%nat then Some (n, p, v) else if (n =? bn)%nat then if Rlt_dec bp p then Some (n, p, v) else best else best end) l
  end.
Definition weighted (patch : list view) : option (R * R) :=
  fold_left (fun st v => do (c, w) <- st; do s <- rd (sv v) 2; Some (if Rlt_dec ke s then (c + vvol v * s, w + vvol v) else (c, w))) patch (Some (0, 0)).
Definition all_degenerate (tr : traits) (any : bool) (patch : list view) : option (list R) :=
  match pick_rank (lam_min tr) None patch with
  | Some (S _, _, v) => do A <- lift_zero (lam_min tr) (absH v); absH_to_M tr A
  | _ => if negb any then Some (eye9 (iso tr)) else do (c, w) <- weighted patch; Some (eye9 (if Rlt_dec 0 w then c / w else iso tr))
  end.
(** the node loop, adapt_mesh.cpp:788-821, for the cells of the node that are not hidden; [m] is the array of the node *)
Definition raw_metric (tr : traits) (any : bool) (patch : list view) : option (list R) :=
  match patch with
  | [] => Some (eye9 (iso tr))
  | _ => if existsb (fun v => negb (degen v)) patch then if (strategy tr =? 0)%nat then pick_max_det tr patch else geom_mean tr patch
         else all_degenerate tr any patch
  end.
Definition node_metric (tr : traits) (any : bool) (patch : list view) (m : list R) : option (list R) :=
  do M <- raw_metric tr any patch; do (_, M) <- clamp_spectrum tr M; dense_to_voigt M m.

(** the cell loop, adapt_mesh.cpp:655-751: |H|, its spectrum and the flag *)
Definition sum_abs (d : list R) : R := fold_left (fun s x => s + Rabs x) d 0.
Definition eval_absH (tr : traits) (nfa : nat) (c : cell) (B d : list R) : option (list R * list R) :=
  do al <- fill_alpha (heur tr) nfa B d (sum_abs d);
  do H <- compute_H2 nfa c (map (fun a => - (1 / 2) * a) al);
  spectral_abs H.
Fixpoint arg_max (l : list R) (k imax : nat) (amax : R) : nat :=
  match l with [] => imax | x :: l => if Rlt_dec amax (Rabs x) then arg_max l (S k) k (Rabs x) else arg_max l (S k) imax amax end.
Definition cell_H (tr : traits) (nfa : nat) (c : cell) : option (list R * list R * bool) :=
  let d := c_d c in
  if Rlt_dec 0 (sum_abs d) then
    let B := if Rlt_dec 0 (c_vol c) then map (fun b => b * (1 / c_vol c)) (c_B c) else c_B c in
    do (A, s) <- eval_absH tr nfa c B d;
    do dg <- h2_degenerate tr s;
    if dg : bool then
      do d0 <- rd d 0;
      let im := arg_max (tl d) 1 0 (Rabs d0) in
      do x <- rd d im; do d1 <- wr d im (x * boost tr);
      do (A1, s1) <- eval_absH tr nfa c B d1;
      do dg1 <- h2_degenerate tr s1;
      Some (if dg1 : bool then (A, s, true) else (A1, s1, false))
    else Some (A, s, false)
  else Some (zero9, [0; 0; 0], true).
(** the cells of all processes after the exchange of the tag, then the nodes; a node is the list of its cells and its array.
    Neither threads nor processes share anything but the flag any_nonzero_H, adapt_mesh.cpp:742-743, 764-769, 777 *)
Fixpoint all_some {A} (l : list (option A)) : option (list A) :=
  match l with [] => Some [] | x :: l => do x <- x; do l <- all_some l; Some (x :: l) end.
Definition stored (tr : traits) (nfa : nat) (c : cell) : option (list R) := do (A, s, dg) <- cell_H tr nfa c; store_H A s dg (repeat 0 10).
Definition nonzero (m : list R) : option bool := do s <- rd m 8; Some (gt s ke).
Definition construct (tr : traits) (nfa : nat) (cells : list cell) (nodes : list (list nat * list R)) : option (list (list R)) :=
  do ms <- all_some (map (stored tr nfa) cells);
  do nz <- all_some (map nonzero ms);
  let any := existsb (fun b => b) nz in
  all_some (map (fun n : list nat * list R =>
    do patch <- all_some (map (fun i => do m <- rd ms i; do c <- rd cells i; load (c_vol c) m) (fst n));
    node_metric tr any patch (snd n)) nodes).
End Num.
