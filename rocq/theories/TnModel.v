(** Model of anifem++/autodiff/physical_tensors.{h,inl} and physical_tensors_3d.inl:
    the algebra of stored tensors.  Doubles are reals.  m_dat is the list of the
    stored elements; the positions of elements (continuous_index, index) are those
    of AdModel. *)
From Coq Require Import Reals.
From Verif Require Import Prelude RSum AdModel.
Open Scope R_scope.

(** for (i = lo; i < lo + n; ++i) v += f(i) *)
Definition sum_from (lo n : nat) (f : nat -> option R) (v : R) : option R :=
  for_range lo n (fun i v => do x <- f i; Some (v + x)) v.

(** *** Tensors of every size N *)

(** SymMtx<N>::operator()(i, j): physical_tensors.h:142-143 *)
Definition sym_rd (N : nat) (m : list R) (i j : nat) : option R := rd m (sym_cont N i j).
Definition sym_wr (N : nat) (m : list R) (i j : nat) (v : R) : option (list R) := wr m (sym_cont N i j) v.
(** PhysMtx<N>::operator()(i, j): physical_tensors.h:199-200 *)
Definition mtx_rd (N : nat) (m : list R) (i j : nat) : option R := rd m (N * i + j).
Definition mtx_wr (N : nat) (m : list R) (i j : nat) (v : R) : option (list R) := wr m (N * i + j) v.
(** Tensor4Rank<N>::operator(): physical_tensors.h:258-259 *)
Definition ten_rd (N : nat) (m : list R) (i j k l : nat) : option R := rd m (l + N * (k + N * (j + N * i))).
Definition ten_wr (N : nat) (m : list R) (i j k l : nat) (v : R) : option (list R) := wr m (l + N * (k + N * (j + N * i))) v.
(** SymTensor4Rank<N>, BiSymTensor4Rank<N>::operator(): physical_tensors.h:369-370, 505-506 *)
Definition t4_rd (N : nat) (m : list R) (i j k l : nat) : option R := rd m (t4_cont N i j k l).
Definition bi_rd (N : nat) (m : list R) (i j k l : nat) : option R := rd m (bi_cont N i j k l).
Definition t4_wr (N : nat) (m : list R) (i j k l : nat) (v : R) : option (list R) := wr m (t4_cont N i j k l) v.
Definition bi_wr (N : nat) (m : list R) (i j k l : nat) (v : R) : option (list R) := wr m (bi_cont N i j k l) v.

Definition zeros (n : nat) : list R := repeat 0 n.
Definition tri_size (N : nat) : nat := (N * (N + 1) / 2)%nat.

(** SymMtx<N>::index_duplication: physical_tensors.h:82 *)
Definition sym_dup (N c : nat) : option nat :=
  do (im, jm) <- sym_map N; do i <- rd im c; do j <- rd jm c; Some (if (i =? j)%nat then 1 else 2)%nat.
(** SymTensor4Rank<N>::index_duplication: physical_tensors.h:314 *)
Definition t4_dup (N c : nat) : option nat := sym_dup (N * N) c.
(** BiSymTensor4Rank<N>::index_duplication: physical_tensors.h:445-451 *)
Definition bi_dup (N c : nat) : option nat :=
  do d <- sym_dup (tri_size N) c;
  do q <- sym_index (tri_size N) c;
  do di <- sym_dup N (fst q);
  do dj <- sym_dup N (snd q);
  Some (d * di * dj)%nat.

(** internal::Dot: physical_tensors.inl:62-67; internal::SquareFrobNorm (55-60) is it with a = b *)
Definition dot_dup (size : nat) (dup : nat -> option nat) (a b : list R) : option R :=
  sum_from 0 size (fun i => do x <- rd a i; do y <- rd b i; do d <- dup i; Some (x * y * INR d)) 0.
Definition sym_dot (N : nat) := dot_dup (tri_size N) (sym_dup N).
Definition mtx_dot (N : nat) := dot_dup (N * N) (fun _ => Some 1%nat).
Definition t4_dot (N : nat) := dot_dup (tri_size (N * N)) (t4_dup N).
Definition bi_dot (N : nat) := dot_dup (tri_size (tri_size N)) (bi_dup N).

(** internal::Trace: physical_tensors.inl:48-53 *)
Definition trace (N : nat) (at_ : nat -> nat -> option R) : option R := sum_from 0 N (fun i => at_ i i) 0.
(** internal::Mul: physical_tensors.inl:68-75, for both kinds of matrices *)
Definition mul_vec (N : nat) (at_ : nat -> nat -> option R) (v : list R) : option (list R) :=
  for_ N (fun i r => for_ N (fun j r =>
    do x <- at_ i j; do y <- rd v j; do z <- rd r i; wr r i (z + x * y)) r) (zeros N).
(** PhysMtx<N>::Dot(f, s): physical_tensors.inl:282-289 *)
Definition mtx_form (N : nat) (m f s : list R) : option R :=
  for_ N (fun i r => sum_from 0 N (fun j =>
    do x <- mtx_rd N m i j; do a <- rd f i; do b <- rd s j; Some (x * a * b)) r) 0.
(** SymMtx<N>::Dot(f, s): physical_tensors.inl:290-298 *)
Definition sym_form (N : nat) (m f s : list R) : option R :=
  sum_from 0 (tri_size N) (fun c =>
    do x <- rd m c; do q <- sym_index N c; let (i, j) := q in
    do fi <- rd f i; do fj <- rd f j; do si <- rd s i; do sj <- rd s j;
    Some (x * (if (i =? j)%nat then fi * si else fi * sj + fj * si))) 0.
(** operator*(PhysMtx, PhysMtx), (PhysMtx, SymMtx), (SymMtx, PhysMtx): physical_tensors.inl:299-307, 542-559 *)
Definition mtx_mul (N : nat) (a b : nat -> nat -> option R) : option (list R) :=
  for_ N (fun i r => for_ N (fun j r => for_ N (fun k r =>
    do x <- a i k; do y <- b k j; do z <- mtx_rd N r i j; mtx_wr N r i j (z + x * y)) r) r) (zeros (N * N)).
(** SymMtx<N>::operator*(SymMtx): physical_tensors.inl:308-316 *)
Definition sym_mul (N : nat) (a b : list R) : option (list R) :=
  for_ N (fun i r => for_range i (N - i) (fun j r => for_ N (fun k r =>
    do x <- sym_rd N a i k; do y <- sym_rd N b j k; do z <- sym_rd N r i j; sym_wr N r i j (z + x * y)) r) r)
    (zeros (tri_size N)).

(** PhysMtx(SymMtx): physical_tensors.inl:21-25 *)
Definition sym_to_mtx (N : nat) (s : list R) : option (list R) :=
  for_ N (fun i m => for_range i (N - i) (fun j m =>
    do v <- sym_rd N s i j; do m <- wr m (N * j + i) v; wr m (N * i + j) v) m) (zeros (N * N)).
(** PhysMtx(src, false), also Transpose: physical_tensors.inl:16-18, h:222 *)
Definition transposed (N : nat) (src : list R) : option (list R) :=
  for_ N (fun i m => for_ N (fun j m => do v <- rd src (i + N * j); wr m (N * i + j) v) m) (zeros (N * N)).
(** SymMtx(arr, false): physical_tensors.inl:31-34 *)
Definition sym_of_lower (N : nat) (src : list R) : option (list R) :=
  for_ N (fun i m => for_ (i + 1) (fun j m =>
    do v <- rd src (i * (i + 1) / 2 + j); wr m ((2 * N - 1 - j) * j / 2 + i) v) m) (zeros (tri_size N)).
(** for (it = r.begin(); ...) { q = it.index(); *it = g(q.i, q.j); } *)
Definition sym_fill (N : nat) (g : nat -> nat -> option R) : option (list R) :=
  for_ (tri_size N) (fun c r => do q <- sym_index N c; do v <- g (fst q) (snd q); wr r c v) (zeros (tri_size N)).
(** PhysMtx<N>::Sym: physical_tensors.inl:38-45 *)
Definition sym_part (N : nat) (m : list R) : option (list R) :=
  sym_fill N (fun i j => do x <- mtx_rd N m i j; do y <- mtx_rd N m j i; Some ((x + y) / 2)).
(** tensor_convert<SymMtx>(PhysMtx): physical_tensors.inl:87-94 *)
Definition mtx_to_sym (N : nat) (m : list R) : option (list R) := sym_fill N (mtx_rd N m).
(** SymMtx<N>::TensorSquare, TensorSymMul2: physical_tensors.inl:409-426 *)
Definition sym_square (N : nat) (s : list R) : option (list R) :=
  sym_fill N (fun i j => do x <- rd s i; do y <- rd s j; Some (x * y)).
Definition sym_sym2 (N : nat) (f s : list R) : option (list R) :=
  sym_fill N (fun i j => do fi <- rd f i; do fj <- rd f j; do si <- rd s i; do sj <- rd s j; Some (fi * sj + fj * si)).

(** *** Determinants of every size: physical_tensors.inl:329-358 (PhysMtx) and 361-391 (SymMtx).
    [at_], [put] are operator(); [lo i] is the first column that is updated: 0 and i.
    row_visited[r] != NOT_VISITED is kept as a boolean.  std::max_element and std::abs are their
    specified results; numeric_limits<double>::epsilon() is 2^-52 *)
Definition max_abs (m : list R) : R := fold_right (fun x v => Rmax (Rabs x) v) 0 m.
Definition det_eps (m : list R) : R := 100 * max_abs m * / 2 ^ 52.

(** the while loop of lines 344-348: from row r with sign; None is `return FT()` *)
Fixpoint find_row (fuel N : nat) (at_ : nat -> option R) (visited : list bool) (eps : R) (r : nat) (sign : R) : option (option (nat * R)) :=
  do v <- rd visited r; do x <- at_ r;
  if v then
    if (r =? N - 1)%nat then Some None
    else match fuel with O => None | S fuel' => find_row fuel' N at_ visited eps (r + 1) sign end
  else if Rlt_dec (Rabs x) eps then
    if (r =? N - 1)%nat then Some None
    else match fuel with O => None | S fuel' => find_row fuel' N at_ visited eps (r + 1) (- sign) end
  else Some (Some (r, sign)).

Section Det.
Variable N : nat.
Variable at_ : list R -> nat -> nat -> option R.
Variable put : list R -> nat -> nat -> R -> option (list R).
Variable lo : nat -> nat.

Definition eliminate (eps : R) (r d : nat) (visited : list bool) (A : list R) : option (list R) :=
  for_ N (fun i A =>
    do v <- rd visited i;
    if v then Some A else
      do x <- at_ A i d; do p <- at_ A r d;
      let coef := x / p in
      if Rlt_dec eps (Rabs coef) then
        for_range (lo i) (N - lo i) (fun j A => do a <- at_ A i j; do b <- at_ A r j; put A i j (a - coef * b)) A
      else Some A) A.
Definition det_step (eps : R) (d : nat) (s : option (list R * list bool * R)) : option (option (list R * list bool * R)) :=
  match s with
  | None => Some None
  | Some (A, visited, ret) =>
      do q <- find_row N N (fun r => at_ A r d) visited eps 0 1;
      match q with
      | None => Some None
      | Some (r, sign) =>
          do visited <- wr visited r true;
          do p <- at_ A r d;
          do A <- eliminate eps r d visited A;
          Some (Some (A, visited, ret * (sign * p)))
      end
  end.
Definition det_gen (m : list R) : option R :=
  do s <- for_ N (det_step (det_eps m)) (Some (m, repeat false N, 1));
  Some (match s with None => 0 | Some (_, _, ret) => ret end).
End Det.
Definition mtx_det (N : nat) (m : list R) : option R := det_gen N (mtx_rd N) (mtx_wr N) (fun _ => 0%nat) m.
Definition sym_det (N : nat) (m : list R) : option R := det_gen N (sym_rd N) (sym_wr N) (fun i => i) m.

(** static_cast<char> of a position, char being signed and of 8 bits: physical_tensors.h:110-111, 338-339, 474-475 *)
Definition to_char (c : nat) : Z := ((Z.of_nat c + 128) mod 256 - 128)%Z.
(** mtx_iterator::operator-: physical_tensors.h:111 *)
Definition it_diff (a b : nat) : Z := (to_char a - to_char b)%Z.

(** *** Tensors of size 3 (physical_tensors_3d.inl).  All positions are constants below the size *)

Definition at2 (m : list R) (i j : nat) : R := nth (sym3_cont i j) m 0.
Definition mt2 (m : list R) (i j : nat) : R := nth (3 * i + j) m 0.
Definition at4 (m : list R) (i j k l : nat) : R := nth (bi3_cont i j k l) m 0.
Fixpoint set_at (m : list R) (c : nat) (v : R) : list R :=
  match m, c with [], _ => [] | _ :: r, O => v :: r | x :: r, S c' => x :: set_at r c' v end.
Definition put2 (m : list R) (i j : nat) (v : R) := set_at m (sym3_cont i j) v.
Definition pmt2 (m : list R) (i j : nat) (v : R) := set_at m (3 * i + j) v.
Definition put4 (m : list R) (i j k l : nat) (v : R) := set_at m (bi3_cont i j k l) v.
Definition loop {S} (lo n : nat) (f : nat -> S -> S) (s : S) : S := fold_left (fun s i => f i s) (seq lo n) s.
Definition z6 := zeros 6.
Definition z9 := zeros 9.
Definition z21 := zeros 21.
Notation "m .[ i ]" := (nth i m 0) (at level 1, format "m .[ i ]").

(** SymMtx<3>: physical_tensors_3d.inl:142-232 *)
Definition det_s (a : list R) : R :=
  a.[0]*a.[3]*a.[5] + 2 * a.[1]*a.[2]*a.[4] - (a.[1]*a.[1]*a.[5] + a.[2]*a.[2]*a.[3] + a.[4]*a.[4]*a.[0]).
Definition trace_s (a : list R) : R := a.[0] + a.[3] + a.[5].
Definition frob_s (a : list R) : R := a.[0]*a.[0]+a.[3]*a.[3]+a.[5]*a.[5] + 2 * (a.[1]*a.[1] + a.[2]*a.[2] + a.[4]*a.[4]).
Definition adj_s (a : list R) : list R :=
  let m := at2 a in
  let r := put2 z6 0 0 (m 1%nat 1%nat * m 2%nat 2%nat - m 1%nat 2%nat * m 1%nat 2%nat) in
  let r := put2 r 0 1 (m 1%nat 2%nat * m 2%nat 0%nat - m 1%nat 0%nat * m 2%nat 2%nat) in
  let r := put2 r 0 2 (m 1%nat 0%nat * m 1%nat 2%nat - m 1%nat 1%nat * m 2%nat 0%nat) in
  let r := put2 r 1 1 (m 2%nat 2%nat * m 0%nat 0%nat - m 2%nat 0%nat * m 2%nat 0%nat) in
  let r := put2 r 1 2 (m 2%nat 0%nat * m 1%nat 0%nat - m 1%nat 2%nat * m 0%nat 0%nat) in
  put2 r 2 2 (m 0%nat 0%nat * m 1%nat 1%nat - m 0%nat 1%nat * m 0%nat 1%nat).
Definition inv_s (a : list R) : list R :=
  let m := at2 a in
  let r := adj_s a in
  let det := m 0%nat 0%nat * at2 r 0 0 + m 0%nat 1%nat * at2 r 0 1 + m 0%nat 2%nat * at2 r 0 2 in
  loop 0 6 (fun i r => set_at r i (r.[i] / det)) r.
Definition mul_s (a v : list R) : list R :=
  let m := at2 a in
  [m 0%nat 0%nat * v.[0] + m 0%nat 1%nat * v.[1] + m 0%nat 2%nat * v.[2];
   m 1%nat 0%nat * v.[0] + m 1%nat 1%nat * v.[1] + m 1%nat 2%nat * v.[2];
   m 2%nat 0%nat * v.[0] + m 2%nat 1%nat * v.[1] + m 2%nat 2%nat * v.[2]].
Definition dot_s (a b : list R) : R :=
  a.[0]*b.[0]+a.[3]*b.[3]+a.[5]*b.[5] + 2 * (a.[1]*b.[1] + a.[2]*b.[2] + a.[4]*b.[4]).
Definition form_s (a f s : list R) : R :=
  a.[0]*f.[0]*s.[0] + a.[3]*f.[1]*s.[1] + a.[5]*f.[2]*s.[2]
  + a.[1]*(f.[1]*s.[0] + f.[0]*s.[1]) + a.[2]*(f.[2]*s.[0] + f.[0]*s.[2]) + a.[4]*(f.[2]*s.[1] + f.[1]*s.[2]).
(** Identity: 119 *)
Definition id_s (v : R) : list R := set_at (set_at (set_at z6 5 v) 3 v) 0 v.
(** operator*: 204-215, this = b *)
Definition prod_s (b a : list R) : list R :=
  let e i j := at2 b i 0 * at2 a 0 j + at2 b i 1 * at2 a 1 j + at2 b i 2 * at2 a 2 j in
  let r := put2 z6 0 0 (e 0 0)%nat in let r := put2 r 1 0 (e 1 0)%nat in let r := put2 r 1 1 (e 1 1)%nat in
  let r := put2 r 2 0 (e 2 0)%nat in let r := put2 r 2 1 (e 2 1)%nat in put2 r 2 2 (e 2 2)%nat.
(** TensorSymMul2: 217-223; TensorSquare: 225-232 *)
Definition sym2_s (f s : list R) : list R :=
  [2*f.[0]*s.[0]; f.[1]*s.[0] + f.[0]*s.[1]; f.[2]*s.[0] + f.[0]*s.[2];
   2*f.[1]*s.[1]; f.[1]*s.[2] + f.[2]*s.[1]; 2*f.[2]*s.[2]].
Definition square_s (s : list R) : list R := map (fun q => nth (fst q) s 0 * nth (snd q) s 0) sym3_ids.
(** operators of lines 125-134 are vadd, vsub, vneg, vscale, vdiv of AdModel *)

(** PhysMtx<3>: physical_tensors_3d.inl:276, 299-420 *)
Definition id_m (v : R) : list R := loop 0 3 (fun i r => pmt2 r i i v) z9.
Definition trans_m (src : list R) : list R := loop 0 3 (fun i m => loop 0 3 (fun j m => set_at m (3 * i + j) (nth (i + 3 * j) src 0)) m) z9.
Definition of_sym_m (r : list R) : list R :=
  loop 0 3 (fun i m => loop i (3 - i) (fun j m => set_at (set_at m (3 * j + i) (at2 r i j)) (3 * i + j) (at2 r i j)) m) z9.
Definition sym_m (m : list R) : list R := map (fun q => (mt2 m (fst q) (snd q) + mt2 m (snd q) (fst q)) / 2) sym3_ids.
Definition trace_m (m : list R) : R := mt2 m 0 0 + mt2 m 1 1 + mt2 m 2 2.
Definition minor_a (m : list R) := mt2 m 1 1 * mt2 m 2 2 - mt2 m 1 2 * mt2 m 2 1.
Definition minor_b (m : list R) := mt2 m 1 2 * mt2 m 2 0 - mt2 m 1 0 * mt2 m 2 2.
Definition minor_c (m : list R) := mt2 m 1 0 * mt2 m 2 1 - mt2 m 1 1 * mt2 m 2 0.
Definition det_m (m : list R) : R := mt2 m 0 0 * minor_a m + mt2 m 0 1 * minor_b m + mt2 m 0 2 * minor_c m.
Definition frob_m (m : list R) : R := loop 0 9 (fun i r => r + m.[i] * m.[i]) 0.
Definition cofactor (m : list R) (i j : nat) : R :=
  mt2 m ((i + 1) mod 3) ((j + 1) mod 3) * mt2 m ((i + 2) mod 3) ((j + 2) mod 3) -
  mt2 m ((i + 1) mod 3) ((j + 2) mod 3) * mt2 m ((i + 2) mod 3) ((j + 1) mod 3).
Definition adj_m (m : list R) : list R := loop 0 3 (fun i r => loop 0 3 (fun j r => pmt2 r j i (cofactor m i j)) r) z9.
Definition inv_m (m : list R) : list R :=
  let det := det_m m in
  let r := pmt2 (pmt2 (pmt2 z9 0 0 (minor_a m / det)) 1 0 (minor_b m / det)) 2 0 (minor_c m / det) in
  loop 1 2 (fun i r => loop 0 3 (fun j r => pmt2 r j i (cofactor m i j / det)) r) r.
Definition mul_m (m v : list R) : list R := loop 0 3 (fun i r => set_at r i (mt2 m i 0 * v.[0] + mt2 m i 1 * v.[1] + mt2 m i 2 * v.[2])) (zeros 3).
Definition dot_m (a b : list R) : R := loop 0 9 (fun i r => r + a.[i] * b.[i]) 0.
Definition form_m (m f s : list R) : R := loop 0 3 (fun i r => loop 0 3 (fun j r => r + f.[i] * s.[j] * mt2 m i j) r) 0.
Definition prod_m (m a : list R) : list R :=
  loop 0 3 (fun i r => loop 0 3 (fun j r => pmt2 r i j (mt2 m i 0 * mt2 a 0 j + mt2 m i 1 * mt2 a 1 j + mt2 m i 2 * mt2 a 2 j)) r) z9.
Definition square_m (s : list R) : list R :=
  loop 0 3 (fun i r => loop i (3 - i) (fun j r => pmt2 (pmt2 r j i (s.[i] * s.[j])) i j (s.[i] * s.[j])) r) z9.
Definition sym2_m (f s : list R) : list R :=
  loop 0 3 (fun i r => loop i (3 - i) (fun j r =>
    let v := f.[i] * s.[j] + f.[j] * s.[i] in pmt2 (pmt2 r j i v) i j v) r) z9.

(** operator*(PhysMtx, SymMtx), operator+(PhysMtx, SymMtx) with N = 3: physical_tensors.inl:542-550, 560-569;
    operator+(SymMtx, PhysMtx): 570-571 *)
Definition prod_ms (a b : list R) : list R :=
  loop 0 3 (fun i r => loop 0 3 (fun j r => loop 0 3 (fun k r => pmt2 r i j (mt2 r i j + mt2 a i k * at2 b k j)) r) r) z9.
Definition add_ms (a b : list R) : list R :=
  loop 0 6 (fun q r => let (i, j) := nth q sym3_ids (0%nat, 0%nat) in
    let r := pmt2 r i j (mt2 a i j + b.[q]) in
    if (j =? i)%nat then r else pmt2 r j i (mt2 a j i + b.[q])) z9.

(** BiSymTensor4Rank<3>: physical_tensors_3d.inl:459-469, 551-590 *)
Definition bi3_dup : list nat := [1; 4; 4; 2; 4; 2; 4; 8; 4; 8; 4; 4; 4; 8; 4; 1; 4; 2; 4; 4; 1]%nat.
Definition dot_b (a b : list R) : R := loop 0 21 (fun i v => v + a.[i] * b.[i] * INR (nth i bi3_dup 0%nat)) 0.
Definition frob_b (a : list R) : R := loop 0 21 (fun i v => v + a.[i] * a.[i] * INR (nth i bi3_dup 0%nat)) 0.
Definition square_b (s : list R) : list R := map (fun q : idx4 => let '(i, j, k, l) := q in at2 s i j * at2 s k l) bi3_ids.
Definition sym2_b (f s : list R) : list R :=
  map (fun q : idx4 => let '(i, j, k, l) := q in at2 f i j * at2 s k l + at2 s i j * at2 f k l) bi3_ids.
Definition id_b (v : R) : list R :=
  let r := put4 z21 2 2 2 2 v in let r := put4 r 1 1 1 1 v in let r := put4 r 0 0 0 0 v in
  let r := put4 r 1 2 1 2 (v / 2) in let r := put4 r 0 2 0 2 (v / 2) in put4 r 0 1 0 1 (v / 2).
