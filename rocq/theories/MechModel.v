(** Model of anifem++/autodiff/cauchy_strain_invariants.{h,inl} and
    cauchy_strain_autodiff.h: strains, stresses, the invariants of the Cauchy-Green
    tensor and their derivatives.  Doubles are reals; tensors are the lists of their
    stored elements as in TnModel (size 3). *)
From Coq Require Import Reals.
From Verif Require Import Prelude AdModel TnModel.
Open Scope R_scope.

(** F_to_E: cauchy_strain_invariants.inl:12-21 *)
Definition F_to_E (F : list R) : list R :=
  let f := mt2 F in
  let E := loop 0 3 (fun i E => loop (i + 1) (3 - (i + 1)) (fun j E =>
    put2 E i j ((f 0%nat i * f 0%nat j + f 1%nat i * f 1%nat j + f 2%nat i * f 2%nat j) / 2)) E) z6 in
  loop 0 3 (fun i E => put2 E i i ((f 0%nat i * f 0%nat i + f 1%nat i * f 1%nat i + f 2%nat i * f 2%nat i - 1) / 2)) E.
(** grU_to_E: 22-29 *)
Definition grU_to_E (grU : list R) : list R :=
  let g := mt2 grU in
  loop 0 3 (fun i E => loop i (3 - i) (fun j E =>
    put2 E i j ((g i j + g j i + g 0%nat i * g 0%nat j + g 1%nat i * g 1%nat j + g 2%nat i * g 2%nat j) / 2)) E) z6.
(** F_and_dF_to_dE: 30-38 *)
Definition F_and_dF_to_dE (F dF : list R) : list R :=
  let f := mt2 F in let d := mt2 dF in
  loop 0 3 (fun i E => loop i (3 - i) (fun j E =>
    put2 E i j ((d 0%nat i * f 0%nat j + d 1%nat i * f 1%nat j + d 2%nat i * f 2%nat j
               + f 0%nat i * d 0%nat j + f 1%nat i * d 1%nat j + f 2%nat i * d 2%nat j) / 2)) E) z6.
(** grU_and_dgrU_to_dE: 39-48 *)
Definition grU_and_dgrU_to_dE (grU dgrU : list R) : list R :=
  let g := mt2 grU in let d := mt2 dgrU in
  loop 0 3 (fun i E => loop i (3 - i) (fun j E =>
    put2 E i j ((d i j + d j i
               + d 0%nat i * g 0%nat j + d 1%nat i * g 1%nat j + d 2%nat i * g 2%nat j
               + g 0%nat i * d 0%nat j + g 1%nat i * d 1%nat j + g 2%nat i * d 2%nat j) / 2)) E) z6.

(** S_to_P: cauchy_strain_invariants.h:36; S + grU * S is operator+(SymMtx, PhysMtx) *)
Definition S_to_P (grU S : list R) : list R := add_ms (prod_ms grU S) S.

(** elements of SymTensor4Rank<3>: physical_tensors.h:369-370 *)
Definition at45 (m : list R) (i j k l : nat) : R := nth (t4_cont 3 i j k l) m 0.
Definition put45 (m : list R) (i j k l : nat) (v : R) : list R := set_at m (t4_cont 3 i j k l) v.
(** dS_to_dP: cauchy_strain_invariants.inl:50-90 *)
Definition dS_to_dP (grU S dS : list R) : list R :=
  let F := mt2 (vadd (id_m 1) grU) in
  let t := at4 dS in
  let D := loop 0 3 (fun j D => loop j (3 - j) (fun l D =>
    loop 0 3 (fun i D => put45 D i j i l (at2 S l j)) D) D) (zeros 45) in
  let D := loop 0 3 (fun i D => loop 0 3 (fun j D =>
    put45 D i j i j (at45 D i j i j +
      (F i 0%nat * F i 0%nat * t 0%nat j 0%nat j + F i 1%nat * F i 1%nat * t 1%nat j 1%nat j + F i 2%nat * F i 2%nat * t 2%nat j 2%nat j
       + 2 * (F i 0%nat * F i 1%nat * t 0%nat j 1%nat j + F i 0%nat * F i 2%nat * t 0%nat j 2%nat j + F i 1%nat * F i 2%nat * t 1%nat j 2%nat j)))) D) D in
  loop 0 3 (fun i D => loop 0 3 (fun j D => loop (i + 3 * j + 1) (9 - (i + 3 * j + 1)) (fun kl D =>
    let k := (kl mod 3)%nat in let l := (kl / 3)%nat in
    let s := loop 0 3 (fun n s => loop 0 3 (fun m s => s + t n j m l * F i n * F k m) s) 0 in
    put45 D i j k l (at45 D i j k l + s)) D) D) D.

(** *** Invariants: cauchy_strain_invariants.h:42-134, inl:92-180 *)

(** SymMtx3D::Identity() + 2*E *)
Definition cauchy (E : list R) : list R := vadd (id_s 1) (vscale 2 E).

Definition C_I0fs (f s : list R) : R := f.[0] * s.[0] + f.[1] * s.[1] + f.[2] * s.[2].
Definition C_I1 (E : list R) : R := 3 + 2 * trace_s E.
Definition C_I1_dE : list R := id_s 2.
Definition C_I2 (E : list R) : R := let trE := trace_s E in 3 + 4 * trE + 2 * trE * trE - 2 * frob_s E.
Definition C_I2_dE (E : list R) : list R := vscale 4 (vsub (id_s (1 + trace_s E)) E).
Definition C_I2_ddE : list R :=
  let c := 4 in
  let r := put4 (put4 z21 0 0 1 1 c) 0 1 0 1 (- c / 2) in
  let r := put4 (put4 r 0 0 2 2 c) 0 2 0 2 (- c / 2) in
  put4 (put4 r 1 1 2 2 c) 1 2 1 2 (- c / 2).
Definition C_I3 (E : list R) : R := det_s (cauchy E).
Definition C_I3_dE (E : list R) : list R := vscale 2 (adj_s (cauchy E)).
Definition C_I3_ddE (E : list R) : list R :=
  let trE := trace_s E in let c := 4 in let e := at2 E in
  let r := put4 z21 0 0 1 1 (((1 + 2 * trE) - 2 * (e 1%nat 1%nat + e 0%nat 0%nat)) * c) in
  let r := put4 r 0 0 2 2 (((1 + 2 * trE) - 2 * (e 2%nat 2%nat + e 0%nat 0%nat)) * c) in
  let r := put4 r 1 1 2 2 (((1 + 2 * trE) - 2 * (e 2%nat 2%nat + e 1%nat 1%nat)) * c) in
  let r := put4 r 0 1 0 1 ((- (1 + 2 * trE) / 2 + (e 1%nat 1%nat + e 0%nat 0%nat)) * c) in
  let r := put4 r 0 2 0 2 ((- (1 + 2 * trE) / 2 + (e 2%nat 2%nat + e 0%nat 0%nat)) * c) in
  let r := put4 r 1 2 1 2 ((- (1 + 2 * trE) / 2 + (e 2%nat 2%nat + e 1%nat 1%nat)) * c) in
  let r := put4 r 0 1 1 2 (e 0%nat 2%nat * c) in
  let r := put4 r 0 1 0 2 (e 1%nat 2%nat * c) in
  let r := put4 r 0 2 1 2 (e 0%nat 1%nat * c) in
  let r := put4 r 0 0 1 2 (-2 * e 1%nat 2%nat * c) in
  let r := put4 r 0 2 1 1 (-2 * e 0%nat 2%nat * c) in
  put4 r 0 1 2 2 (-2 * e 0%nat 1%nat * c).
Definition C_J (E : list R) : R := sqrt (C_I3 E).
Definition C_J_dE (E : list R) : list R := vdiv (C_J E) (adj_s (cauchy E)).
Definition C_J_ddE (E : list R) : list R :=
  let Jv := C_J E in
  let t := adj_s (cauchy E) in
  vsub (vdiv (2 * Jv) (C_I3_ddE E)) (vdiv (Jv * Jv * Jv) (square_b t)).
Definition C_I4fs (E f s : list R) : R := form_s (cauchy E) f s.
Definition C_I4fs_dE (f s : list R) : list R :=
  let r := loop 0 3 (fun i r => put2 r i i (2 * f.[i] * s.[i])) z6 in
  loop 0 3 (fun i r => loop (i + 1) (3 - (i + 1)) (fun j r => put2 r i j (f.[i] * s.[j] + f.[j] * s.[i])) r) r.
Definition C_I5fs (E f s : list R) : R :=
  let Ef := mul_s E f in let Es := mul_s E s in
  (f.[0] + 2 * Ef.[0]) * (s.[0] + 2 * Es.[0]) + (f.[1] + 2 * Ef.[1]) * (s.[1] + 2 * Es.[1]) + (f.[2] + 2 * Ef.[2]) * (s.[2] + 2 * Es.[2]).
Definition C_I5fs_dE (E f s : list R) : list R :=
  let Ef := mul_s E f in let Es := mul_s E s in
  let Cf := map (fun i => f.[i] + 2 * Ef.[i]) (seq 0 3) in let Cs := map (fun i => s.[i] + 2 * Es.[i]) (seq 0 3) in
  loop 0 3 (fun i r => loop i (3 - i) (fun j r =>
    put2 r i j (Cf.[i] * s.[j] + Cf.[j] * s.[i] + f.[i] * Cs.[j] + f.[j] * Cs.[i])) r) z6.
Definition C_I5fs_ddE (f s : list R) : list R :=
  let fs := at2 (sym2_s f s) in
  let r := put4 z21 0 0 0 0 (4 * fs 0%nat 0%nat) in
  let r := put4 r 0 0 0 1 (2 * fs 0%nat 1%nat) in
  let r := put4 r 0 1 0 1 (fs 0%nat 0%nat + fs 1%nat 1%nat) in
  let r := put4 r 0 0 0 2 (2 * fs 0%nat 2%nat) in
  let r := put4 r 0 1 0 2 (fs 1%nat 2%nat) in
  let r := put4 r 0 2 0 2 (fs 0%nat 0%nat + fs 2%nat 2%nat) in
  let r := put4 r 0 1 1 1 (2 * fs 0%nat 1%nat) in
  let r := put4 r 1 1 1 1 (4 * fs 1%nat 1%nat) in
  let r := put4 r 0 1 1 2 (fs 0%nat 2%nat) in
  let r := put4 r 0 2 1 2 (fs 0%nat 1%nat) in
  let r := put4 r 1 1 1 2 (2 * fs 1%nat 2%nat) in
  let r := put4 r 1 2 1 2 (fs 1%nat 1%nat + fs 2%nat 2%nat) in
  let r := put4 r 0 2 2 2 (2 * fs 0%nat 2%nat) in
  let r := put4 r 1 2 2 2 (2 * fs 1%nat 2%nat) in
  put4 r 2 2 2 2 (4 * fs 2%nat 2%nat).

(** *** The variables Ani::Mech::I0fs, I1, ...: cauchy_strain_autodiff.h:17-206.
    The members m_d, m_dd are zero when not set; State gives the flags *)
Inductive invariant := I0fs (f s : list R) | I1 | I2 | I3 | Jdet | I4fs (f s : list R) | I5fs (f s : list R).
Definition on1 (numdif : nat) (d : list R) : list R := if (1 <=? numdif)%nat then d else z6.
Definition on2 (numdif : nat) (d : list R) : list R := if (2 <=? numdif)%nat then d else z21.
Definition leaf (numdif : nat) (E : list R) (i : invariant) : ad :=
  match i with
  | I0fs f s => Ad numdif (C_I0fs f s) z6 z21 false false
  | I1 => Ad numdif (C_I1 E) C_I1_dE z21 true false
  | I2 => Ad numdif (C_I2 E) (on1 numdif (C_I2_dE E)) C_I2_ddE true true
  | I3 => Ad numdif (C_I3 E) (on1 numdif (C_I3_dE E)) (on2 numdif (C_I3_ddE E)) true true
  | Jdet => Ad numdif (C_J E) (on1 numdif (C_J_dE E)) (on2 numdif (C_J_ddE E)) true true
  | I4fs f s => Ad numdif (C_I4fs E f s) (on1 numdif (C_I4fs_dE f s)) z21 true false
  | I5fs f s => Ad numdif (C_I5fs E f s) (on1 numdif (C_I5fs_dE E f s)) (on2 numdif (C_I5fs_ddE f s)) true true
  end.
