(** * Samples: the sample problems of /repo

    Roberts (sample_problems/roberts.rs) over any scalar, given its decimal
    constants; the slider-crank (sample_problems/slider_crank.rs) over the real
    numbers because it uses sine and cosine. *)
Require Import List Arith Bool Reals.
Import ListNotations.
Require Import Verif.Base Verif.Scalar Verif.Norms Verif.IdaState.

Section Roberts.
Context {T : Type} `{Scalar T}.
(** 0.04, 1e4, 3e7, 6e7, 1e-4, 0.01. *)
Variables c004 c1e4 c3e7 c6e7 c1em4 c001 : T.

(** [Roberts::res], roberts.rs 46-63. *)
Definition roberts_res (_t : T) (y yp : list T) (i : nat) : T :=
  let y0 := vget y 0 in let y1 := vget y 1 in let y2 := vget y 2 in
  let r0 := ((- c004) * y0 + c1e4 * y1 * y2)%sc in
  match i with
  | 0 => (r0 - vget yp 0)%sc
  | 1 => (- r0 - c3e7 * y1 * y1 - vget yp 1)%sc
  | _ => (y0 + y1 + y2 - sone)%sc
  end.

(** [Roberts::jac], roberts.rs 65-90. *)
Definition roberts_jac (_t cj : T) (y _yp _r : list T) (i j : nat) : T :=
  let y1 := vget y 1 in let y2 := vget y 2 in
  match i, j with
  | 0, 0 => (- c004 - cj)%sc
  | 0, 1 => (c1e4 * y2)%sc
  | 0, _ => (c1e4 * y1)%sc
  | 1, 0 => c004
  | 1, 1 => ((- c1e4) * y2 - c6e7 * y1 - cj)%sc
  | 1, _ => ((- c1e4) * y1)%sc
  | _, _ => sone
  end.

(** [Roberts::root], roberts.rs 93-114. *)
Definition roberts_root (_t : T) (y _yp : list T) (i : nat) : T :=
  match i with
  | 0 => (vget y 0 - c1em4)%sc
  | _ => (vget y 2 - c001)%sc
  end.

Definition roberts : problem T := {|
  model_size := 3; num_roots := 2;
  p_res := roberts_res; p_jac := roberts_jac; p_root := roberts_root |}.
End Roberts.

Section SlCrank.
Open Scope R_scope.

(** [struct SlCrank], slider_crank.rs 25-43. *)
Record slcrank : Type := mkslcrank {
  sl_a : R; sl_J1 : R; sl_J2 : R; sl_m2 : R; sl_k : R; sl_c : R; sl_l0 : R; sl_F : R }.

(** [SlCrank::default], slider_crank.rs 83-96. *)
Definition slcrank_default : slcrank := mkslcrank (/2) 1 2 1 1 1 1 1.

Definition rget (v : list R) (i : nat) : R := nth i v 0.

(** Squared spring length, slider_crank.rs 66-67. *)
Definition sl_l2 (m : slcrank) (y : list R) : R :=
  let q := rget y 0 in let x := rget y 1 in let p := rget y 2 in
  let c21 := cos p * cos q + sin p * sin q in
  x * x - x * (cos p + sl_a m * cos q) + (1 + sl_a m * sl_a m) / 4 + sl_a m * c21 / 2.

(** Spring length and its rate, slider_crank.rs 68-71. *)
Definition sl_l (m : slcrank) (y : list R) : R := sqrt (sl_l2 m y).
Definition sl_ld (m : slcrank) (y : list R) : R :=
  let q := rget y 0 in let x := rget y 1 in let p := rget y 2 in
  let qd := rget y 3 in let xd := rget y 4 in let pd := rget y 5 in
  let s21 := sin p * cos q - cos p * sin q in
  (2 * x * xd - xd * (cos p + sl_a m * cos q) + x * (sin p * pd + sl_a m * sin q * qd)
   - sl_a m * s21 * (pd - qd) / 2) / (2 * sl_l m y).

(** [SlCrank::force], slider_crank.rs 45-80. *)
Definition sl_force (m : slcrank) (y : list R) (i : nat) : R :=
  let q := rget y 0 in let x := rget y 1 in let p := rget y 2 in
  let s21 := sin p * cos q - cos p * sin q in
  let f := sl_k m * (sl_l m y - sl_l0 m) + sl_c m * sl_ld m y in
  let fl := f / sl_l m y in
  match i with
  | 0%nat => - fl * sl_a m * (s21 / 2 + x * sin q) / 2
  | 1%nat => fl * (cos p / 2 - x + sl_a m * cos q / 2) + sl_F m
  | _ => - fl * (x * sin p - sl_a m * s21 / 2) / 2 - sl_F m * sin p
  end.

(** [SlCrank::res], slider_crank.rs 107-153. *)
Definition sl_res (m : slcrank) (_t : R) (y yp : list R) (i : nat) : R :=
  let q := rget y 0 in let x := rget y 1 in let p := rget y 2 in
  let qd := rget y 3 in let xd := rget y 4 in let pd := rget y 5 in
  let lam1 := rget y 6 in let lam2 := rget y 7 in
  let mu1 := rget y 8 in let mu2 := rget y 9 in
  let s1 := sin q in let c1 := cos q in let s2 := sin p in let c2 := cos p in
  match i with
  | 0%nat => rget yp 0 - qd + sl_a m * s1 * mu1 - sl_a m * c1 * mu2
  | 1%nat => rget yp 1 - xd + mu1
  | 2%nat => rget yp 2 - pd + s2 * mu1 - c2 * mu2
  | 3%nat => sl_J1 m * rget yp 3 - sl_force m y 0 + sl_a m * s1 * lam1 - sl_a m * c1 * lam2
  | 4%nat => sl_m2 m * rget yp 4 - sl_force m y 1 + lam1
  | 5%nat => sl_J2 m * rget yp 5 - sl_force m y 2 + s2 * lam1 - c2 * lam2
  | 6%nat => x - c2 - sl_a m * c1
  | 7%nat => - s2 - sl_a m * s1
  | 8%nat => sl_a m * s1 * qd + xd + s2 * pd
  | _ => - sl_a m * c1 * qd - c2 * pd
  end.
End SlCrank.
