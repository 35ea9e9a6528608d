(** * ScalarF: IEEE binary64 instance of [Scalar] over Coq primitive floats

    Used to replay /repo's unit tests against the model and for witnesses that
    depend on NaN/infinity/rounding.  Every operation except [powf] is the IEEE
    operation; [fpow] is an approximation (exp/ln by series, relative error
    about 1e-12) because primitive floats have no pow; no theorem depends on
    its value beyond the concrete computations shown. *)
Require Import Floats.
Require Import Verif.Base Verif.Scalar.
Open Scope float_scope.

Definition f_isnan (x : float) : bool := negb (x =? x).

(** [f64::max]/[f64::min]: a NaN argument is ignored. *)
Definition fmax (x y : float) : float :=
  if f_isnan x then y else if f_isnan y then x else if x <? y then y else x.
Definition fmin (x y : float) : float :=
  if f_isnan x then y else if f_isnan y then x else if y <? x then y else x.

(** [f64::signum]. *)
Definition fsignum (x : float) : float :=
  if f_isnan x then x
  else if x <? 0 then -1
  else if 0 <? x then 1
  else if 1 / x <? 0 then -1 else 1.

Fixpoint fofnat (n : nat) : float :=
  match n with O => 0 | S k => fofnat k + 1 end.

Definition ln2 : float := 0.69314718055994530942.

Fixpoint horner_atanh (cnt : nat) (d : float) (s2 acc : float) : float :=
  match cnt with
  | O => acc
  | S k => horner_atanh k (d - 2) s2 (acc * s2 + 1 / (d - 2))
  end.

Fixpoint fexp_of_Z (cnt : nat) (e : float) (x : float) : float * float :=
  (* scale x into [0.5,1) by doubling/halving, counting the exponent *)
  match cnt with
  | O => (e, x)
  | S k => if x <? 0.5 then fexp_of_Z k (e - 1) (x * 2)
           else if 1 <=? x then fexp_of_Z k (e + 1) (x * 0.5)
           else (e, x)
  end.

Definition fln (x : float) : float :=
  let '(e, m) := fexp_of_Z 1100 0 x in
  let s := (m - 1) / (m + 1) in
  let s2 := s * s in
  e * ln2 + 2 * s * horner_atanh 30 61 s2 0.

Fixpoint horner_exp (cnt : nat) (k : float) (x acc : float) : float :=
  match cnt with
  | O => acc
  | S c => horner_exp c (k - 1) x (1 + x / k * acc)
  end.

Fixpoint sqr_n (n : nat) (x : float) : float :=
  match n with O => x | S k => sqr_n k (x * x) end.

Definition fexp (x : float) : float := sqr_n 6 (horner_exp 25 25 (x / 64) 1).

Definition fpow (x y : float) : float :=
  if f_isnan x then x else
  if x <? 0 then nan else
  if x =? 0 then (if 0 <? y then 0 else infinity) else
  fexp (y * fln x).

#[global] Instance ScalarF : Scalar float := {|
  szero := 0; sone := 1;
  sadd := PrimFloat.add; ssub := PrimFloat.sub; smul := PrimFloat.mul; sdiv := PrimFloat.div;
  sneg := PrimFloat.opp; sabs := PrimFloat.abs; ssqrt := PrimFloat.sqrt; spowf := fpow;
  smax := fmax; smin := fmin; ssignum := fsignum;
  sltb := PrimFloat.ltb; sleb := PrimFloat.leb; seqb := PrimFloat.eqb;
  sofnat := fofnat;
  seps := 0x1p-52;
  shalf := 0.5; squarter := 0.25; stwo := 2; sfour := 4; sfive := 5; sten := 10;
  stwenty := 20; shundred := 100; spt9 := 0.9; spt1 := 0.1; spt05 := 0.05;
  spt001 := 0.001; spt0001 := 0.0001;
  sepcon := 0.33; sratemax := 0.9; sxrate_lo := (1 - 0.25) / (1 + 0.25)
|}.
