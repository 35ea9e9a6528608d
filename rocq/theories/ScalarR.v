(** * ScalarR: exact real arithmetic instance of [Scalar]

    [seps] is the f64 machine epsilon 2^-52 as a real number; the decimal
    constants are the exact decimals (the f64 values are their roundings). *)
Require Import Reals Lra.
Require Import Verif.Base Verif.Scalar.
Open Scope R_scope.

Definition Rltb (x y : R) : bool := if Rlt_dec x y then true else false.
Definition Rleb (x y : R) : bool := if Rle_dec x y then true else false.
Definition Reqb (x y : R) : bool := if Req_EM_T x y then true else false.

(** Rust's [signum] at zero is the sign of the zero; exact reals have a single
    (positive) zero. *)
Definition Rsignum (x : R) : R := if Rlt_dec x 0 then -1 else 1.

(** [powf] for a positive base is exp(y ln x); a zero base gives 0 (the code
    only raises zero to positive powers); negative bases do not occur (bases are
    norms or norms plus a positive constant). *)
Definition Rpowf (x y : R) : R := if Rlt_dec 0 x then Rpower x y else 0.

#[global] Instance ScalarR : Scalar R := {|
  szero := 0; sone := 1;
  sadd := Rplus; ssub := Rminus; smul := Rmult; sdiv := Rdiv;
  sneg := Ropp; sabs := Rabs; ssqrt := sqrt; spowf := Rpowf;
  smax := Rmax; smin := Rmin; ssignum := Rsignum;
  sltb := Rltb; sleb := Rleb; seqb := Reqb;
  sofnat := INR;
  seps := / 4503599627370496;
  shalf := / 2; squarter := / 4; stwo := 2; sfour := 4; sfive := 5; sten := 10;
  stwenty := 20; shundred := 100; spt9 := 9 / 10; spt1 := / 10; spt05 := / 20;
  spt001 := / 1000; spt0001 := / 10000;
  sepcon := 33 / 100; sratemax := 9 / 10; sxrate_lo := 6 / 10
|}.

Lemma Rltb_true x y : Rltb x y = true <-> x < y.
Proof. unfold Rltb; destruct (Rlt_dec x y); split; intros; (congruence || tauto). Qed.
Lemma Rltb_false x y : Rltb x y = false <-> y <= x.
Proof. unfold Rltb; destruct (Rlt_dec x y); split; intros; try congruence; lra. Qed.
Lemma Rleb_true x y : Rleb x y = true <-> x <= y.
Proof. unfold Rleb; destruct (Rle_dec x y); split; intros; (congruence || tauto). Qed.
Lemma Rleb_false x y : Rleb x y = false <-> y < x.
Proof. unfold Rleb; destruct (Rle_dec x y); split; intros; try congruence; lra. Qed.
Lemma Reqb_true x y : Reqb x y = true <-> x = y.
Proof. unfold Reqb; destruct (Req_EM_T x y); split; intros; (congruence || tauto). Qed.
Lemma Reqb_false x y : Reqb x y = false <-> x <> y.
Proof. unfold Reqb; destruct (Req_EM_T x y); split; intros; (congruence || tauto). Qed.
