(** * Scalar: the arithmetic the Rust code is generic over

    /repo is generic over [num_traits::Float] (src/) resp.
    [nalgebra::RealField] (crates/).  The model takes the operations as a class
    without any laws, so a theorem proved for an arbitrary instance holds for
    IEEE binary64 (rounding, NaN, infinities) as well as for exact reals.

    Modelled: src/constants.rs 1-112 (constants), the Float methods used in
    src/*.rs and crates/*. *)
Require Import Verif.Base.

Class Scalar (T : Type) := {
  szero : T;  sone : T;
  sadd : T -> T -> T;  ssub : T -> T -> T;
  smul : T -> T -> T;  sdiv : T -> T -> T;
  sneg : T -> T;  sabs : T -> T;
  ssqrt : T -> T;
  spowf : T -> T -> T;            (* Float::powf *)
  smax : T -> T -> T;             (* Float::max: ignores a NaN argument *)
  smin : T -> T -> T;             (* Float::min *)
  ssignum : T -> T;               (* Float::signum: +1 at +0, -1 at -0 *)
  sltb : T -> T -> bool;          (* PartialOrd <, false on NaN *)
  sleb : T -> T -> bool;
  seqb : T -> T -> bool;
  sofnat : nat -> T;              (* NumCast::from(usize) *)
  seps : T;                       (* Float::epsilon() *)
  (* src/constants.rs 56-112 (impl IdaConst for f64) *)
  shalf : T; squarter : T; stwo : T; sfour : T; sfive : T; sten : T;
  stwenty : T; shundred : T; spt9 : T; spt1 : T; spt05 : T; spt001 : T;
  spt0001 : T;
  (* src/constants.rs 24, src/ida_nls.rs 15, src/lib.rs 805 *)
  sepcon : T;                     (* EPCON = 0.33 *)
  sratemax : T;                   (* RATEMAX = 0.9 *)
  sxrate_lo : T                   (* (1 - XRATE)/(1 + XRATE) = 0.6 *)
}.

Infix "+" := sadd : scalar_scope.
Infix "-" := ssub : scalar_scope.
Infix "*" := smul : scalar_scope.
Infix "/" := sdiv : scalar_scope.
Notation "- x" := (sneg x) : scalar_scope.
Infix "<?" := sltb (at level 70) : scalar_scope.
Infix "<=?" := sleb (at level 70) : scalar_scope.
Infix "=?" := seqb (at level 70) : scalar_scope.

(** [Float::recip] (num_traits / std: [1 / self]). *)
Definition srecip {T} `{Scalar T} (x : T) : T := (sone / x)%sc.

(** [x.powi(2)] (compiles to [x * x]). *)
Definition ssq {T} `{Scalar T} (x : T) : T := (x * x)%sc.

(** [!=] on floats. *)
Definition sneqb {T} `{Scalar T} (x y : T) : bool := negb (x =? y)%sc.
