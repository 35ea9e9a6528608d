(** * Norms: vectors, weighted RMS norms and tolerance control

    Models src/norm_rms.rs, crates/nonlinear/src/norm_wrms.rs and
    src/tol_control.rs. *)
Require Import List Arith Bool.
Import ListNotations.
Require Import Verif.Base Verif.Scalar.

Section Norms.
Context {T : Type} `{Scalar T}.

(** Element of a vector whose shape is fixed by construction; shapes never
    mismatch in the modelled code, so the default is never read for an index
    below the model size. *)
Definition vget (v : list T) (i : nat) : T := nth i v szero.

(** [&a + &b]. *)
Definition vadd (n : nat) (a b : list T) : list T :=
  vtab n (fun i => (vget a i + vget b i)%sc).
(** [&a - &b]. *)
Definition vsub (n : nat) (a b : list T) : list T :=
  vtab n (fun i => (vget a i - vget b i)%sc).
(** [v *= c]. *)
Definition vscale (n : nat) (c : T) (v : list T) : list T :=
  vtab n (fun i => (vget v i * c)%sc).
(** [y.scaled_add(c, &x)]: y + c * x. *)
Definition vscaled_add (n : nat) (y : list T) (c : T) (x : list T) : list T :=
  vtab n (fun i => (vget y i + c * vget x i)%sc).
(** [v.neg_mut()]. *)
Definition vneg (n : nat) (v : list T) : list T := vtab n (fun i => (- vget v i)%sc).
(** [Array::zeros(n)] / [fill(0)]. *)
Definition vzero (n : nat) : list T := repeat szero n.

(** [norm_wrms], src/norm_rms.rs 31-38: sqrt (sum (x_i w_i)^2 / len). *)
Definition norm_wrms (x w : list T) : T :=
  ssqrt (fold_left sadd
           (map (fun i => ssq (vget x i * vget w i)%sc) (seq 0 (length x)))
           szero / sofnat (length x))%sc.

(** [norm_wrms], crates/nonlinear/src/norm_wrms.rs 24-33: the same expression
    over nalgebra ([component_mul], [sum], division by the row count). *)
Definition norm_wrms_na (x w : list T) : T :=
  let len := sofnat (length x) in
  ssqrt (fold_left (fun acc v => (acc + v)%sc)
           (map (fun v => ssq v)
                (map (fun i => (vget x i * vget w i)%sc) (seq 0 (length x))))
           szero / len)%sc.

(** [norm_wrms_masked], src/norm_rms.rs 49-57: the mask is turned into a 0/1
    vector and multiplied in. *)
Definition norm_wrms_masked (x w : list T) (id : list bool) : T :=
  ssqrt (fold_left sadd
           (map (fun i => ssq (vget x i * vget w i *
                               (if nth i id false then sone else szero))%sc)
                (seq 0 (length x)))
           szero / sofnat (length x))%sc.

(** [Ida::wrms_norm], src/lib.rs 1353-1370. *)
Definition wrms_norm (id : list bool) (x w : list T) (mask : bool) : T :=
  if mask then norm_wrms_masked x w id else norm_wrms x w.

(** [TolControlSS::ewt_set], src/tol_control.rs 36-44. *)
Definition ewt_set_ss (rtol atol : T) (ycur : list T) : list T :=
  map (fun y => srecip (rtol * sabs y + atol)%sc) ycur.

(** [TolControlSV::ewt_set], src/tol_control.rs 71-82. *)
Definition ewt_set_sv (rtol : T) (atol : list T) (ycur : list T) : list T :=
  map (fun p => srecip (rtol * sabs (fst p) + snd p)%sc) (combine ycur atol).

End Norms.
