(** * PropSamples: the sample problems are what they claim to be: C63, C64
      (src/sample_problems/roberts.rs, src/sample_problems/slider_crank.rs) *)
Require Import List Arith Bool Lia Reals Lra Psatz.
Import ListNotations.
Require Import Verif.Base Verif.Scalar Verif.ScalarR Verif.Norms Verif.IdaState Verif.Samples.
Open Scope R_scope.

(** [v] with component [j] replaced by [x]. *)
Definition at_comp (v : list R) (j : nat) (x : R) : list R := firstn j v ++ x :: skipn (S j) v.

Lemma at_comp_same v j : (j < length v)%nat -> at_comp v j (nth j v 0) = v.
Proof.
  revert j. induction v as [|a v IH]; intros [|j] Hj; cbn in *; try lia; [reflexivity|].
  unfold at_comp in *. cbn [firstn skipn nth app]. f_equal. apply IH. lia.
Qed.

Lemma derive_eq f x a b : derivable_pt_lim f x a -> a = b -> derivable_pt_lim f x b.
Proof. intros D <-. exact D. Qed.

Ltac der := first [exact (derivable_pt_lim_const _ _) | exact (derivable_pt_lim_id _) | lazymatch goal with
  | |- derivable_pt_lim (fun x => @?f x + @?g x) _ _ => apply (derivable_pt_lim_plus f g); der
  | |- derivable_pt_lim (fun x => @?f x - @?g x) _ _ => apply (derivable_pt_lim_minus f g); der
  | |- derivable_pt_lim (fun x => @?f x * @?g x) _ _ => apply (derivable_pt_lim_mult f g); der
  | |- derivable_pt_lim (fun x => @?f x / ?c) _ _ => apply (derivable_pt_lim_mult f (fun _ => / c)); der
  | |- derivable_pt_lim (fun x => - @?f x) _ _ => apply (derivable_pt_lim_opp f); der
  | |- derivable_pt_lim (fun x => sin (@?f x)) _ _ => apply (derivable_pt_lim_comp f sin); [der|apply derivable_pt_lim_sin]
  | |- derivable_pt_lim (fun x => cos (@?f x)) _ _ => apply (derivable_pt_lim_comp f cos); [der|apply derivable_pt_lim_cos]
  | |- derivable_pt_lim (fun x => ?f x) _ _ => eassumption
  | |- derivable_pt_lim ?f _ _ => eassumption
  end].

(** ** C63 *)
(** For every rate and with [d = 2 c] (6e7 and 3e7 in the source): entry (i, j) is
    the partial derivative of residual component i by y_j, plus cj times the one by
    y'_j. *)
Theorem C63_roberts_jacobian a b c d e g t cj (y yp r : list R) i j :
  d = 2 * c -> length y = 3%nat -> length yp = 3%nat -> (i < 3)%nat -> (j < 3)%nat ->
  exists fy fyp,
    derivable_pt_lim (fun x => p_res (roberts a b c d e g) t (at_comp y j x) yp i) (nth j y 0) fy /\
    derivable_pt_lim (fun x => p_res (roberts a b c d e g) t y (at_comp yp j x) i) (nth j yp 0) fyp /\
    p_jac (roberts a b c d e g) t cj y yp r i j = fy + cj * fyp.
Proof.
  intros -> Hy Hyp Hi Hj.
  destruct y as [|y0 [|y1 [|y2 [|]]]]; try discriminate. destruct yp as [|p0 [|p1 [|p2 [|]]]]; try discriminate.
  destruct i as [|[|[|]]]; [| | |lia]; destruct j as [|[|[|]]]; try lia;
  cbn; eexists; eexists; (split; [der|split; [der|cbn; ring]]).
Qed.

(** The source's constants. *)
Theorem C63_roberts_source t cj (y yp r : list R) i j :
  length y = 3%nat -> length yp = 3%nat -> (i < 3)%nat -> (j < 3)%nat ->
  exists fy fyp, let P := roberts (4 / 100) 10000 30000000 60000000 (1 / 10000) (1 / 100) in
    derivable_pt_lim (fun x => p_res P t (at_comp y j x) yp i) (nth j y 0) fy /\
    derivable_pt_lim (fun x => p_res P t y (at_comp yp j x) i) (nth j yp 0) fyp /\
    p_jac P t cj y yp r i j = fy + cj * fyp.
Proof. intros. apply C63_roberts_jacobian; auto; lra. Qed.

Example C63_hypotheses_met : (60000000 = 2 * 30000000)%R /\ length [1; 0; 0] = 3%nat /\ (1 < 3)%nat.
Proof. split; [lra|]. cbn. lia. Qed.

(** ** C64 *)
(** A motion: crank angle [q], slider position [x], rod angle [p], their rates, and
    whatever multipliers. *)
Definition motion (q x p qd xd pd : R -> R) (rest : R -> list R) (t : R) : list R :=
  [q t; x t; p t; qd t; xd t; pd t] ++ rest t.

Section SliderCrank.
Variable m : slcrank.
Variables q x p qd xd pd : R -> R.
Variable rest : R -> list R.
Notation y := (motion q x p qd xd pd rest).
Variable t : R.
Hypothesis Hq : derivable_pt_lim q t (qd t).
Hypothesis Hx : derivable_pt_lim x t (xd t).
Hypothesis Hp : derivable_pt_lim p t (pd t).

(** Components 8 and 9 are the rates of components 6 and 7 along the motion. *)
Theorem C64_velocity_constraints ts yp yp' :
  derivable_pt_lim (fun s => sl_res m ts (y s) yp 6) t (sl_res m ts (y t) yp' 8) /\
  derivable_pt_lim (fun s => sl_res m ts (y s) yp 7) t (sl_res m ts (y t) yp' 9).
Proof.
  unfold sl_res, motion, rget. cbn [nth app]. split; (eapply derive_eq; [der|cbn; ring]).
Qed.

(** [sl_ld] is the rate of the spring length, where the length is positive. *)
Theorem C64_spring_rate : 0 < sl_l2 m (y t) ->
  derivable_pt_lim (fun s => sl_l m (y s)) t (sl_ld m (y t)).
Proof.
  intros Hpos. unfold sl_l at 1.
  assert (D : derivable_pt_lim (fun s => sl_l2 m (y s)) t (sl_ld m (y t) * (2 * sl_l m (y t)))).
  { pose proof (sqrt_lt_R0 _ Hpos) as Hs. unfold sl_ld. cbv zeta.
    rewrite Rmult_comm. match goal with |- derivable_pt_lim _ _ (?c * (?n / ?c)) => replace (c * (n / c)) with n by (field; unfold sl_l; lra) end.
    unfold sl_l2, motion, rget. cbn [nth app]. eapply derive_eq; [der|cbn; field]. }
  eapply derive_eq; [apply (derivable_pt_lim_comp (fun s => sl_l2 m (y s)) sqrt); [exact D|apply derivable_pt_lim_sqrt; exact Hpos]|].
  unfold sl_l. pose proof (sqrt_lt_R0 _ Hpos). field. lra.
Qed.
End SliderCrank.

(** The multiplier terms of components 3-5 (and 0-2) are the transposed Jacobian of
    the position constraints applied to the multipliers. *)
Theorem C64_multipliers m t (v yp : list R) i : length v = 10%nat -> (i < 3)%nat -> exists d1 d2,
  derivable_pt_lim (fun s => sl_res m t (at_comp v i s) yp 6) (nth i v 0) d1 /\
  derivable_pt_lim (fun s => sl_res m t (at_comp v i s) yp 7) (nth i v 0) d2 /\
  sl_res m t v yp (3 + i) = nth i [sl_J1 m; sl_m2 m; sl_J2 m] 0 * nth (3 + i) yp 0 - sl_force m v i + d1 * nth 6 v 0 + d2 * nth 7 v 0 /\
  sl_res m t v yp i = nth i yp 0 - nth (3 + i) v 0 + d1 * nth 8 v 0 + d2 * nth 9 v 0.
Proof.
  intros Hv Hi. do 11 (destruct v as [|? v]; try discriminate). clear Hv.
  destruct i as [|[|[|]]]; [| | |lia]; unfold sl_res, rget; cbn [at_comp firstn skipn nth app Nat.add]; eexists; eexists;
    (split; [der|split; [der|cbn; split; ring]]).
Qed.

(** The spring-damper part of the generalised force is minus the force
    k (l - l0) + c l' times the partial derivative of the length. *)
Theorem C64_spring_force m (v : list R) i : length v = 10%nat -> (i < 3)%nat -> 0 < sl_l2 m v -> exists d,
  derivable_pt_lim (fun s => sl_l m (at_comp v i s)) (nth i v 0) d /\
  sl_force m v i = - (sl_k m * (sl_l m v - sl_l0 m) + sl_c m * sl_ld m v) * d + nth i [0; sl_F m; - sl_F m * sin (nth 2 v 0)] 0.
Proof.
  intros Hv Hi Hpos.
  assert (D : exists d, derivable_pt_lim (fun s => sl_l2 m (at_comp v i s)) (nth i v 0) d /\
     sl_force m v i = - (sl_k m * (sl_l m v - sl_l0 m) + sl_c m * sl_ld m v) * (d * / (2 * sl_l m v)) + nth i [0; sl_F m; - sl_F m * sin (nth 2 v 0)] 0).
  { assert (Hl : sl_l m v <> 0) by (pose proof (sqrt_lt_R0 _ Hpos); unfold sl_l; lra).
    do 11 (destruct v as [|? v]; try discriminate). clear Hv Hpos.
    unfold sl_force. cbv zeta.
    match goal with |- context [sl_l m ?u] => set (L := sl_l m u) in *; set (LD := sl_ld m u); clearbody L LD end.
    destruct i as [|[|[|]]]; [| | |lia]; unfold sl_l2, rget; cbn [at_comp firstn skipn nth app]; eexists;
    (split; [der|cbn; field; exact Hl]). }
  destruct D as (d & D & E). exists (/ (2 * sqrt (sl_l2 m v)) * d). split.
  - assert (Ev : at_comp v i (nth i v 0) = v) by (apply at_comp_same; lia).
    unfold sl_l. apply (derivable_pt_lim_comp (fun s => sl_l2 m (at_comp v i s)) sqrt); [exact D|]. cbv beta. rewrite Ev.
    apply derivable_pt_lim_sqrt. exact Hpos.
  - rewrite E. unfold sl_l. lra.
Qed.

(** A position with a spring of positive length. *)
Example C64_hypotheses_met : derivable_pt_lim (fun s => s) 0 1 /\ 0 < sl_l2 slcrank_default [0; 1; 0; 1; 0; 1; 0; 0; 0; 0].
Proof.
  split; [apply derivable_pt_lim_id|]. unfold sl_l2, rget, slcrank_default. cbn [nth sl_a]. rewrite cos_0, sin_0. lra.
Qed.

Print Assumptions C63_roberts_jacobian.
Print Assumptions C64_velocity_constraints.
Print Assumptions C64_spring_rate.
Print Assumptions C64_multipliers.
Print Assumptions C64_spring_force.
