(** * PropNormsRnd: property C82 (src/norm_rms.rs, src/tol_control.rs, src/lib.rs)

    The norms, the error weights and the error test of an accepted step in
    arithmetic with rounding ([ScalarRnd], RoundR.v), compared with the textbook
    expressions over exact real numbers. *)
Require Import List Arith Bool Lia Reals Lra.
Import ListNotations.
Require Import Verif.Base Verif.Scalar Verif.ScalarR Verif.RoundR Verif.Norms Verif.Newton Verif.IdaState
  Verif.IdaNls Verif.IdaCore Verif.BaseFacts Verif.RSum Verif.NormsR Verif.NormsRnd Verif.IdaFacts Verif.IdaReach Verif.IdaInv
  Verif.NewtonFacts Verif.IdaShell Verif.IdaSpec Verif.IdaTrace Verif.IdaCall Verif.PropIdaLife Verif.PropSelect Verif.PropExact Verif.PropLinear.
Open Scope R_scope.
Local Notation gamma := RoundR.gamma.

(** Specification: the weighted RMS norm of the components selected by [sel]. *)
Definition exact_norm (sel : nat -> bool) (x w : list R) : R :=
  let n := length x in
  sqrt (rsum n (fun i => if sel i then (nth i x 0 * nth i w 0) ^ 2 else 0) / INR n).

(** The code run with rounding [rnd]. *)
Definition norm_rnd (rnd : R -> R) := @norm_wrms R (ScalarRnd rnd).
Definition norm_masked_rnd (rnd : R -> R) := @norm_wrms_masked R (ScalarRnd rnd).
Definition ewt_ss_rnd (rnd : R -> R) := @ewt_set_ss R (ScalarRnd rnd).
Definition ewt_sv_rnd (rnd : R -> R) := @ewt_set_sv R (ScalarRnd rnd).

Lemma exact_norm_all x w : exact_norm (fun _ => true) x w = wrms (length x) (fun i => nth i x 0) (fun i => nth i w 0).
Proof. unfold exact_norm, wrms. do 2 f_equal. apply rsum_ext. intros; ring. Qed.

Lemma exact_norm_sel id x w : exact_norm (fun i => nth i id false) x w =
  wrms (length x) (fun i => if nth i id false then nth i x 0 else 0) (fun i => nth i w 0).
Proof. unfold exact_norm, wrms. do 2 f_equal. apply rsum_ext. intros i _. destruct (nth i id false); ring. Qed.

Lemma near_gamma u rnd k c : rounding u rnd -> INR k * u < 1 -> near u k c -> Rabs (c - 1) <= gamma u k.
Proof.
  intros Hr Hu Nc. eapply Rle_trans; [|exact (gamma_bound u rnd Hr k Hu)].
  pose proof (near_diff u rnd Hr k 0 c 1 Nc (near_0 u)) as D. rewrite Nat.add_0_r in D. exact D.
Qed.

Lemma near_upper u rnd k c : rounding u rnd -> INR k * u < 1 -> near u k c -> 0 < c <= 1 + gamma u k /\ / c <= 1 + gamma u k.
Proof.
  intros Hr Hu Nc. pose proof (near_pos u rnd Hr k c Nc). pose proof (near_inv u rnd Hr k c Nc) as Ni.
  pose proof (near_gamma u rnd k c Hr Hu Nc) as G1. pose proof (near_gamma u rnd k (/ c) Hr Hu Ni) as G2.
  unfold Rabs in G1, G2. destruct (Rcase_abs (c - 1)), (Rcase_abs (/ c - 1)); lra.
Qed.

(** The computed norms have a small relative error. *)
Theorem C82_norm_error : forall u rnd (x w : list R) (id : list bool),
  rounding u rnd -> (1 <= length x)%nat -> INR (length x / 2 + 5) * u < 1 ->
  let n := length x in
  Rabs (norm_rnd rnd x w - exact_norm (fun _ => true) x w) <= gamma u (n / 2 + 4) * exact_norm (fun _ => true) x w /\
  Rabs (norm_masked_rnd rnd x w id - exact_norm (fun i => nth i id false) x w)
    <= gamma u (n / 2 + 5) * exact_norm (fun i => nth i id false) x w.
Proof.
  intros u rnd x w id Hr Hn Hu n.
  assert (Hu' : INR (length x / 2 + 4) * u < 1).
  { destruct (u_range u rnd Hr). eapply Rle_lt_trans; [|exact Hu]. apply Rmult_le_compat_r; [lra|]. apply le_INR. lia. }
  destruct (rnd_norm u rnd Hr x w Hn) as (c & Nc & Ec). destruct (rnd_norm_masked u rnd Hr x w id Hn) as (d & Nd & Ed).
  assert (P : forall e v, 0 <= v -> forall k, Rabs (e - 1) <= gamma u k -> Rabs (v * e - v) <= gamma u k * v).
  { intros e v Hv k He. replace (v * e - v) with ((e - 1) * v) by ring. rewrite Rabs_mult, (Rabs_pos_eq v) by exact Hv.
    apply Rmult_le_compat_r; assumption. }
  split.
  - match type of Ec with _ = ?r => change (norm_rnd rnd x w = r) in Ec end. rewrite Ec, exact_norm_all. apply P; [apply sqrt_pos|]. apply (near_gamma u rnd); assumption.
  - match type of Ed with _ = ?r => change (norm_masked_rnd rnd x w id = r) in Ed end. rewrite Ed, exact_norm_sel. apply P; [apply sqrt_pos|]. apply (near_gamma u rnd); assumption.
Qed.
Print Assumptions C82_norm_error.

Lemma ss_near u rnd rtol atol y i : rounding u rnd -> 0 <= rtol -> 0 < atol -> (i < length y)%nat ->
  exists c, near u 3 c /\ nth i (ewt_ss_rnd rnd rtol atol y) 0 = / (rtol * Rabs (nth i y 0) + atol) * c.
Proof.
  intros Hr Hrt Ha Hi. unfold ewt_ss_rnd, ewt_set_ss.
  set (f := fun y => @srecip R (ScalarRnd rnd) (@sadd R (ScalarRnd rnd) (@smul R (ScalarRnd rnd) rtol (@sabs R (ScalarRnd rnd) y)) atol)).
  rewrite (nth_indep _ 0 (f 0)) by (rewrite map_length; exact Hi). rewrite (map_nth f).
  exact (rnd_weight u rnd Hr rtol atol (nth i y 0) Hrt Ha).
Qed.

Lemma sv_near u rnd rtol atol y i : rounding u rnd -> 0 <= rtol -> length atol = length y ->
  (forall i, (i < length y)%nat -> 0 < nth i atol 0) -> (i < length y)%nat ->
  exists c, near u 3 c /\ nth i (ewt_sv_rnd rnd rtol atol y) 0 = / (rtol * Rabs (nth i y 0) + nth i atol 0) * c.
Proof.
  intros Hr Hrt La Ha Hi. unfold ewt_sv_rnd, ewt_set_sv.
  set (f := fun p : R * R => @srecip R (ScalarRnd rnd) (@sadd R (ScalarRnd rnd) (@smul R (ScalarRnd rnd) rtol (@sabs R (ScalarRnd rnd) (fst p))) (snd p))).
  rewrite (nth_indep _ 0 (f (0, 0))) by (rewrite map_length, combine_length, La, Nat.min_id; exact Hi).
  rewrite (map_nth f), combine_nth by auto. exact (rnd_weight u rnd Hr rtol (nth i atol 0) (nth i y 0) Hrt (Ha i Hi)).
Qed.

(** So have the error weights. *)
Theorem C82_weights_error : forall u rnd rtol (atol y : list R) a,
  rounding u rnd -> 3 * u < 1 -> 0 <= rtol -> 0 < a -> length atol = length y ->
  (forall i, (i < length y)%nat -> 0 < nth i atol 0) ->
  forall i, (i < length y)%nat ->
    (let exact := / (rtol * Rabs (nth i y 0) + a) in
     Rabs (nth i (ewt_ss_rnd rnd rtol a y) 0 - exact) <= gamma u 3 * exact) /\
    (let exact := / (rtol * Rabs (nth i y 0) + nth i atol 0) in
     Rabs (nth i (ewt_sv_rnd rnd rtol atol y) 0 - exact) <= gamma u 3 * exact).
Proof.
  intros u rnd rtol atol y a Hr Hu Hrt Ha La Hat i Hi.
  assert (Hu' : INR 3 * u < 1) by (cbn; lra).
  assert (P : forall e t, 0 < t -> near u 3 e -> Rabs (/ t * e - / t) <= gamma u 3 * / t).
  { intros e t Ht He. replace (/ t * e - / t) with ((e - 1) * / t) by ring.
    assert (0 < / t) by (apply Rinv_0_lt_compat; exact Ht).
    rewrite Rabs_mult, (Rabs_pos_eq (/ t)) by lra. apply Rmult_le_compat_r; [lra|]. apply (near_gamma u rnd); assumption. }
  split; cbv zeta.
  - destruct (ss_near u rnd rtol a y i Hr Hrt Ha Hi) as (c & Nc & ->). apply P; [apply weight_pos; auto|exact Nc].
  - destruct (sv_near u rnd rtol atol y i Hr Hrt La Hat Hi) as (c & Nc & ->). apply P; [apply weight_pos; auto|exact Nc].
Qed.
Print Assumptions C82_weights_error.

(** [tolv i] is the tolerance of component [i]; [weighted]: the weights were
    computed from it. *)
Definition weighted (u : R) (n : nat) (tolv : nat -> R) (w : list R) : Prop :=
  forall i, (i < n)%nat -> 0 < tolv i /\ exists c, near u 3 c /\ nth i w 0 = / tolv i * c.

Lemma weighted_norm u rnd n tolv w (e : list R) : rounding u rnd -> length e = n -> (1 <= n)%nat -> weighted u n tolv w ->
  exists c, near u (n / 2 + 7) c /\ norm_rnd rnd e w = wrms n (fun i => nth i e 0) (fun i => / tolv i) * c.
Proof.
  intros Hr Le Hn Hw.
  destruct (rnd_norm u rnd Hr e w ltac:(lia)) as (c & Nc & Ec). rewrite Le in Nc, Ec.
  destruct (wrms_near u rnd Hr 3 n (fun i => nth i e 0) (fun i => / tolv i) (fun i => nth i w 0)) as (d & Nd & Ed).
  { intros i Hi. apply Hw. exact Hi. }
  exists (d * c). split; [replace (n / 2 + 7)%nat with (3 + (n / 2 + 4))%nat by lia; apply (near_mult u rnd Hr); assumption|].
  match type of Ec with _ = ?r => change (norm_rnd rnd e w = r) in Ec end. rewrite Ec, Ed. ring.
Qed.

Lemma weighted_below u rnd n tolv w (e : list R) : rounding u rnd -> length e = n -> (1 <= n)%nat -> INR (n / 2 + 7) * u < 1 ->
  weighted u n tolv w -> (forall i, (i < n)%nat -> Rabs (nth i e 0) <= tolv i) -> norm_rnd rnd e w <= 1 + gamma u (n / 2 + 7).
Proof.
  intros Hr Le Hn Hu Hw Hin. destruct (weighted_norm u rnd n tolv w e Hr Le Hn Hw) as (c & Nc & ->).
  destruct (near_upper u rnd _ c Hr Hu Nc) as ((C0 & C1) & _).
  assert (W : wrms n (fun i => nth i e 0) (fun i => / tolv i) <= 1).
  { apply wrms_le_bound; [exact Hn|lra|]. intros i Hi. destruct (Hw i Hi) as (Ht & _).
    rewrite Rabs_mult, (Rabs_pos_eq (/ tolv i)) by (left; apply Rinv_0_lt_compat; exact Ht).
    apply Rmult_le_reg_r with (tolv i); [exact Ht|]. rewrite Rmult_assoc, Rinv_l, Rmult_1_r, Rmult_1_l by lra. auto. }
  pose proof (wrms_nonneg n (fun i => nth i e 0) (fun i => / tolv i)). nra.
Qed.

Lemma weighted_accept u rnd n tolv w (e : list R) b : rounding u rnd -> length e = n -> (1 <= n)%nat -> INR (n / 2 + 7) * u < 1 ->
  weighted u n tolv w -> 0 <= b -> norm_rnd rnd e w <= b ->
  forall i, (i < n)%nat -> Rabs (nth i e 0) <= b * sqrt (INR n) * (1 + gamma u (n / 2 + 7)) * tolv i.
Proof.
  intros Hr Le Hn Hu Hw Hb Hle i Hi. destruct (weighted_norm u rnd n tolv w e Hr Le Hn Hw) as (c & Nc & Ec). rewrite Ec in Hle.
  destruct (near_upper u rnd _ c Hr Hu Nc) as ((C0 & _) & C1). destruct (Hw i Hi) as (Ht & _).
  pose proof (wrms_component n Hn (fun i => nth i e 0) (fun i => / tolv i) i Hi) as W. cbv beta in W.
  set (v := wrms n (fun i => nth i e 0) (fun i => / tolv i)) in *. pose proof (sqrt_pos (INR n)) as Sn.
  assert (Hv : v <= b * (1 + gamma u (n / 2 + 7))).
  { apply Rle_trans with (b * / c); [|apply Rmult_le_compat_l; assumption].
    apply Rmult_le_reg_r with c; [exact C0|]. rewrite Rmult_assoc, Rinv_l by lra. lra. }
  rewrite Rabs_mult, (Rabs_pos_eq (/ tolv i)) in W by (left; apply Rinv_0_lt_compat; exact Ht).
  apply Rmult_le_reg_r with (/ tolv i); [apply Rinv_0_lt_compat; exact Ht|].
  rewrite (Rmult_assoc _ (tolv i)), Rinv_r, Rmult_1_r by lra.
  eapply Rle_trans; [exact W|]. rewrite (Rmult_comm b), (Rmult_assoc (sqrt _)). apply Rmult_le_compat_l; assumption.
Qed.

(** What the test [norm <= 1] of the code means in terms of the user's
    tolerances, in both directions. *)
Theorem C82_within_tolerance : forall u rnd rtol (atol y e : list R) a,
  rounding u rnd -> (1 <= length y)%nat -> INR (length y / 2 + 7) * u < 1 ->
  0 <= rtol -> 0 < a -> length atol = length y -> (forall i, (i < length y)%nat -> 0 < nth i atol 0) ->
  length e = length y ->
  let n := length y in let g := 1 + gamma u (n / 2 + 7) in
  ((forall i, (i < n)%nat -> Rabs (nth i e 0) <= rtol * Rabs (nth i y 0) + a) ->
     norm_rnd rnd e (ewt_ss_rnd rnd rtol a y) <= g) /\
  (norm_rnd rnd e (ewt_ss_rnd rnd rtol a y) <= 1 ->
     forall i, (i < n)%nat -> Rabs (nth i e 0) <= sqrt (INR n) * g * (rtol * Rabs (nth i y 0) + a)) /\
  ((forall i, (i < n)%nat -> Rabs (nth i e 0) <= rtol * Rabs (nth i y 0) + nth i atol 0) ->
     norm_rnd rnd e (ewt_sv_rnd rnd rtol atol y) <= g) /\
  (norm_rnd rnd e (ewt_sv_rnd rnd rtol atol y) <= 1 ->
     forall i, (i < n)%nat -> Rabs (nth i e 0) <= sqrt (INR n) * g * (rtol * Rabs (nth i y 0) + nth i atol 0)).
Proof.
  intros u rnd rtol atol y e a Hr Hn Hu Hrt Ha La Hat Le n g.
  assert (W1 : weighted u n (fun i => rtol * Rabs (nth i y 0) + a) (ewt_ss_rnd rnd rtol a y)).
  { intros i Hi. split; [apply weight_pos; auto|]. apply ss_near; auto. }
  assert (W2 : weighted u n (fun i => rtol * Rabs (nth i y 0) + nth i atol 0) (ewt_sv_rnd rnd rtol atol y)).
  { intros i Hi. split; [apply weight_pos; auto|]. apply sv_near; auto. }
  split; [|split; [|split]].
  - intros Hin. apply (weighted_below u rnd n _ _ e Hr Le Hn Hu W1). exact Hin.
  - intros Hle i Hi. pose proof (weighted_accept u rnd n _ _ e 1 Hr Le Hn Hu W1 ltac:(lra) Hle i Hi) as Q.
    rewrite (Rmult_1_l (sqrt (INR n))) in Q. exact Q.
  - intros Hin. apply (weighted_below u rnd n _ _ e Hr Le Hn Hu W2). exact Hin.
  - intros Hle i Hi. pose proof (weighted_accept u rnd n _ _ e 1 Hr Le Hn Hu W2 ltac:(lra) Hle i Hi) as Q.
    rewrite (Rmult_1_l (sqrt (INR n))) in Q. exact Q.
Qed.
Print Assumptions C82_within_tolerance.

Example C82_hypotheses_met :
  rounding (/ 9007199254740992) rnd53 /\ (1 <= length [5; 0])%nat /\ INR (length [5; 0] / 2 + 7) * / 9007199254740992 < 1 /\
  (forall i, (i < length [5; 0])%nat -> 0 < nth i [/ 10; / 1000] 0) /\
  (forall i, (i < length [5; 0])%nat -> Rabs (nth i [/ 20; - / 1000] 0) <= / 100 * Rabs (nth i [5; 0] 0) + / 1000).
Proof.
  split; [exact rnd53_rounding|]. split; [cbn; lia|]. split; [cbn; lra|].
  split; intros [|[|i]] Hi; cbn in *; try lia; try lra.
  - rewrite !Rabs_pos_eq by lra. lra.
  - rewrite Rabs_Ropp, Rabs_pos_eq, Rabs_R0 by lra. lra.
Qed.

(** The error test of every accepted step of the integrator, run with rounding:
    the exact norm of the correction, times the error coefficient the code used,
    exceeds 1 by rounding errors at most; in terms of the tolerances, no
    component of the error estimate exceeds its tolerance by more than the factor
    sqrt n and rounding errors. *)
Section Step.
Variables (u : R) (rnd : R -> R).
Hypothesis Hr : rounding u rnd.
Local Instance SR : Scalar R := ScalarRnd rnd.
Context {LSt NSt : Type} `{LSolver R LSt} `{NLSolver R NSt}.

Lemma accepted_rnd (prob : problem R) fuel (st st' : ida R LSt NSt) v :
  @nls_lawful R NSt _ -> ordok st -> step prob fuel st = Ret (st', Ok v) ->
  exists ck e nl x d e0 call nl' x',
    nls_solve _ (ida_nlproblem prob) (model_size prob) nl x d e0 (ewt (nlp st)) (eps_newt st) call
      = Ret (nl', x', e, Ok tt) /\
    0 <= ck /\ ee st' = vscale (model_size prob) ck e /\
    ((1 <= length e)%nat -> INR (length e / 2 + 8) * u < 1 ->
     ck * exact_norm (fun i => if suppressalg st then nth i (idv st) false else true) e (ewt (nlp st))
       <= 1 + gamma u (length e / 2 + 6) /\
     (forall tolv, suppressalg st = false -> weighted u (length e) tolv (ewt (nlp st)) ->
        forall i, (i < length e)%nat ->
          ck * Rabs (nth i e 0) <= sqrt (INR (length e)) * (1 + gamma u (length e / 2 + 8)) * tolv i)).
Proof.
  intros Hl HO E. destruct (C33_accepted_step_passed_the_error_test prob Hl fuel st st' v HO E)
    as (nl & x & d & e0 & call & nl' & x' & e & Hns & (Hle & Hee)).
  match type of Hee with _ = vscale _ ?c _ => exists c, e, nl, x, d, e0, call, nl', x'; set (ck := c) in * end.
  split; [exact Hns|].
  assert (C0 : 0 <= ck) by (unfold ck; cbn [smax SR ScalarRnd]; eapply Rle_trans; [apply Rabs_pos|apply Rmax_l]).
  split; [exact C0|]. split; [exact Hee|]. intros Ln Hu.
  destruct (u_range u rnd Hr) as (U0 & U1).
  assert (Hu6 : INR (length e / 2 + 6) * u < 1).
  { eapply Rle_lt_trans; [|exact Hu]. apply Rmult_le_compat_r; [lra|]. apply le_INR. lia. }
  apply Rleb_true in Hle. cbn [smul SR ScalarRnd sone] in Hle.
  destruct (rnd_near u rnd Hr (ck * wrms_norm (idv st) e (ewt (nlp st)) (suppressalg st))) as (c1 & E1 & N1).
  rewrite E1 in Hle. clear E1.
  split.
  - assert (Q : exists c, near u (length e / 2 + 5) c /\ wrms_norm (idv st) e (ewt (nlp st)) (suppressalg st)
        = exact_norm (fun i => if suppressalg st then nth i (idv st) false else true) e (ewt (nlp st)) * c).
    { unfold wrms_norm. destruct (suppressalg st).
      - rewrite exact_norm_sel. apply (rnd_norm_masked u rnd Hr). exact Ln.
      - rewrite exact_norm_all. destruct (rnd_norm u rnd Hr e (ewt (nlp st)) Ln) as (c & Nc & Ec). exists c. split; [|exact Ec].
        apply (near_le u rnd Hr (length e / 2 + 4)); [lia|exact Nc]. }
    destruct Q as (c & Nc & Ec). rewrite Ec in Hle.
    set (nrm := exact_norm _ e (ewt (nlp st))) in *.
    assert (N : near u (length e / 2 + 6) (c * c1)).
    { replace (length e / 2 + 6)%nat with (length e / 2 + 5 + 1)%nat by lia. apply (near_mult u rnd Hr); assumption. }
    destruct (near_upper u rnd _ _ Hr Hu6 N) as ((P & _) & Q). eapply Rle_trans; [|exact Q].
    apply Rmult_le_reg_r with (c * c1); [exact P|]. rewrite Rinv_l by lra. lra.
  - intros tolv Hs Hw i Hi. rewrite Hs in Hle. unfold wrms_norm in Hle.
    destruct (weighted_norm u rnd (length e) tolv (ewt (nlp st)) e Hr eq_refl Ln Hw) as (c & Nc & Ec).
    match type of Ec with _ = ?r => change (norm_wrms e (ewt (nlp st)) = r) in Ec end. rewrite Ec in Hle.
    set (nrm := wrms _ _ _) in *.
    assert (N : near u (length e / 2 + 8) (c * c1)).
    { replace (length e / 2 + 8)%nat with (length e / 2 + 7 + 1)%nat by lia. apply (near_mult u rnd Hr); assumption. }
    destruct (near_upper u rnd _ _ Hr Hu N) as ((P & _) & Q).
    assert (B : ck * nrm <= 1 + gamma u (length e / 2 + 8)).
    { eapply Rle_trans; [|exact Q]. apply Rmult_le_reg_r with (c * c1); [exact P|]. rewrite Rinv_l by lra. lra. }
    destruct (Hw i Hi) as (Ht & _).
    pose proof (wrms_component (length e) Ln (fun i => nth i e 0) (fun i => / tolv i) i Hi) as W. cbv beta in W.
    fold nrm in W. rewrite Rabs_mult, (Rabs_pos_eq (/ tolv i)) in W by (left; apply Rinv_0_lt_compat; exact Ht).
    apply Rmult_le_reg_r with (/ tolv i); [apply Rinv_0_lt_compat; exact Ht|].
    rewrite (Rmult_assoc _ (tolv i)), Rinv_r, Rmult_1_r by lra.
    pose proof (sqrt_pos (INR (length e))) as Sn.
    apply Rle_trans with (ck * (sqrt (INR (length e)) * nrm)); [rewrite Rmult_assoc; apply Rmult_le_compat_l; assumption|].
    rewrite <- Rmult_assoc, (Rmult_comm ck), Rmult_assoc. apply Rmult_le_compat_l; assumption.
Qed.
End Step.

Theorem C82_accepted_step : forall u rnd, rounding u rnd ->
  let SR := ScalarRnd rnd in
  forall (LSt : Type) (LS : LSolver R LSt) nfuel (prob : problem R) fuel (st st' : ida R LSt (newton R)) v,
  let NS := NewtonNLS nfuel in let n := model_size prob in
  (1 <= n)%nat -> INR (n / 2 + 8) * u < 1 ->
  ordok st -> step prob fuel st = Ret (st', Ok v) ->
  exists ck e,
    0 <= ck /\ length e = n /\ ee st' = vscale n ck e /\
    ck * exact_norm (fun i => if suppressalg st then nth i (idv st) false else true) e (ewt (nlp st))
       <= 1 + gamma u (n / 2 + 6) /\
    (forall tolv, suppressalg st = false -> weighted u n tolv (ewt (nlp st)) ->
       forall i, (i < n)%nat -> ck * Rabs (nth i e 0) <= sqrt (INR n) * (1 + gamma u (n / 2 + 8)) * tolv i).
Proof.
  intros u rnd Hr SR0 LSt LS nfuel prob fuel st st' v NS n Hn Hu HO E.
  destruct (accepted_rnd u rnd Hr prob fuel st st' v (newton_lawful nfuel) HO E)
    as (ck & e & nl & x & d & e0 & call & nl' & x' & Hns & C0 & Hee & Hb).
  assert (Le : length e = n) by exact (newton_sized prob nfuel _ _ _ _ _ _ _ _ _ _ I Hns).
  exists ck, e. rewrite Le in Hb. destruct (Hb Hn Hu) as (B1 & B2). auto.
Qed.
Print Assumptions C82_accepted_step.

(** Weights computed from scalar or vector tolerances are [weighted]. *)
Lemma weighted_ss u rnd rtol a y n : rounding u rnd -> 0 <= rtol -> 0 < a -> length y = n ->
  weighted u n (fun i => rtol * Rabs (nth i y 0) + a) (ewt_ss_rnd rnd rtol a y).
Proof. intros Hr Hrt Ha Ln i Hi. split; [apply weight_pos; auto|]. apply ss_near; auto. lia. Qed.

(** Hypotheses met: an accepted step of the life of [C75_hypotheses_met], where
    the operations happen to be exact. *)
Lemma some_step {T LSt NSt} `{Scalar T} `{LSolver T LSt} `{NLSolver T NSt} prob ewt_set c yy0 yp0 (st : ida T LSt NSt) :
  nls_lawful -> config_ok c -> reach prob ewt_set c yy0 yp0 st -> nst st <> 0%nat ->
  exists fuel (s s' : ida T LSt NSt), ordok s /\ step prob fuel s = Ret (s', Ok tt).
Proof.
  intros Hl Hc Hr.
  cut (ordok st /\ (nst st <> 0%nat -> exists fuel (s s' : ida T LSt NSt), ordok s /\ step prob fuel s = Ret (s', Ok tt))); [tauto|].
  revert st Hr. apply (reach_inv prob ewt_set c yy0 yp0).
  - intros st0 E. split; [exact (new_ord prob _ _ _ _ Hc E)|]. intros Hz. exfalso. apply Hz.
    transitivity (nst st0); [reflexivity|]. unfold ida_new in E. minv. reflexivity.
  - intros a b (O & Q) P. split; [exact (piece_ord prob ewt_set Hl a b O P)|].
    destruct P as [s s' S|s s' Hz L|s s' tout m Hn E|s s' tout Hn E|fuel s s' r L F E].
    + pose proof (core_fields _ _ (sh_core _ _ _ S)) as F. assert (En : nst s' = nst s) by apply F. rewrite En. exact Q.
    + intros _. exact (Q Hz).
    + apply first_call_frame in E. cbv zeta in E. destruct E as (F1 & _).
      assert (En : nst s' = nst s) by (unfold fkeep in F1; cbv zeta in F1; congruence). rewrite En. exact Q.
    + apply first_call_frame in E. cbv zeta in E. destruct E as (F1 & _).
      assert (En : nst s' = nst s) by (unfold fkeep in F1; cbv zeta in F1; congruence). rewrite En. exact Q.
    + destruct (step_nst prob Hl fuel s s' r O E) as (En & _). destruct r as [[]|e].
      * intros _. exists fuel, s, s'. split; [exact O|exact E].
      * rewrite Nat.add_0_r in En. rewrite En. exact Q.
Qed.

Example C82_step_hypotheses_met :
  let rnd := fun x : R => x in
  rounding (/ 9007199254740992) rnd /\ INR (model_size lin2 / 2 + 8) * / 9007199254740992 < 1 /\
  exists fuel (s s' : ida R (list nat) (newton R)), ordok s /\
    @step R (list nat) (newton R) (ScalarRnd rnd) _ (@NewtonNLS R (ScalarRnd rnd) 1) lin2 fuel s = Ret (s', Ok tt).
Proof.
  split; [split; [lra|]; intros x; unfold Rminus; rewrite Rplus_opp_r, Rabs_R0; apply Rmult_le_pos; [lra|apply Rabs_pos]|].
  split; [cbn; lra|].
  destruct C75_hypotheses_met as (st & Hr & _ & _ & Hs & _).
  assert (Hc : config_ok (default_config lin2)) by (unfold config_ok; cbn; lia).
  refine (some_step lin2 _ _ _ _ st (newton_lawful 1) Hc Hr _).
  pose proof (reach_tlink lin2 _ (newton_lawful 1) _ Hc _ _ st Hr) as L.
  intros Hz. apply Hs. apply length_zero_iff_nil. rewrite <- Hz. exact (tl_n _ _ _ _ L).
Qed.
