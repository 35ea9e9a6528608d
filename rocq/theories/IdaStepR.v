(** * IdaStepR: step sizes and times over the reals *)
Require Import List Arith Bool Lia Reals Lra Psatz.
Import ListNotations.
Require Import Verif.Base Verif.Scalar Verif.ScalarR Verif.Norms Verif.Newton Verif.NewtonSpec Verif.IdaState
  Verif.IdaNls Verif.IdaCore Verif.IdaRoots Verif.IdaSolve Verif.BaseFacts Verif.NewtonFacts
  Verif.IdaFacts Verif.IdaLoops Verif.IdaStep Verif.IdaSpec Verif.IdaShell Verif.IdaReach Verif.IdaInv
  Verif.IdaCount Verif.IdaLife Verif.IdaTrace.
Open Scope R_scope.

Definition eps : R := / 4503599627370496.
Lemma eps_pos : 0 < eps /\ 4 * eps < 1.
Proof. unfold eps. lra. Qed.

(** ** Arithmetic *)
Lemma same_sign_cases a b : 0 < a * b -> (0 < a /\ 0 < b) \/ (a < 0 /\ b < 0).
Proof. intros P. destruct (Rtotal_order a 0) as [A|[A|A]]; [right; nra|subst; lra|left; nra]. Qed.

Lemma sq_pos a : a <> 0 -> 0 < a * a.
Proof. intros Ha. destruct (Rtotal_order a 0) as [A|[A|A]]; [nra|contradiction|nra]. Qed.

(** Reduction in front of a stop time. *)
Lemma limit_R t ts h0 h :
  h0 <> 0 -> (t - ts) * h0 <= 0 -> t <> ts ->
  h = (if Rltb 0 ((t + h0 - ts) * h0) then (ts - t) * (1 - 4 * eps) else h0) ->
  0 < h * h0 /\ Rabs h <= Rabs h0 /\ (t + h - ts) * h <= 0 /\ (t - ts) * h < 0 /\
  (exists q, 0 < q <= 1 /\ h = q * h0) /\ (h = h0 \/ h = (ts - t) * (1 - 4 * eps)).
Proof.
  intros Hz Hs Hne E. pose proof (sq_pos _ Hz). pose proof eps_pos as (E1 & E2).
  assert (G : 0 < h * h0 /\ Rabs h <= Rabs h0 /\ (t + h - ts) * h <= 0 /\ (t - ts) * h < 0 /\
     (h = h0 \/ h = (ts - t) * (1 - 4 * eps))).
  { destruct (Rltb 0 ((t + h0 - ts) * h0)) eqn:Eb.
    - apply Rltb_true in Eb. destruct (Rtotal_order h0 0) as [A|[A|A]]; [|contradiction|].
      + assert (ts < t) by (assert (t - ts >= 0) by nra; lra). assert (h0 < ts - t) by nra.
        assert (h < 0) by (rewrite E; nra). assert (h >= ts - t) by (rewrite E; nra).
        rewrite !Rabs_left by lra. split; [nra|]. split; [lra|]. split; [nra|]. split; [nra|auto].
      + assert (t < ts) by (assert (t - ts <= 0) by nra; lra). assert (ts - t < h0) by nra.
        assert (0 < h) by (rewrite E; nra). assert (h <= ts - t) by (rewrite E; nra).
        rewrite !Rabs_right by lra. split; [nra|]. split; [lra|]. split; [nra|]. split; [nra|auto].
    - apply Rltb_false in Eb. subst h. split; [nra|]. split; [lra|]. split; [lra|]. split; [|auto].
      assert (h0 * h0 > 0) by nra. assert ((t - ts) * h0 <> 0) by (apply Rmult_integral_contrapositive; split; lra).
      lra. }
  destruct G as (G1 & G2 & G3 & G4 & G5). repeat (split; [assumption|]). split; [|assumption].
  exists (h / h0). split; [|field; assumption].
  destruct (same_sign_cases _ _ G1) as [(A & B)|(A & B)].
  - rewrite !Rabs_right in G2 by lra. split; [apply Rdiv_lt_0_compat; lra|].
    apply Rmult_le_reg_r with h0; [lra|]. replace (h / h0 * h0) with h by (field; lra). lra.
  - rewrite !Rabs_left in G2 by lra. replace (h / h0) with ((- h) / (- h0)) by (field; lra).
    split; [apply Rdiv_lt_0_compat; lra|].
    apply Rmult_le_reg_r with (- h0); [lra|]. replace (- h / - h0 * - h0) with (- h) by (field; lra). lra.
Qed.

Lemma abs_mono_inv a b hi : Rabs a <= Rabs b -> Rabs b * hi <= 1 -> Rabs a * hi <= 1.
Proof. intros A B. pose proof (Rabs_pos a). destruct (Rle_or_lt 0 hi); nra. Qed.

Lemma shrink_R h q hi : h <> 0 -> 0 < q <= 1 -> Rabs h * hi <= 1 ->
  h * q <> 0 /\ Rabs (h * q) * hi <= 1 /\ 0 < (h * q) * h.
Proof.
  intros Hh Hq Hi. pose proof (sq_pos _ Hh). split; [apply Rmult_integral_contrapositive; split; [assumption|lra]|]. split; [|nra].
  apply abs_mono_inv with h; [|exact Hi]. rewrite Rabs_mult, (Rabs_right q) by lra.
  pose proof (Rabs_pos h). nra.
Qed.

Lemma dbl_R hi h : h <> 0 -> Rabs h * hi <= 1 ->
  dbl hi h <> 0 /\ Rabs (dbl hi h) * hi <= 1 /\ 0 < dbl hi h * h /\
  (Rabs (2 * h) * hi <= 1 /\ dbl hi h = 2 * h \/
   1 < Rabs (2 * h) * hi /\ Rabs (dbl hi h) * hi = 1).
Proof.
  intros Hh Hi. pose proof (sq_pos _ Hh). unfold dbl. cbn [sabs smul stwo sltb sone sdiv ScalarR].
  pose proof (Rabs_pos_lt _ Hh) as Hp. rewrite Rabs_mult, (Rabs_right 2) in * by lra.
  destruct (Rltb 1 (2 * Rabs h * hi)) eqn:Eb.
  - apply Rltb_true in Eb. set (r := 2 * Rabs h * hi) in *.
    assert (Hr : Rabs (2 * h / r) * hi = 1).
    { unfold Rdiv. rewrite !Rabs_mult, (Rabs_right 2), (Rabs_right (/ r)) by (try lra; apply Rle_ge, Rlt_le, Rinv_0_lt_compat; lra).
      unfold r. field. unfold r in Eb. split; nra. }
    split; [|split; [lra|split; [|right; auto]]].
    + unfold Rdiv. apply Rmult_integral_contrapositive. split; [lra|apply Rinv_neq_0_compat; lra].
    + replace (2 * h / r * h) with (2 * (h * h) * / r) by (field; lra).
      apply Rmult_lt_0_compat; [nra|apply Rinv_0_lt_compat; lra].
  - apply Rltb_false in Eb. rewrite Rabs_mult, (Rabs_right 2) by lra. split; [lra|]. split; [lra|]. split; [nra|left; auto].
Qed.

(** Step sizes after an accepted step. *)
Definition next_size (hi h h' : R) : Prop :=
  h' = h \/
  (Rabs (2 * h) * hi <= 1 /\ h' = 2 * h) \/
  (1 < Rabs (2 * h) * hi /\ Rabs h' * hi = 1 /\ 0 < h' * h) \/
  exists q, 1 / 2 <= q <= 9 / 10 /\ h' = q * h.

Lemma next_h_R hi h h' : h <> 0 -> Rabs h * hi <= 1 -> next_h hi h h' ->
  h' <> 0 /\ Rabs h' * hi <= 1 /\ 0 < h' * h /\ next_size hi h h'.
Proof.
  intros Hh Hi N. pose proof (sq_pos _ Hh). unfold next_size. destruct N as [-> |[-> |(r & _ & ->)]].
  - split; [assumption|]. split; [assumption|]. split; [nra|auto].
  - destruct (dbl_R hi h Hh Hi) as (A & B & C & D). repeat (split; [assumption|]).
    destruct D as [D|D]; [auto|]. right. right. left. tauto.
  - cbn [smul smax smin shalf spt9 ScalarR].
    assert (Q : 1 / 2 <= Rmax (/ 2) (Rmin r (9 / 10)) <= 9 / 10).
    { split.
      - apply Rle_trans with (/ 2); [lra|apply Rmax_l].
      - apply Rmax_lub; [lra|apply Rmin_r]. }
    set (q := Rmax _ _) in *. clearbody q.
    destruct (shrink_R h q hi Hh) as (A & B & C); [lra|assumption|].
    repeat (split; [assumption|]). right. right. right. exists q. split; [lra|ring].
Qed.

Lemma factor_R f r : (1 <= f)%nat -> factor f r -> / 4 <= r <= 9 / 10.
Proof.
  intros Hf (F1 & F2). destruct (Nat.eq_dec f 1) as [E|E].
  - destruct (F1 E) as (q & ->). cbn [smax smin squarter spt9 ScalarR]. split; [apply Rmax_l|].
    apply Rmax_lub; [lra|apply Rmin_l].
  - rewrite F2 by lia. cbn. lra.
Qed.

Section StepR.
Context {LSt NSt : Type} `{LSolver R LSt} `{NLSolver R NSt}.
Variable prob : problem R.
Variable ewt_set : list R -> list R.
Notation n := (model_size prob).
Notation state := (ida R LSt NSt).
Notation tr st := (trace (lp (nlp st))).

Lemma wrms_norm_nonneg idm (x w : list R) b : 0 <= wrms_norm idm x w b.
Proof. unfold wrms_norm. destruct b; apply sqrt_pos. Qed.

(** ** The first step *)
Lemma first_step_R (st st' : state) tout :
  first_step st tout = Ret (inr st') ->
  let h := hh st' in let t := tn (nlp st) in
  0 < (tout - t) * h /\ Rabs h * hmax_inv st <= 1 /\
  (hin st = 0 -> Rabs h <= / 1000 * Rabs (tout - t) /\
     forall p, nth_error (phi st) 1 = Some p ->
     Rabs h * wrms_norm (idv st) p (ewt (nlp st)) (suppressalg st) <= 2) /\
  (hin st <> 0 -> 0 < h * hin st /\ Rabs h <= Rabs (hin st)) /\
  (forall ts, tstop st = Some ts -> 0 < (ts - t) * h /\ (t + h - ts) * h <= 0).
Proof.
  unfold first_step. cbn [sabs ssub seqb szero sltb stwo seps smul sadd ScalarR].
  set (t := tn (nlp st)). set (td := Rabs (tout - t)).
  destruct (Reqb td 0) eqn:E0; [discriminate|]. apply Reqb_false in E0.
  destruct (Rltb td _) eqn:E1; [discriminate|]. clear E1.
  assert (Htd : 0 < td) by (unfold td in *; pose proof (Rabs_pos (tout - t)); lra).
  destruct (sneqb _ _ && _) eqn:E2; [discriminate|].
  intros E. apply bind_ret_inv in E as (s1 & E3 & E).
  (* the step before the hmax reduction *)
  assert (S1 : exists h1, s1 = set_hh h1 st /\ 0 < (tout - t) * h1 /\
     (hin st = 0 -> Rabs h1 <= / 1000 * td /\
        forall p, nth_error (phi st) 1 = Some p ->
        Rabs h1 * wrms_norm (idv st) p (ewt (nlp st)) (suppressalg st) <= 2) /\
     (hin st <> 0 -> h1 = hin st)).
  { cbn [hh set_hh seqb szero ScalarR] in E2, E3. destruct (Reqb (hin st) 0) eqn:E4.
    - apply Reqb_true in E4. apply bind_ret_inv in E3 as (p1 & Ep & E3). apply ret_inj in E3.
      cbn [phi set_hh idv ewt nlp suppressalg hh tn sltb stwo sdiv shalf sneg spt001 smul ScalarR] in E3, Ep.
      assert (Hp1 : nth_error (phi st) 1 = Some p1).
      { unfold aget in Ep. destruct (nth_error (phi st) 1); congruence. }
      set (yn := wrms_norm (idv st) p1 (ewt (nlp st)) (suppressalg st)) in *.
      assert (Hyn : 0 <= yn) by apply wrms_norm_nonneg.
      fold t in E3.
      set (h0 := / 1000 * td) in *. assert (Hh0 : 0 < h0) by (unfold h0; lra).
      assert (Hq : exists h1, 0 < h1 <= h0 /\ h1 * yn <= 2 /\
         s1 = set_hh (if Rltb tout t then - h1 else h1) st).
      { destruct (Rltb (2 / h0) yn) eqn:E5.
        - apply Rltb_true in E5. exists (/ 2 / yn).
          assert (0 < 2 / h0) by (apply Rdiv_lt_0_compat; lra). assert (0 < yn) by lra.
          assert (2 < yn * h0).
          { apply Rmult_lt_compat_r with (r := h0) in E5; [|lra]. replace (2 / h0 * h0) with 2 in E5 by (field; lra). lra. }
          split; [split|split].
          + apply Rdiv_lt_0_compat; lra.
          + apply Rmult_le_reg_r with yn; [lra|]. replace (/ 2 / yn * yn) with (/ 2) by (field; lra). nra.
          + replace (/ 2 / yn * yn) with (/ 2) by (field; lra). lra.
          + cbn [nlp set_hh hh] in E3. fold t in E3. rewrite <- E3. destruct (Rltb tout t); reflexivity.
        - apply Rltb_false in E5. exists h0. split; [lra|]. split.
          + apply Rmult_le_compat_r with (r := h0) in E5; [|lra]. replace (2 / h0 * h0) with 2 in E5 by (field; lra). nra.
          + cbn [nlp set_hh hh] in E3. fold t in E3. rewrite <- E3. destruct (Rltb tout t); reflexivity. }
      destruct Hq as (h1 & Q1 & Q2 & ->). eexists. split; [reflexivity|].
      assert (Qa : Rabs (if Rltb tout t then - h1 else h1) = h1).
      { destruct (Rltb tout t); [rewrite Rabs_Ropp|]; apply Rabs_right; lra. }
      split; [|split].
      + unfold td, Rabs in Htd. destruct (Rltb tout t) eqn:E6.
        * apply Rltb_true in E6. nra.
        * apply Rltb_false in E6. destruct (Rcase_abs (tout - t)); nra.
      + intros _. rewrite Qa. split; [lra|]. intros p Hp. rewrite Hp1 in Hp. injection Hp as <-. fold yn. lra.
      + intros; contradiction.
    - apply Reqb_false in E4. apply ret_inj in E3. exists (hin st). split; [congruence|].
      split; [|split; [intros; contradiction|auto]].
      unfold sneqb in E2. cbn [seqb ScalarR] in E2. apply Reqb_false in E4. rewrite E4 in E2. cbn [negb andb] in E2.
      apply Rltb_false in E2. cbn [nlp set_hh] in E2. fold t in E2.
      apply Reqb_false in E4.
      assert (tout - t <> 0). { intros Q. unfold td in Htd. rewrite Q, Rabs_R0 in Htd. lra. }
      assert ((tout - t) * hin st <> 0) by (apply Rmult_integral_contrapositive; auto). lra. }
  destruct S1 as (h1 & -> & P1 & P2 & P3). clear E2 E3.
  assert (Hh1 : h1 <> 0) by (intros ->; lra).
  cbn [hh set_hh hmax_inv nlp tstop sone sdiv sltb ScalarR] in E.
  set (hi := hmax_inv st) in *.
  (* the hmax reduction *)
  assert (S2 : exists h2 q, h2 = h1 * q /\ 0 < q <= 1 /\ Rabs h2 * hi <= 1 /\
    (if Rltb 1 (Rabs h1 * hi) then set_hh (h1 / (Rabs h1 * hi)) (set_hh h1 st) else set_hh h1 st) = set_hh h2 st).
  { pose proof (Rabs_pos_lt _ Hh1) as Hp. destruct (Rltb 1 (Rabs h1 * hi)) eqn:E5.
    - apply Rltb_true in E5. set (r := Rabs h1 * hi) in *. assert (0 < / r) by (apply Rinv_0_lt_compat; lra).
      exists (h1 / r), (/ r). split; [reflexivity|]. split; [split; [assumption|]|split; [|reflexivity]].
      + rewrite <- Rinv_1. apply Rinv_le_contravar; lra.
      + unfold Rdiv. rewrite Rabs_mult, (Rabs_right (/ r)) by lra. unfold r. apply Req_le. field. unfold r in E5. split; nra.
    - apply Rltb_false in E5. exists h1, 1. split; [ring|]. split; [lra|]. split; [lra|reflexivity]. }
  destruct S2 as (h2 & q & Hq & Q1 & Q2 & Es). rewrite Es in E. clear Es.
  destruct (shrink_R h1 q 0 Hh1 Q1) as (N1 & _ & N2); [rewrite Rmult_0_r; lra|]. rewrite <- Hq in N1, N2.
  assert (Ha2 : Rabs h2 <= Rabs h1).
  { rewrite Hq, Rabs_mult, (Rabs_right q) by lra. pose proof (Rabs_pos h1). nra. }
  assert (G : forall h, 0 < h * h2 -> Rabs h <= Rabs h2 ->
     0 < (tout - t) * h /\ Rabs h * hi <= 1 /\
     (hin st = 0 -> Rabs h <= / 1000 * td /\
       forall p, nth_error (phi st) 1 = Some p ->
       Rabs h * wrms_norm (idv st) p (ewt (nlp st)) (suppressalg st) <= 2) /\
     (hin st <> 0 -> 0 < h * hin st /\ Rabs h <= Rabs (hin st))).
  { intros h G1 G2. split; [|split; [|split]].
    - destruct (same_sign_cases _ _ G1) as [(?&?)|(?&?)], (same_sign_cases _ _ N2) as [(?&?)|(?&?)]; try lra; nra.
    - apply abs_mono_inv with h2; assumption.
    - intros Hz. destruct (P2 Hz) as (P4 & P5). split; [lra|]. intros p Hp. specialize (P5 p Hp).
      pose proof (wrms_norm_nonneg (idv st) p (ewt (nlp st)) (suppressalg st)). pose proof (Rabs_pos h). nra.
    - intros Hz. rewrite <- (P3 Hz). split; [|lra].
      destruct (same_sign_cases _ _ G1) as [(?&?)|(?&?)], (same_sign_cases _ _ N2) as [(?&?)|(?&?)]; try lra; nra. }
  destruct (tstop st) as [ts|] eqn:Ets.
  - cbn [tstop set_hh] in E. rewrite Ets in E.
    cbn [hh set_hh nlp sleb ScalarR] in E. fold t in E.
    destruct (Rleb _ 0) eqn:E7; [discriminate|]. apply Rleb_false in E7. apply ret_inj in E. injection E as <-.
    assert (Hl : hh (limit_to_tstop (set_hh h2 st) ts) =
      if Rltb 0 ((t + h2 - ts) * h2) then (ts - t) * (1 - 4 * eps) else h2).
    { unfold limit_to_tstop. cbn [hh set_hh nlp sltb szero smul sadd ssub sone sfour seps ScalarR]. fold t.
      destruct (Rltb 0 _); reflexivity. }
    cbv zeta. set (h := hh _) in *. clearbody h.
    destruct (limit_R t ts h2 h N1) as (L1 & L2 & L3 & L4 & _); [lra|intros ->; lra|exact Hl|].
    destruct (G h L1 L2) as (G1 & G2 & G3 & G4). repeat (split; [assumption|]).
    intros ts' Q. injection Q as <-. split; [lra|assumption].
  - cbn [tstop set_hh] in E. rewrite Ets in E. apply ret_inj in E. injection E as <-. cbv zeta. cbn [hh set_hh].
    destruct (G h2) as (G1 & G2 & G3 & G4); [exact (sq_pos _ N1)|lra|]. repeat (split; [assumption|]). intros ts Q. discriminate.
Qed.

Lemma first_call_R (a s : state) tout :
  first_call prob ewt_set a tout = Ret (inr s) ->
  let h := hh s in let t := tn (nlp a) in
  h0u s = h /\
  0 < (tout - t) * h /\ Rabs h * hmax_inv a <= 1 /\
  (hin a = 0 -> Rabs h <= / 1000 * Rabs (tout - t) /\
     forall p, nth_error (phi a) 1 = Some p ->
     Rabs h * wrms_norm (idv a) p (ewt (nlp s)) (suppressalg a) <= 2) /\
  (hin a <> 0 -> 0 < h * hin a /\ Rabs h <= Rabs (hin a)) /\
  (forall ts, tstop a = Some ts -> 0 < (ts - t) * h /\ (t + h - ts) * h <= 0).
Proof.
  intros E. pose proof (first_call_frame _ _ _ _ _ E) as Fr. cbv zeta in Fr.
  destruct Fr as (_ & _ & Fw & _ & _ & _ & _ & Fh & _).
  unfold first_call in E. apply bind_ret_inv in E as (s0 & E0 & E). apply bind_ret_inv in E as (r & E1 & E).
  destruct r as [(?&?)|s1]; [discriminate|].
  assert (K0 : hmax_inv s0 = hmax_inv a /\ tn (nlp s0) = tn (nlp a) /\ tstop s0 = tstop a /\ hin s0 = hin a /\
     phi s0 = phi a /\ idv s0 = idv a /\ suppressalg s0 = suppressalg a /\ ewt (nlp s0) = ewt (nlp s)).
  { rewrite Fw. destruct (setup_done a); [apply ret_inj in E0; subst; auto 10|].
    apply bind_ret_inv in E0 as (s2 & E2 & E0). apply ret_inj in E0. subst s0. clear -E2.
    unfold initial_setup in E2. cbv zeta in E2. minv; cbn; auto 10.
    repeat (split; [reflexivity|]). unfold aget in *. unfold row.
    destruct (phi a); cbn in *; congruence. }
  destruct K0 as (K1 & K2 & K3 & K4 & K5 & K6 & K7 & K8).
  pose proof (first_step_R _ _ _ E1) as FR. cbv zeta in FR.
  rewrite K1, K2, K3, K4, K5, K6, K7, K8 in FR.
  assert (Kh : hh s = hh s1).
  { apply bind_ret_inv in E as (s2 & E2 & E). apply bind_ret_inv in E as (p1 & E3 & E).
    apply bind_ret_inv in E as (ph & E4 & E). apply ret_inj in E. injection E as <-.
    cbn [hh set_eps_newt set_phi on_nlp set_nlp].
    destruct (0 <? _)%nat; [|apply ret_inj in E2; subst s2; reflexivity].
    apply r_check1_frame in E2. destruct E2 as ((E2 & _) & _). apply core_fields in E2.
    transitivity (hh (set_kused 0 (set_kk 0 (set_h0u (hh s1) s1)))); [tauto|reflexivity]. }
  cbv zeta. rewrite Kh in *. split; [exact Fh|exact FR].
Qed.

(** ** The invariant *)
Hypothesis Hl : @nls_lawful R NSt _.
Variable c : @config R.
Hypothesis Hc : config_ok c.
Notation hi := (g_hmax_inv c).
Notation now := (now c).

(** The size of the first attempt after an accepted step of size [hl] that
    ended at [t]: one of [next_size], possibly cut off to end just before the
    stop time. *)
Definition chosen (t hl h : R) : Prop :=
  exists h0, next_size hi hl h0 /\
    (h = h0 \/ exists ts q, g_tstop c = Some ts /\ h = (ts - t) * (1 - 4 * eps) /\ h = q * h0 /\ 0 < q <= 1).

Definition exact_time (t : R) (past : list (event R)) : Prop :=
  exists h k, last_try past = Some (now past, h, k) /\ t = now past + h.

Definition rlegal (e : event R) (past : list (event R)) : Prop :=
  match e with
  | CTry t h k =>
      h <> 0 /\ Rabs h * hi <= 1 /\ Forall (fun a => 0 < h * a_h a) (steps past) /\
      (forall a rest, steps past = a :: rest -> tries_since past = 0%nat -> chosen t (a_h a) h)
  | CStep t _ => exact_time t past
  | CRes t _ _ => exact_time t past
  | _ => True
  end.

Record rl (o : option (R * nat)) (st : state) : Prop := mkrl {
  rl_every : every rlegal (tr st);
  rl_h : (nst st <> 0%nat \/ o <> None) -> hh st <> 0 /\ Rabs (hh st) * hi <= 1;
  rl_sign : Forall (fun a => 0 < hh st * a_h a) (steps (tr st));
  rl_stop : forall ts, tstop st = Some ts -> nst st <> 0%nat \/ o <> None ->
    (tn (nlp st) - ts) * hh st <= 0 /\ (o <> None -> (tn (nlp st) + hh st - ts) * hh st <= 0);
  rl_passed : forall ts, tstop st = Some ts -> Forall (fun a => (a_t a - ts) * hh st <= 0) (steps (tr st));
  rl_next : forall a rest, steps (tr st) = a :: rest -> tries_since (tr st) = 0%nat ->
    chosen (tn (nlp st)) (a_h a) (hh st) }.

Definition J o (st : state) : Prop := tlink prob c o st /\ rl o st.

Lemma rl_quiet (a b : state) evs : tlink prob c None a -> rl None a ->
  tstop b = tstop a \/ tstop b = None -> tr b = evs ++ tr a ->
  Forall (fun e => is_root e || is_warn e = true) evs ->
  tn (nlp b) = tn (nlp a) -> nst b = nst a -> (nst a <> 0%nat -> hh b = hh a) -> rl None b.
Proof.
  intros L [R1 R2 R3 R4 R5 R6] C2 C3 C4 C5 C6 C7.
  assert (Cq : Forall (fun e => calm e = true) evs).
  { eapply Forall_impl; [|exact C4]. intros e; destruct e; cbn; congruence. }
  destruct (calm_app evs (tr a) Cq) as (_ & _ & A3 & A4). pose proof (tl_n _ _ _ _ L) as Ln.
  assert (Hs : steps (tr a) = [] \/ hh b = hh a).
  { destruct (steps (tr a)); [auto|]. right. apply C7. rewrite <- Ln. discriminate. }
  constructor; rewrite ?C3, ?A3, ?A4, ?C5, ?C6.
  - apply every_app; [|exact R1]. intros e q Hi. eapply Forall_forall in C4; [|exact Hi].
    destruct e; cbn in *; auto; discriminate.
  - intros [Hz|Hz]; [|congruence]. rewrite (C7 Hz). auto.
  - destruct Hs as [-> | ->]; [constructor|exact R3].
  - intros ts Et [Hz|Hz]; [|congruence]. rewrite (C7 Hz). apply R4; [|auto]. destruct C2; congruence.
  - intros ts Et. destruct Hs as [-> | ->]; [constructor|]. apply R5. destruct C2; congruence.
  - intros x rest E. destruct Hs as [Q|Q]; [rewrite Q in E; discriminate|]. rewrite Q. exact (R6 _ _ E).
Qed.

Lemma J_new yy0 yp0 : i_new prob J c yy0 yp0.
Proof.
  intros st E. split; [exact (tlink_new prob c yy0 yp0 st E)|].
  pose proof (new_fields prob _ _ _ E) as F.
  destruct F as (_ & _ & _ & F4 & _ & _ & _ & _ & _ & F10 & _).
  assert (Et : tr (configure c st) = []) by exact F10. assert (En : nst (configure c st) = 0%nat) by exact F4.
  constructor; rewrite ?Et, ?En.
  - apply every_nil.
  - intros [X|X]; congruence.
  - constructor.
  - intros ts _ [X|X]; congruence.
  - constructor.
  - intros a rest X. discriminate.
Qed.

Lemma J_shell : i_shell prob J.
Proof.
  intros a b Ho (L & R) S. split; [exact (tlink_shell prob c a b Ho L S)|].
  destruct (sh_trace _ _ _ S) as (evs & T1 & T2 & _).
  pose proof (core_fields _ _ (sh_core _ _ _ S)) as D.
  apply (rl_quiet a b evs L R); try tauto. apply (sh_tstop _ _ _ S).
Qed.

Lemma J_lims : i_lims J.
Proof.
  intros a b Ho (L & R) Hz S. split; [exact (tlink_lims prob c a b Ho L Hz S)|].
  destruct S as [(Ht & ->)|(ts & Ht & Hat & ->)]; [exact R|].
  destruct R as [R1 R2 R3 R4 R5 R6].
  assert (Hl' : limit_to_tstop a ts = set_hh (hh (limit_to_tstop a ts)) a).
  { unfold limit_to_tstop. destruct (_ <? _)%sc; [reflexivity|]. destruct a; reflexivity. }
  assert (Hh : hh (limit_to_tstop a ts) = if Rltb 0 ((tn (nlp a) + hh a - ts) * hh a)
     then (ts - tn (nlp a)) * (1 - 4 * eps) else hh a).
  { unfold limit_to_tstop. cbn [sltb szero smul sadd ssub sone sfour seps ScalarR].
    destruct (Rltb _ _); reflexivity. }
  rewrite Hl'. set (h := hh (limit_to_tstop a ts)) in *. clearbody h. clear Hl'.
  destruct (R2 (or_introl Hz)) as (R2a & R2b). destruct (R4 _ Ht (or_introl Hz)) as (R4a & _).
  assert (Hne : tn (nlp a) <> ts).
  { intros E. unfold at_tstop in Hat. cbn [sleb sabs ssub smul shundred seps sadd ScalarR] in Hat.
    rewrite E in Hat. apply Rleb_false in Hat. rewrite Rminus_diag_eq, Rabs_R0 in Hat by reflexivity.
    pose proof (Rabs_pos ts). pose proof (Rabs_pos (hh a)). nra. }
  destruct (limit_R _ _ _ _ R2a R4a Hne Hh) as (A1 & A2 & A3 & A4 & (q & A5 & A6) & A7).
  assert (Hsg : forall x, 0 < hh a * x -> 0 < h * x) by (intros x Hx; subst h; nra).
  constructor; cbn [hh set_hh nlp nst tstop].
  - exact R1.
  - intros _. split; [intros ->; lra|]. apply abs_mono_inv with (hh a); assumption.
  - eapply Forall_impl; [|exact R3]. intros x. cbn. apply Hsg.
  - intros ts' Et _. assert (ts' = ts) by congruence. subst ts'. split; [lra|intros; congruence].
  - intros ts' Et. assert (ts' = ts) by congruence. subst ts'.
    eapply Forall_impl; [|exact (R5 _ Ht)]. intros x Hx. cbn in Hx. subst h.
    replace ((a_t x - ts) * (q * hh a)) with (q * ((a_t x - ts) * hh a)) by ring. nra.
  - intros x rest E Hts. destruct (R6 _ _ E Hts) as (h0 & N1 & N2). exists h0. split; [exact N1|].
    assert (Hcs : g_tstop c = Some ts).
    { destruct (tl_tstop _ _ _ _ L) as [Q|Q]; congruence. }
    destruct A7 as [-> |A7]; [exact N2|]. right. destruct N2 as [N2|(ts' & q' & M1 & M2 & M3 & M4)].
    + exists ts, q. rewrite <- N2. auto.
    + exists ts, (q * q'). split; [exact Hcs|]. split; [exact A7|]. split; [rewrite A6, M3; ring|nra].
Qed.

Lemma J_first : i_first prob ewt_set J.
Proof.
  intros a tout x Ho (L & R) Hz E. split; [exact (tlink_first prob ewt_set c a tout x Ho L Hz E)|].
  apply first_call_frame in E. cbv zeta in E. destruct E as (F1 & _ & _ & _ & F2).
  set (b := match x with inl (s, _) => s | inr s => s end) in *.
  assert (Ht : exists evs, tr b = evs ++ tr a /\ Forall (fun e => is_root e || is_warn e = true) evs).
  { destruct x as [(s & m)|s]; subst b.
    - destruct F2 as (_ & _ & _ & F2 & _). exists []. rewrite F2. auto.
    - destruct F2 as (_ & _ & _ & _ & _ & _ & evs & F3 & F4 & _). exists evs. split; [exact F3|].
      eapply Forall_impl; [|exact F4]. cbn. intros e ->. reflexivity. }
  destruct Ht as (evs & T1 & T2). apply fkeep_fields in F1.
  apply (rl_quiet a b evs L R); intuition congruence.
Qed.

(** The step size when the first-call block has just been passed. *)
Lemma fresh_first_R (st : state) : fresh prob ewt_set st -> nst st = 0%nat -> tlink prob c None st ->
  hh st <> 0 /\ Rabs (hh st) * hi <= 1 /\
  (forall ts, tstop st = Some ts -> (tn (nlp st) - ts) * hh st <= 0).
Proof.
  intros [F|(a & tout & s & Ha & E & S)] Hz L; [contradiction|].
  pose proof (core_fields _ _ (sh_core _ _ _ S)) as D.
  destruct D as (Dc & _ & _ & _ & _ & _ & _ & _ & _ & _ & _ & _ & D1 & _ & _ & _ & _ & _ & D2 & _).
  apply cfg_fields in Dc.
  assert (Hhi : hmax_inv st = hi) by (destruct (tl_cfg _ _ _ _ L) as (_ & _ & _ & Q & _); exact Q).
  pose proof (first_call_frame _ _ _ _ _ E) as Fr. cbv zeta in Fr. destruct Fr as (F1 & _).
  apply fkeep_fields in F1.
  destruct (first_call_R _ _ _ E) as (_ & P1 & P2 & _ & _ & P5). rewrite D1, D2.
  assert (Hb : hmax_inv a = hi).
  { destruct F1 as (F1 & _). apply cfg_fields in F1. rewrite <- Hhi. intuition congruence. }
  split; [intros Q; rewrite Q in P1; lra|]. split; [rewrite <- Hb; exact P2|].
  intros ts Ets. destruct (P5 ts) as (P6 & _).
  { destruct (sh_tstop _ _ _ S) as [Q|Q]; [|congruence]. intuition congruence. }
  assert (tn (nlp s) = tn (nlp a)) by intuition congruence. nra.
Qed.

Lemma J_begin : i_begin prob ewt_set J.
Proof.
  intros st Ho (L & R) Hlim Hfr. split; [exact (tlink_begin prob ewt_set c st Ho L Hlim Hfr)|].
  pose proof (tl_n _ _ _ _ L) as Ln.
  destruct (init_fields st) as (F1 & F2 & F3 & F4 & F5 & F6 & F7 & F8 & F9 & F10 & F11 & F12 & F13 & F14 &
    F15 & F16 & F17 & F18 & F19 & _).
  apply outer_fields in F2. destruct F2 as (_ & F2 & _).
  destruct R as [R1 R2 R3 R4 R5 R6].
  assert (Hh : hh st <> 0 /\ Rabs (hh st) * hi <= 1 /\
     (forall ts, tstop st = Some ts -> (tn (nlp st) - ts) * hh st <= 0)).
  { destruct (Nat.eq_dec (nst st) 0) as [Hz|Hz].
    - exact (fresh_first_R st Hfr Hz L).
    - destruct (R2 (or_introl Hz)). split; [assumption|]. split; [assumption|].
      intros ts Et. apply (R4 ts Et (or_introl Hz)). }
  destruct Hh as (H1 & H2 & H3).
  assert (Hst : forall ts, tstop st = Some ts -> (tn (nlp st) + hh st - ts) * hh st <= 0).
  { intros ts Et. destruct (Hlim ts Et) as (h0 & Eh).
    cbn [sltb szero smul sadd ssub sone sfour seps ScalarR] in Eh. fold eps in Eh. pose proof eps_pos.
    destruct (Rltb _ _) eqn:Eb.
    - set (d := ts - tn (nlp st)) in *.
      replace ((tn (nlp st) + hh st - ts) * hh st) with (- (4 * eps * (1 - 4 * eps)) * (d * d)).
      2:{ rewrite Eh. unfold d. ring. }
      assert (0 <= d * d) by nra. assert (0 <= 4 * eps * (1 - 4 * eps)) by nra. nra.
    - apply Rltb_false in Eb. rewrite Eh. exact Eb. }
  constructor; rewrite ?F19, ?F8, ?F14, ?F7, ?F2.
  - apply every_cons; [exact I|exact R1].
  - auto.
  - exact R3.
  - intros ts Et _. auto.
  - intros ts Et. exact (R5 ts Et).
  - exact R6.
Qed.

(** One attempt. *)
Lemma rl_try (st st1 : state) t0 nef ck r :
  instep st -> J (Some (t0, nef)) st -> tried prob st st1 ck r -> attempted prob st st1 r ->
  exists evs, tr st1 = fails r ++ evs ++ CTry (tn (nlp st)) (hh st) (kk st) :: tr st /\
    Forall (fun e => calm e = true) evs /\ every rlegal (tr st1) /\ tn_next st = now (tr st) + hh st.
Proof.
  intros Hi (L & R) Htr (evs & A1 & A2 & _). pose proof (tl_tn _ _ _ _ L) as L4.
  destruct R as [R1 R2 R3 R4 R5 R6].
  assert (Ho : Some (t0, nef) <> None) by congruence.
  destruct (R2 (or_intror Ho)) as (H1 & H2).
  assert (Hn : tn_next st = now (tr st) + hh st).
  { unfold tn_next. rewrite L4. destruct (tstop st) as [ts|] eqn:Ets; [|reflexivity].
    destruct (R4 ts eq_refl (or_intror Ho)) as (_ & R7). specialize (R7 Ho). rewrite L4 in R7.
    cbn [sltb sone smul sadd ssub ScalarR]. destruct (Rltb _ _) eqn:Eb; [|reflexivity].
    apply Rltb_true in Eb. lra. }
  assert (Q : quiet_evs evs) by exact (call_in_callback prob ewt_set _ _ _ A2). pose proof (quiet_calm _ Q) as Qc.
  exists evs. split; [exact A1|]. split; [exact Qc|]. split; [|exact Hn].
  assert (Ht : every rlegal (CTry (tn (nlp st)) (hh st) (kk st) :: tr st)).
  { apply every_cons; [|exact R1]. split; [exact H1|]. split; [exact H2|]. split; [exact R3|exact R6]. }
  assert (He : every rlegal (evs ++ CTry (tn (nlp st)) (hh st) (kk st) :: tr st)).
  { clear A1. revert A2 Qc. clear Q. induction evs as [|e evs IH]; intros A2 Qc; [exact Ht|].
    inversion A2 as [|? ? A3 A4]; subst. inversion Qc as [|? ? Q3 Q4]; subst. cbn.
    apply every_cons; [|exact (IH A4 Q4)]. destruct (calm_app evs (CTry (tn (nlp st)) (hh st) (kk st) :: tr st) Q4)
      as (S1 & S2 & S3 & S4).
    destruct e; cbn in A3 |- *; try contradiction; auto.
    destruct A3 as (-> & _). exists (hh st), (kk st). unfold IdaTrace.now. rewrite S1, S3. cbn.
    rewrite L4. auto. }
  rewrite A1. unfold fails. destruct r as [u|[[]| |]]; try exact He. cbn [app]. apply every_cons; [exact I|exact He].
Qed.

Lemma J_retry : i_retry prob J.
Proof.
  intros st t0 nef st1 ck ek ek1 st' Hi (L & R) Et Htr Hat Hn Hrt.
  split; [exact (tlink_retry prob ewt_set c st t0 nef st1 ck ek ek1 st' Hi L Et Htr Hat Hn Hrt)|].
  destruct (rl_try _ _ _ _ _ _ Hi (conj L R) Htr Hat) as (evs & A1 & Ac & A3 & _).
  destruct (calm_app evs (CTry (tn (nlp st)) (hh st) (kk st) :: tr st) Ac) as (S1 & S2 & S3 & S4).
  pose proof (tl_in _ _ _ _ L) as (L10 & _ & _ & _).
  destruct R as [R1 R2 R3 R4 R5 R6].
  assert (Ho : Some (t0, nef) <> None) by congruence.
  destruct (R2 (or_intror Ho)) as (H1 & H2).
  pose proof (rt_nlp _ _ _ _ _ Hrt) as U1. pose proof (rt_keep _ _ _ _ _ Hrt) as U3.
  pose proof (tr_cnt _ _ _ _ _ Htr) as U4. pose proof (tr_h _ _ _ _ _ Htr) as U6.
  pose proof (rt_hh _ _ _ _ _ Hrt) as U8.
  assert (Hq : / 4 <= rr st' <= 9 / 10).
  { apply (factor_R (nef + 1)); [lia|]. split; intros Hf.
    - apply (rt_rr0 _ _ _ _ _ Hrt). lia.
    - apply (rt_rr1 _ _ _ _ _ Hrt). lia. }
  assert (Hout : outer st' = outer st) by (rewrite (rt_outer _ _ _ _ _ Hrt); apply Htr).
  apply outer_fields in Hout. destruct Hout as (_ & Hts & _).
  pinj. assert (Ht : tr st' = CFail :: evs ++ CTry (tn (nlp st)) (hh st) (kk st) :: tr st).
  { rewrite U1. cbn [lp set_tn trace]. exact A1. }
  assert (Hs : steps (tr st') = steps (tr st)) by (rewrite Ht; cbn; exact S3).
  assert (Eh : hh st' = hh st * rr st') by (cbn [smul ScalarR] in U8; congruence).
  set (q := rr st') in *. clearbody q.
  destruct (shrink_R (hh st) q hi H1) as (B1 & B2 & B3); [lra|exact H2|].
  assert (Etn : tn (nlp st') = tn (nlp st)) by (rewrite U1; cbn; exact L10).
  constructor; rewrite ?Hs, ?Eh, ?Etn, ?Hts.
  - rewrite U1. exact A3.
  - auto.
  - eapply Forall_impl; [|exact R3]. intros a Ha. cbn in Ha. nra.
  - intros ts E _. destruct (R4 ts E (or_intror Ho)) as (V1 & V2). specialize (V2 Ho). split.
    + replace ((tn (nlp st) - ts) * (hh st * q)) with (q * ((tn (nlp st) - ts) * hh st)) by ring. nra.
    + intros _. set (d := tn (nlp st) - ts) in *.
      replace ((tn (nlp st) + hh st * q - ts) * (hh st * q)) with (q * (d * hh st) + q * q * (hh st * hh st)) by (unfold d; ring).
      replace ((tn (nlp st) + hh st - ts) * hh st) with (d * hh st + hh st * hh st) in V2 by (unfold d; ring).
      pose proof (sq_pos _ H1).
      assert (q * q * (hh st * hh st) <= q * (hh st * hh st)) by nra. nra.
  - intros ts E. eapply Forall_impl; [|exact (R5 ts E)]. intros a Ha. cbn in Ha.
    replace ((a_t a - ts) * (hh st * q)) with (q * ((a_t a - ts) * hh st)) by ring. nra.
  - intros a rest E Hc0. rewrite Ht in Hc0. cbn in Hc0. rewrite S4 in Hc0. discriminate.
Qed.

Lemma J_commit : i_commit prob J.
Proof.
  intros st t0 nef st1 ck ek ek1 st2 Hi (L & R) Et Htr Hat Hcp.
  split; [exact (tlink_commit prob ewt_set c st t0 nef st1 ck ek ek1 st2 Hi L Et Htr Hat Hcp)|].
  destruct (rl_try _ _ _ _ _ _ Hi (conj L R) Htr Hat) as (evs & A1 & Ac & A3 & A5).
  destruct (calm_app evs (CTry (tn (nlp st)) (hh st) (kk st) :: tr st) Ac) as (S1 & S2 & S3 & S4).
  pose proof (tl_in _ _ _ _ L) as (L10 & _ & _ & _). pose proof (tl_tn _ _ _ _ L) as L4.
  pose proof (tl_cfg _ _ _ _ L) as Lc.
  destruct R as [R1 R2 R3 R4 R5 R6].
  assert (Ho : Some (t0, nef) <> None) by congruence.
  destruct (R2 (or_intror Ho)) as (H1 & H2).
  pose proof (cp_used _ _ _ Hcp) as U1. pose proof (cp_nlp _ _ _ Hcp) as U2.
  pose proof (tr_h _ _ _ _ _ Htr) as U6. pose proof (tr_tn _ _ _ _ _ Htr) as U7.
  pose proof (cp_hh _ _ _ Hcp) as U8.
  assert (Hcf : cfg st1 = cfg st) by apply Htr. apply cfg_fields in Hcf.
  assert (Hmi : hmax_inv st1 = hi).
  { destruct Lc as (_ & _ & _ & Q & _). rewrite <- Q. tauto. }
  assert (Hout : outer st2 = outer st) by (rewrite (cp_outer _ _ _ Hcp); apply Htr).
  apply outer_fields in Hout. destruct Hout as (_ & Hts & _). pinj.
  set (y := yy (nlp st2)) in *.
  assert (Ht : tr (st_commit prob ck st2) = CStep (tn_next st) y :: evs ++ CTry (tn (nlp st)) (hh st) (kk st) :: tr st).
  { unfold st_commit. cbn [nlp lp trace set_ee on_lp on_nlp set_nlp set_lp push_ev set_trace].
    rewrite U2, U7, A1. unfold y. rewrite U2. reflexivity. }
  cbn [fails app] in A1.
  assert (Hs : steps (tr (st_commit prob ck st2)) = mkastep (tn_next st) y (hh st) (kk st) :: steps (tr st)).
  { rewrite Ht. cbn. rewrite S1, S3. reflexivity. }
  assert (Etn : tn (nlp (st_commit prob ck st2)) = tn_next st) by (cbn; rewrite U2; exact U7).
  change (tstop st2) with (tstop (st_commit prob ck st2)) in Hts.
  assert (Hh1 : hh st1 = hh st) by assumption.
  rewrite Hmi, Hh1 in U8.
  change (hh st2) with (hh (st_commit prob ck st2)) in U8.
  destruct (next_h_R _ _ _ H1 H2 U8) as (B1 & B2 & B3 & B4).
  remember (hh (st_commit prob ck st2)) as h eqn:Ehh.
  assert (Hsg : forall x, 0 < hh st * x -> 0 < h * x).
  { intros x Hx. destruct (same_sign_cases _ _ B3) as [(?&?)|(?&?)], (same_sign_cases _ _ Hx) as [(?&?)|(?&?)]; try lra; nra. }
  assert (Hng : forall x, x * hh st <= 0 -> x * h <= 0).
  { intros x Hx. destruct (same_sign_cases _ _ B3) as [(?&?)|(?&?)]; nra. }
  assert (Hnx : tn_next st = tn (nlp st) + hh st) by (rewrite L4; exact A5).
  assert (Hst : forall ts, tstop st = Some ts -> (tn_next st - ts) * h <= 0).
  { intros ts E. apply Hng. destruct (R4 ts E (or_intror Ho)) as (_ & V2). rewrite Hnx. exact (V2 Ho). }
  constructor; rewrite ?Hs, ?Etn, ?Hts, <- ?Ehh.
  - rewrite Ht. apply every_cons; [|rewrite <- A1; exact A3].
    exists (hh st), (kk st). unfold IdaTrace.now. rewrite S1, S3. cbn. rewrite L4.
    split; [reflexivity|exact A5].
  - auto.
  - constructor; [cbn; lra|]. eapply Forall_impl; [|exact R3]. intros a Ha. cbn in Ha |- *. auto.
  - intros ts E _. split; [exact (Hst ts E)|intros; congruence].
  - intros ts E. constructor; [exact (Hst ts E)|]. eapply Forall_impl; [|exact (R5 ts E)].
    intros a Ha. cbn in Ha |- *. auto.
  - intros a rest E _. injection E as <- <-. cbn. exists h. split; [exact B4|auto].
Qed.

Lemma J_giveup : i_giveup prob J.
Proof.
  intros st t0 nef st1 ck ek ek1 st' e Hi (L & R) Et Htr Hat Hg He.
  split; [exact (tlink_giveup prob ewt_set c st t0 nef st1 ck ek ek1 st' e Hi L Et Htr Hat Hg He)|].
  destruct (rl_try _ _ _ _ _ _ Hi (conj L R) Htr Hat) as (evs & A1 & Ac & A3 & A5).
  destruct (calm_app evs (CTry (tn (nlp st)) (hh st) (kk st) :: tr st) Ac) as (S1 & S2 & S3 & S4).
  pose proof (tl_in _ _ _ _ L) as (L10 & _ & _ & _).
  destruct R as [R1 R2 R3 R4 R5 R6].
  assert (Ho : Some (t0, nef) <> None) by congruence.
  destruct (R2 (or_intror Ho)) as (H1 & H2).
  pose proof (gu_keep _ _ _ _ Hg) as U1. pose proof (gu_nlp _ _ _ _ Hg) as U2.
  pose proof (tr_h _ _ _ _ _ Htr) as U6.
  assert (Hout : outer st' = outer st) by (rewrite (gu_outer _ _ _ _ Hg); apply Htr).
  apply outer_fields in Hout. destruct Hout as (_ & Hts & _). pinj.
  assert (Ht : tr st' = fails (Err e) ++ evs ++ CTry (tn (nlp st)) (hh st) (kk st) :: tr st).
  { rewrite U2. cbn [lp set_tn trace]. exact A1. }
  assert (Hs : steps (tr st') = steps (tr st) /\ tries_since (tr st') = S (tries_since (tr st))).
  { rewrite Ht. destruct He as [(-> & _)|((m & ->) & _)]; cbn; auto. }
  destruct Hs as (Hs & Hti).
  assert (Etn : tn (nlp st') = tn (nlp st)) by (rewrite U2; cbn; exact L10).
  assert (Eh : hh st' = hh st) by congruence.
  constructor; rewrite ?Hs, ?Hti, ?Etn, ?Hts, ?Eh.
  - rewrite U2. exact A3.
  - auto.
  - exact R3.
  - intros ts E _. split; [apply (R4 ts E (or_intror Ho))|intros; congruence].
  - exact R5.
  - intros a rest _ Q. discriminate.
Qed.

Lemma reach_J yy0 yp0 (st : state) : reach prob ewt_set c yy0 yp0 st -> J None st.
Proof.
  apply (reach_life prob ewt_set Hl J c yy0 yp0 st Hc);
    [apply J_new|apply J_shell|apply J_lims|apply J_first|].
  split; [exact J_begin|]. split; [exact J_retry|]. split; [exact J_commit|exact J_giveup].
Qed.
End StepR.
