(** * PropIdaLife: properties of every life of an integrator object, for every
      scalar: C31-C33, C35, C40, C43, C53 (src/lib.rs, src/ida_io.rs) *)
Require Import List Arith Bool Lia Reals Floats.
Import ListNotations.
Require Import Verif.Base Verif.Scalar Verif.ScalarR Verif.ScalarF Verif.Norms Verif.Newton Verif.IdaState
  Verif.IdaNls Verif.IdaCore Verif.IdaRoots Verif.IdaSolve Verif.IdaIo Verif.BaseFacts
  Verif.IdaFacts Verif.IdaLoops Verif.IdaSpec Verif.IdaReach Verif.IdaInv Verif.IdaCount
  Verif.IdaTrace Verif.IdaAccept Verif.Witness.
Open Scope nat_scope.

Section Life.
Context {T LSt NSt : Type} `{Scalar T} `{LSolver T LSt} `{NLSolver T NSt}.
Variable prob : problem T.
Variable ewt_set : list T -> list T.
Notation state := (ida T LSt NSt).
Notation tr st := (trace (lp (nlp st))).

(** ** C31 *)
(** [config_ok c] says 1 <= maxord <= 5; the default is 5. *)
Theorem C31_orders : @nls_lawful T NSt _ -> forall c yy0 yp0 (st : state),
  config_ok c -> reach prob ewt_set c yy0 yp0 st ->
  (forall new past t h k, tr st = new ++ CTry t h k :: past -> 1 <= k <= 5) /\
  get_last_order st <= 5 /\ get_current_order st <= 5 /\
  (get_num_steps st <> 0 -> 1 <= get_last_order st /\ 1 <= get_current_order st).
Proof.
  intros Hl c yy0 yp0 st Hc Hr.
  pose proof (reach_ord prob ewt_set Hl c yy0 yp0 st Hc Hr) as (_ & M & K1 & K2 & K3).
  pose proof (reach_tlink prob ewt_set Hl c Hc yy0 yp0 st Hr) as L.
  split; [|unfold get_last_order, get_current_order, get_num_steps; split; [lia|split; [lia|]]].
  - intros new past t h k E. pose proof (tl_every _ _ _ _ L _ _ _ E) as Q. cbn in Q.
    pose proof (lt_k _ _ _ _ _ Q). unfold config_ok in Hc. lia.
  - intros Hz. specialize (K3 Hz). lia.
Qed.

(** ** C32 *)
(** [a] is the latest accepted step before the attempt, [rest] the ones before
    it.  The last clause: an increase directly after an increase happens only
    during start-up, where the n-th step has order n. *)
Theorem C32_order_changes : @nls_lawful T NSt _ -> forall c yy0 yp0 (st : state),
  config_ok c -> reach prob ewt_set c yy0 yp0 st ->
  forall new past t h k, tr st = new ++ CTry t h k :: past ->
  (steps past = [] -> k = 1) /\
  (forall a rest, steps past = a :: rest ->
     k <= a_k a + 1 /\
     (tries_since past = 0 -> a_k a <= k + 1) /\
     (k = a_k a + 1 -> forall b rest', rest = b :: rest' -> a_k a = a_k b + 1 ->
        length (steps past) = k)).
Proof.
  intros Hl c yy0 yp0 st Hc Hr new past t h k E.
  pose proof (reach_tlink prob ewt_set Hl c Hc yy0 yp0 st Hr) as L.
  pose proof (tl_every _ _ _ _ L _ _ _ E) as Q. cbn in Q. destruct Q as [_ _ Q1 Q2 Q3 Q4 _].
  split; [exact Q1|]. intros a rest Es. split; [eapply Q2; eassumption|]. split; [intros; eapply Q3; eassumption|].
  intros Hk b rest' Er Hb. destruct (Q4 _ _ Es Hk) as [D|(b' & r' & D1 & D2)]; [exact D|].
  rewrite Er in D1. injection D1 as -> ->. contradiction.
Qed.

(** ** C33, C40 *)
(** [ordok] holds in every state of a life: [reach_ord] and [piece_ord]. *)
Theorem C33_accepted_step_passed_the_error_test : @nls_lawful T NSt _ ->
  forall fuel (st st' : state) u,
  ordok st -> step prob fuel st = Ret (st', Ok u) ->
  exists nl x d e0 call nl' x' e,
    nls_solve _ (ida_nlproblem prob) (model_size prob) nl x d e0 (ewt (nlp st)) (eps_newt st) call
      = Ret (nl', x', e, Ok tt) /\
    (let k := kused st' in let al := alpha st' in
     let ck := smax (sabs (vget al k + asum k - a0sum al k)%sc) (vget al k) in
     (ck * wrms_norm (idv st) e (ewt (nlp st)) (suppressalg st) <=? sone)%sc = true /\
     ee st' = vscale (model_size prob) ck e).
Proof.
  intros Hl fuel st st' u HO E. destruct (accepted prob Hl _ _ _ _ HO E)
    as (nl & x & d & e0 & call & nl' & x' & e & A1 & A2 & A3 & A4 & A5 & A6 & A7 & _).
  exists nl, x, d, e0, call, nl', x', e. auto.
Qed.

Theorem C40_accepted_solution : @nls_lawful T NSt _ ->
  forall fuel (st st' : state) u,
  ordok st -> step prob fuel st = Ret (st', Ok u) ->
  exists nl x d e0 call nl' x' e,
    nls_solve _ (ida_nlproblem prob) (model_size prob) nl x d e0 (ewt (nlp st)) (eps_newt st) call
      = Ret (nl', x', e, Ok tt) /\
    tn x = get_current_time st' /\ cj (lp x) = (- asum (get_last_order st') / get_last_step st')%sc /\
    get_yy st' = vadd (model_size prob) (yypredict x) e /\
    get_yp st' = vscaled_add (model_size prob) (yppredict x) (cj (lp x)) e /\
    exists past, tr st' = CStep (get_current_time st') (get_yy st') :: past.
Proof.
  intros Hl fuel st st' u HO E. destruct (accepted prob Hl _ _ _ _ HO E)
    as (nl & x & d & e0 & call & nl' & x' & e & A1 & A2 & A3 & A4 & A5 & A6 & A7 & A8 & _).
  exists nl, x, d, e0, call, nl', x', e. auto 7.
Qed.

(** Every residual evaluation of a nonlinear solve is at a corrected
    prediction, at the time of the prediction. *)
Theorem C40_residual_arguments : @nls_lawful T NSt _ -> forall (st st' : state) r,
  nonlinear_solve prob st = Ret (st', r) ->
  exists evs, tr st' = evs ++ tr st /\
    Forall (fun e => match e with
      | CRes t y yp => t = tn (nlp st) /\ exists c, y = vadd (model_size prob) (yypredict (nlp st)) c /\
          yp = vscaled_add (model_size prob) (yppredict (nlp st)) (cj (lp (nlp st))) c
      | CJac t cj' _ _ => t = szero /\ cj' = cj (lp (nlp st))
      | _ => False end) evs /\
    (r = Ok tt -> yy (nlp st') = vadd (model_size prob) (yypredict (nlp st)) (ee st') /\
       yp (nlp st') = vscaled_add (model_size prob) (yppredict (nlp st)) (cj (lp (nlp st))) (ee st')).
Proof.
  intros Hl st st' r E. destruct (nonlinear_solve_calls prob Hl _ _ _ E) as (evs & T1 & T2 & _).
  exists evs. split; [exact T1|]. split; [exact T2|].
  destruct (nonlinear_solve_frame prob Hl _ _ _ E) as (_ & _ & _ & _ & _ & _ & _ & _ & _ & K & R).
  intros ->. apply keep_fields in K. destruct K as (K1 & K2 & _ & _ & _ & K3).
  rewrite <- K1, <- K2, <- K3. tauto.
Qed.

(** ** C35: number of failures *)
(** Between two starts of an internal step there are at most max(maxnef, 3)
    failed error tests ([fails_now past] counts those before). *)
Theorem C35_at_most_ten_failures : @nls_lawful T NSt _ -> forall c yy0 yp0 (st : state),
  config_ok c -> reach prob ewt_set c yy0 yp0 st ->
  forall new past, tr st = new ++ CFail :: past ->
  fails_now (CFail :: past) <= Nat.max (g_maxnef c) 3.
Proof.
  intros Hl c yy0 yp0 st Hc Hr new past E.
  pose proof (reach_tlink prob ewt_set Hl c Hc yy0 yp0 st Hr) as L.
  pose proof (tl_every _ _ _ _ L _ _ _ E) as Q. cbn in Q |- *. lia.
Qed.

(** ** C43 *)
Theorem C43_jac_time_partial : @nls_lawful T NSt _ -> forall c yy0 yp0 (st : state),
  config_ok c -> reach prob ewt_set c yy0 yp0 st ->
  forall new past t cj' y yp, tr st = new ++ CJac t cj' y yp :: past -> t = szero.
Proof.
  intros Hl c yy0 yp0 st Hc Hr new past t cj' y yp E.
  pose proof (reach_tlink prob ewt_set Hl c Hc yy0 yp0 st Hr) as L.
  exact (tl_every _ _ _ _ L _ _ _ E).
Qed.

(** ** C53 *)
Theorem C53_counters_are_exact : @nls_lawful T NSt _ -> forall c yy0 yp0 (st : state),
  config_ok c -> reach prob ewt_set c yy0 yp0 st ->
  get_num_steps st = length (filter is_step (tr st)) /\
  get_num_res_evals st = length (filter is_res (tr st)) /\
  get_num_jac_evals st = length (filter is_jac (tr st)) /\
  (model_size prob <> 0 -> get_num_lin_solv_setups st = length (filter is_jac (tr st))) /\
  get_num_err_test_fails st = length (filter is_fail (tr st)).
Proof. intros Hl c yy0 yp0 st Hc Hr. exact (reach_counted prob ewt_set Hl c yy0 yp0 st Hc Hr). Qed.

Theorem C53_counters_are_monotone : @nls_lawful T NSt _ -> forall c yy0 yp0 (st st' : state) fuel rfuel k rep,
  config_ok c -> reach prob ewt_set c yy0 yp0 st ->
  api_call prob ewt_set fuel rfuel st k = Ret (st', rep) ->
  get_num_steps st <= get_num_steps st' /\ get_num_res_evals st <= get_num_res_evals st' /\
  get_num_jac_evals st <= get_num_jac_evals st' /\
  (model_size prob <> 0 -> get_num_lin_solv_setups st <= get_num_lin_solv_setups st') /\
  get_num_err_test_fails st <= get_num_err_test_fails st' /\
  get_num_nonlin_solv_conv_fails st <= get_num_nonlin_solv_conv_fails st' /\
  exists evs, tr st' = evs ++ tr st.
Proof.
  intros Hl c yy0 yp0 st st' fuel rfuel k rep Hc Hr E.
  pose proof (reach_ord prob ewt_set Hl c yy0 yp0 st Hc Hr) as HO.
  apply api_call_pieces in E.
  destruct (pieces_ext prob ewt_set Hl _ _ HO E) as (_ & evs & X1 & X2 & X3 & X4 & X5 & X6 & X7 & X8).
  unfold get_num_steps, get_num_res_evals, get_num_jac_evals, get_num_lin_solv_setups,
    get_num_err_test_fails, get_num_nonlin_solv_conv_fails.
  split; [lia|]. split; [lia|]. split; [lia|]. split; [intros Hz; specialize (X4 Hz); lia|].
  split; [lia|]. split; [lia|]. eauto.
Qed.
End Life.

Print Assumptions C31_orders.
Print Assumptions C32_order_changes.
Print Assumptions C33_accepted_step_passed_the_error_test.
Print Assumptions C40_accepted_solution.
Print Assumptions C40_residual_arguments.
Print Assumptions C35_at_most_ten_failures.
Print Assumptions C43_jac_time_partial.
Print Assumptions C53_counters_are_exact.
Print Assumptions C53_counters_are_monotone.

(** Over the reals the vector stored in the history is the accepted solution. *)
Theorem C40_history_holds_the_solution :
  forall (LSt NSt : Type) (LS : LSolver R LSt) (NS : NLSolver R NSt) (prob : problem R) fuel
         (st st' : ida R LSt NSt) u,
  nls_lawful -> ordok st -> step prob fuel st = Ret (st', Ok u) ->
  nth 0 (phi st') [] = get_yy st'.
Proof. intros LSt NSt LS NS prob fuel st st' u Hl. exact (accepted_row0 prob Hl fuel st st' u). Qed.
Print Assumptions C40_history_holds_the_solution.

(** ** Concrete cases: the Roberts example on binary64 *)

(** A life with 126 accepted steps, 2 failed error tests, orders 1 to 5. *)
Definition to_4000 : list (@call float) :=
  (to_4 ++ [CallSolve 40 0 Normal; CallSolve 400 0 Normal; CallSolve 4000 0 Normal])%float.

Example C31_C32_C35_C53_hypotheses_met :
  @nls_lawful float _ _ /\ config_ok robertsD /\
  exists st, roberts_reach st /\ get_num_steps st = 126 /\ get_num_err_test_fails st = 2 /\
    get_num_res_evals st = 178 /\ get_num_jac_evals st = 26 /\ get_num_lin_solv_setups st = 26 /\
    get_last_order st = 3 /\
    (exists new e past, trace (lp (nlp st)) = new ++ e :: past /\
       match e with CTry _ _ k => k = 5 | _ => False end) /\
    (exists new past, trace (lp (nlp st)) = new ++ CFail :: past).
Proof.
  split; [apply newton_lawful|]. split; [unfold config_ok; cbn; lia|].
  destruct (roberts_life_ok to_4000 (fun st _ =>
    (get_num_steps st =? 126) && (get_num_err_test_fails st =? 2) && (get_num_res_evals st =? 178) &&
    (get_num_jac_evals st =? 26) && (get_num_lin_solv_setups st =? 26) && (get_last_order st =? 3) &&
    existsb (fun e => match e with CTry _ _ k => k =? 5 | _ => false end) (trace (lp (nlp st))) &&
    existsb is_fail (trace (lp (nlp st))))) as (st & rs & Hr & Ht); [vm_compute; reflexivity|].
  exists st. split; [exact Hr|].
  repeat (apply andb_true_iff in Ht as (Ht & ?)).
  repeat match goal with X : (_ =? _) = true |- _ => apply Nat.eqb_eq in X end.
  repeat (split; [assumption|]). split.
  - destruct (existsb_split _ _ H0) as (new & e & past & E & He). exists new, e, past. split; [exact E|].
    destruct e; try discriminate. apply Nat.eqb_eq. exact He.
  - destruct (existsb_split _ _ H) as (new & e & past & E & He). exists new, past.
    destruct e; try discriminate. exact E.
Qed.

(** A step continuing that life, with the hypotheses of C33 and C40. *)
Example C33_C40_hypotheses_met :
  exists st st' : fstate, ordok st /\ step robertsF 100 st = Ret (st', Ok tt) /\ get_last_order st' = 3.
Proof.
  destruct (roberts_life_ok to_4000 (fun st _ =>
    match step robertsF 100 st with Ret (st', Ok tt) => get_last_order st' =? 3 | _ => false end))
    as (st & rs & Hr & Ht); [vm_compute; reflexivity|].
  destruct (step robertsF 100 st) as [(st' & [[]|e])| |] eqn:E; try discriminate.
  exists st, st'. split; [|split; [exact E|apply Nat.eqb_eq; exact Ht]].
  eapply reach_ord; [apply newton_lawful| |exact Hr]. unfold config_ok; cbn; lia.
Qed.

(** C43 fails: in the life of the Roberts example some nonlinear solve (no
    other event between the two calls) evaluates the residual at time [t] and the Jacobian at a
    different time [t'] (0, by [C43_jac_time_partial]). *)
Fixpoint jac_mismatch (tr : list (event float)) : bool :=
  match tr with
  | [] => false
  | CJac t' _ _ _ :: (CRes t _ _ :: _) as past => negb (t =? t')%float && (t =? t)%float && (t' =? t')%float || jac_mismatch past
  | _ :: past => jac_mismatch past
  end.

Lemma jac_mismatch_split tr : jac_mismatch tr = true ->
  exists new past t y yp t' c y' yp', tr = new ++ CJac t' c y' yp' :: CRes t y yp :: past /\
    (t =? t')%float = false /\ (t =? t)%float = true /\ (t' =? t')%float = true.
Proof.
  induction tr as [|e tr IH]; [discriminate|]. intros E.
  assert (G : jac_mismatch tr = true -> exists new past t y yp t' c y' yp',
     e :: tr = new ++ CJac t' c y' yp' :: CRes t y yp :: past /\
    (t =? t')%float = false /\ (t =? t)%float = true /\ (t' =? t')%float = true).
  { intros Q. destruct (IH Q) as (new & past & t & y & yp & t' & c & y' & yp' & -> & Ht).
    exists (e :: new), past, t, y, yp, t', c, y', yp'. auto. }
  destruct e as [ |t' c y' yp'| | | | | | ]; try (exact (G E)).
  destruct tr as [|[t y yp| | | | | | | ] past]; try (exact (G E)).
  change (negb (t =? t')%float && (t =? t)%float && (t' =? t')%float || jac_mismatch (CRes t y yp :: past) = true) in E.
  apply orb_true_iff in E as [E|E]; [|exact (G E)].
  repeat (apply andb_true_iff in E as (E & ?)).
  exists [], past, t, y, yp, t', c, y', yp'. cbn [app]. split; [reflexivity|]. split; [|auto].
  destruct (t =? t')%float; [discriminate|reflexivity].
Qed.

Theorem C43_jac_time_refuted :
  exists st : fstate, roberts_reach st /\
    exists new past t y yp t' c y' yp',
      trace (lp (nlp st)) = new ++ CJac t' c y' yp' :: CRes t y yp :: past /\
      (t =? t')%float = false /\ (t =? t)%float = true /\ (t' =? t')%float = true.
Proof.
  destruct (roberts_life_ok [CallSolve 0.4 0 OneStep]%float (fun st _ => jac_mismatch (trace (lp (nlp st)))))
    as (st & rs & Hr & Ht); [vm_compute; reflexivity|].
  exists st. split; [exact Hr|]. exact (jac_mismatch_split _ Ht).
Qed.
Print Assumptions C43_jac_time_refuted.

Example C40_residual_arguments_hypotheses_met :
  exists st st' : fstate, nonlinear_solve robertsF st = Ret (st', Ok tt).
Proof.
  destruct (roberts_life_ok to_4 (fun st _ =>
    match nonlinear_solve robertsF st with Ret (st', Ok tt) => true | _ => false end))
    as (st & rs & Hr & Ht); [vm_compute; reflexivity|].
  destruct (nonlinear_solve robertsF st) as [(st' & [[]|e])| |] eqn:E; try discriminate. eauto.
Qed.
