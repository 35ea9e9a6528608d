(** * IdaJac: when the Newton solver asks for a new Jacobian, over whole lives *)
Require Import List Arith Bool Lia.
Import ListNotations.
Require Import Verif.Base Verif.Scalar Verif.Norms Verif.Newton Verif.NewtonSpec Verif.IdaState
  Verif.IdaNls Verif.IdaCore Verif.IdaRoots Verif.IdaSolve Verif.BaseFacts Verif.NewtonFacts
  Verif.IdaFacts Verif.IdaLoops Verif.IdaStep Verif.IdaSpec Verif.IdaShell Verif.IdaReach Verif.IdaInv
  Verif.IdaCount Verif.IdaLife Verif.IdaTrace Verif.IdaAccept.
Open Scope nat_scope.

(** ** Vocabulary *)
(** The value of cj given to the latest Jacobian evaluation. *)
Fixpoint last_jac {T} (tr : list (event T)) : option T :=
  match tr with
  | [] => None
  | CJac _ c _ _ :: _ => Some c
  | _ :: past => last_jac past
  end.

Section Policy.
Context {T : Type} `{Scalar T}.

(** The leading coefficient of order [k] and step [h]. *)
Definition lead (k : nat) (h : T) : T := (- asum k / h)%sc.

(** A new Jacobian is due in an attempt of step [h] and order [k]. *)
Definition due (h : T) (k : nat) (past : list (event T)) : bool :=
  match steps past with
  | [] => true
  | _ :: _ =>
      match last_jac past with
      | None => true
      | Some c0 => (lead k h / c0 <? sxrate_lo)%sc || (srecip sxrate_lo <? lead k h / c0)%sc
      end
  end.

(** The attempt begins with a residual; the next event is a Jacobian with the
    attempt's leading coefficient if and only if one is due. *)
Definition jac_policy (e : event T) (past : list (event T)) : Prop :=
  match past with
  | CTry _ _ _ :: _ => is_res e = true
  | CRes _ _ _ :: CTry _ h k :: past =>
      is_jac e = due h k past /\ (forall t c y yp, e = CJac t c y yp -> c = lead k h)
  | _ => True
  end.

Definition settled (tr : list (event T)) : Prop :=
  match tr with
  | CTry _ _ _ :: _ => False
  | CRes _ _ _ :: CTry _ h k :: past => due h k past = false
  | _ => True
  end.

Lemma settled_push (e : event T) tr : settled tr -> is_jac e = false -> is_try e = false ->
  jac_policy e tr /\ settled (e :: tr).
Proof.
  intros Hs Hj Ht. split.
  - destruct tr as [|[] [|[] tr]]; cbn in *; try exact I; try contradiction.
    split; [congruence|]. intros; subst; discriminate.
  - destruct e; cbn in *; try discriminate; try exact I. destruct tr as [|[] tr]; cbn in *; tauto.
Qed.

Lemma settled_policy (e : event T) tr : settled tr -> is_jac e = false -> jac_policy e tr.
Proof.
  intros Hs Hj. destruct tr as [|[] [|[] tr]]; cbn in *; try exact I; try contradiction.
  split; [congruence|]. intros; subst; discriminate.
Qed.

Lemma settled_app (evs tr : list (event T)) :
  Forall (fun e => is_jac e = false /\ is_try e = false) evs ->
  every jac_policy tr -> settled tr -> every jac_policy (evs ++ tr) /\ settled (evs ++ tr).
Proof.
  induction 1 as [|e evs (A & B) _ IH]; intros He Hs; [auto|]. destruct (IH He Hs) as (I1 & I2).
  destruct (settled_push e (evs ++ tr) I2 A B) as (P1 & P2). cbn [app]. split; [|exact P2].
  apply every_cons; assumption.
Qed.

(** Callbacks on top of a pair that is not an attempt's first two events. *)
Lemma policy_deep (evs : list (event T)) e1 e2 tr :
  Forall (fun e => callback e = true) evs -> callback e1 = true -> callback e2 = true ->
  every jac_policy (e2 :: e1 :: tr) ->
  every jac_policy (evs ++ e2 :: e1 :: tr) /\ settled (evs ++ e2 :: e1 :: tr).
Proof.
  intros Hq H1 H2 He.
  induction Hq as [|e evs Hc Hq (I1 & I2)].
  - split; [exact He|]. destruct e2, e1; cbn in *; try discriminate; exact I.
  - cbn [app]. set (l := evs ++ e2 :: e1 :: tr) in *.
    assert (Hl : exists a b l', l = a :: b :: l' /\ callback a = true /\ callback b = true).
    { subst l. destruct evs as [|a [|b evs]].
      - exists e2, e1, tr. auto.
      - inversion Hq; subst. exists a, e2, (e1 :: tr). auto.
      - inversion Hq as [|? ? Q1 Q2]; subst. inversion Q2; subst.
        exists a, b, (evs ++ e2 :: e1 :: tr). auto. }
    destruct Hl as (a & b & l' & El & Ha & Hb). rewrite El in *. split.
    + apply every_cons; [|exact I1]. destruct a, b; cbn in *; try discriminate; exact I.
    + destruct e, a; cbn in *; try discriminate; exact I.
Qed.
End Policy.

Lemma last_jac_app {T} (evs tr : list (event T)) :
  Forall (fun e => is_jac e = false) evs -> last_jac (evs ++ tr) = last_jac tr.
Proof. induction 1 as [|e evs He _ IH]; [reflexivity|]. destruct e; cbn in *; auto; discriminate. Qed.

(** ** One Newton solve *)
Section Solve.
Context {T LSt : Type} `{Scalar T} `{LSolver T LSt}.
Variable prob : problem T.
Notation n := (model_size prob).
Notation P := (ida_nlproblem prob).
Notation np := (nlprob T LSt).
Notation tr s := (trace (lp s)).
Hypothesis Hn : n <> 0.

(** The Jacobian in use is the latest one evaluated. *)
Definition known (s : np) : Prop := last_jac (tr s) = Some (cjold (lp s)).

Lemma sys_run (s s' : np) y f r : nlp_sys prob s y = Ret (s', f, r) ->
  (exists t yy yp, tr s' = CRes t yy yp :: tr s) /\ cj (lp s') = cj (lp s) /\ cjold (lp s') = cjold (lp s) /\ r = Ok tt.
Proof. unfold nlp_sys. intros E. cbv zeta in E. minv. cbn. eauto 10. Qed.

Lemma setup_run (s s' : np) y f j r : nlp_setup prob s y f j = Ret (s', r) ->
  (exists t yy yp, tr s' = CJac t (cj (lp s)) yy yp :: tr s) /\ cj (lp s') = cj (lp s) /\ known s'.
Proof.
  unfold nlp_setup, lp_setup. intros E. cbv zeta in E.
  destruct (Nat.eqb_spec n 0) as [X|_]; [contradiction|]. minv.
  split; [do 3 eexists; reflexivity|]. split; reflexivity.
Qed.

Lemma solve_run (s s' : np) y b x r : nlp_solve prob s y b = Ret (s', x, r) ->
  tr s' = tr s /\ cj (lp s') = cj (lp s) /\ cjold (lp s') = cjold (lp s).
Proof.
  unfold nlp_solve, lp_solve. intros E. cbv zeta in E.
  destruct (ls_type (lp_ls (lp s))); minv;
    repeat match goal with r : result unit nat |- _ => destruct r end; repeat split.
Qed.

Lemma ctest_run (s s' : np) i y d tol w r : nlp_ctest s i y d tol w = Ret (s', r) ->
  tr s' = tr s /\ cj (lp s') = cj (lp s) /\ cjold (lp s') = cjold (lp s).
Proof. unfold nlp_ctest. intros E. cbv zeta in E. minv; repeat split. Qed.

(** Callbacks recorded on top of [base]. *)
Definition above (c0 : T) (base : list (event T)) (s : np) : Prop :=
  (exists evs, tr s = evs ++ base /\ quiet_evs evs) /\ cj (lp s) = c0 /\ known s.

Lemma above_preserved c0 base : preserves P (above c0 base).
Proof.
  split; [|split; [|split]].
  - intros s y s' f r ((evs & A1 & A2) & A3 & A4) E. apply sys_run in E as ((t & u & v & B1) & B2 & B3 & _).
    unfold above, known. rewrite B1, B2, B3. split; [|split; [exact A3|exact A4]].
    exists (CRes t u v :: evs). rewrite A1. split; [reflexivity|constructor; [reflexivity|exact A2]].
  - intros s y f j s' r ((evs & A1 & A2) & A3 & A4) E. apply (setup_run _ _ y f j) in E as ((t & u & v & B1) & B2 & B3).
    unfold above. rewrite B1, B2. split; [|split; [exact A3|exact B3]].
    exists (CJac t (cj (lp s)) u v :: evs). rewrite A1. split; [reflexivity|constructor; [reflexivity|exact A2]].
  - intros s y b s' x r A E. apply (solve_run _ _ y b x r) in E as (B1 & B2 & B3). unfold above, known. rewrite B1, B2, B3. exact A.
  - intros s i y d tol w s' r A E. apply (ctest_run _ _ i y d tol w r) in E as (B1 & B2 & B3). unfold above, known. rewrite B1, B2, B3. exact A.
Qed.

(** Without a set-up: nothing, or a residual first. *)
Definition soft (c0 co : T) (base : list (event T)) (s : np) : Prop :=
  (tr s = base \/ exists evs t y yp, tr s = evs ++ CRes t y yp :: base /\ quiet_evs evs) /\
  cj (lp s) = c0 /\ cjold (lp s) = co /\ last_jac (tr s) = last_jac base.

Lemma inner_soft c0 co base fuel : forall w tol nw (s : np) y nw' s' y' r,
  soft c0 co base s -> inner_loop P n fuel w tol nw s y = Ret (nw', s', y', r) -> soft c0 co base s'.
Proof.
  induction fuel as [|fuel IH]; intros w tol nw s y nw' s' y' r Hs E; [discriminate|].
  cbn [inner_loop] in E. cbn [np_sys np_solve np_ctest ida_nlproblem] in E.
  apply bind_ret_inv in E as (((s1 & d) & r1) & E1 & E). cbv beta iota zeta in E.
  apply solve_run in E1 as (B1 & B2 & B3).
  assert (S1 : soft c0 co base s1) by (unfold soft; rewrite B1, B2, B3; exact Hs).
  destruct r1 as [u|e]; [|injection E as _ <- _ _; exact S1].
  apply bind_ret_inv in E as ((s2 & r2) & E2 & E). cbv beta iota zeta in E.
  apply ctest_run in E2 as (C1 & C2 & C3).
  assert (S2 : soft c0 co base s2) by (unfold soft; rewrite C1, C2, C3; exact S1).
  destruct r2 as [[|]|e]; [injection E as _ <- _ _; exact S2| |injection E as _ <- _ _; exact S2].
  destruct (_ <=? _); [injection E as _ <- _ _; exact S2|].
  apply bind_ret_inv in E as (((s3 & d3) & r3) & E3 & E). cbv beta iota zeta in E.
  apply sys_run in E3 as ((t & u' & v & D1) & D2 & D3 & ->).
  eapply IH; [|exact E]. destruct S2 as (Q1 & Q2 & Q3 & Q4). unfold soft. rewrite D1, D2, D3.
  split; [|split; [exact Q2|split; [exact Q3|cbn [last_jac]; exact Q4]]].
  right. destruct Q1 as [->|(evs & t' & y2 & yp2 & -> & Hq)].
  - exists [], t, u', v. split; [reflexivity|constructor].
  - exists (CRes t u' v :: evs), t', y2, yp2. split; [reflexivity|constructor; [reflexivity|exact Hq]].
Qed.

(** From a known Jacobian, a pass begins with a residual. *)
Lemma outer_known fuel y0 w tol call jbad nw (s : np) y nw' s' y' r :
  known s -> outer_loop P n fuel y0 w tol call jbad nw s y = Ret (nw', s', y', r) ->
  exists t u v, above (cj (lp s)) (CRes t u v :: tr s) s'.
Proof.
  intros Hk E. destruct fuel as [|fuel]; [discriminate|]. cbn [outer_loop] in E.
  apply bind_ret_inv in E as ((((n1 & s1) & y1) & r1) & E1 & E). cbv beta iota zeta in E.
  assert (Hx : exists t u v, above (cj (lp s)) (CRes t u v :: tr s) s1).
  { unfold attempt in E1. cbn [np_sys np_setup ida_nlproblem] in E1.
    apply bind_ret_inv in E1 as (((sa & d) & ra) & Ea & E1). cbv beta iota zeta in E1.
    apply sys_run in Ea as ((t & u & v & B1) & B2 & B3 & ->). exists t, u, v.
    assert (A0 : above (cj (lp s)) (CRes t u v :: tr s) sa).
    { unfold above, known. rewrite B1, B2, B3. split; [exists []; split; [reflexivity|constructor]|]. split; [reflexivity|exact Hk]. }
    apply bind_ret_inv in E1 as (((nb & sb) & rb) & Eb & E1). cbv beta iota zeta in E1.
    assert (A1 : above (cj (lp s)) (CRes t u v :: tr s) sb).
    { destruct call; [|injection Eb as _ <- _; exact A0].
      apply bind_ret_inv in Eb as ((sc & rc) & Ec & Eb). cbv beta iota zeta in Eb.
      pose proof (above_preserved (cj (lp s)) (CRes t u v :: tr s)) as (_ & Hp & _).
      apply (Hp _ _ _ _ _ _ A0) in Ec. destruct rc; injection Eb as _ <- _; exact Ec. }
    destruct rb as [u0|e]; [|injection E1 as _ <- _ _; exact A1].
    eapply inner_loop_preserves; [apply above_preserved|exact A1|exact E1]. }
  destruct Hx as (t & u & v & Hx). exists t, u, v.
  assert (Hg : forall c0 base fuel y0 w tol call jbad nw s y nw' s' y' r, above c0 base s ->
    outer_loop P n fuel y0 w tol call jbad nw s y = Ret (nw', s', y', r) -> above c0 base s').
  { clear - Hn. intros c0 base. induction fuel as [|fuel IH]; intros y0 w tol call jbad nw s y nw' s' y' r Hs E; [discriminate|].
    cbn [outer_loop] in E. apply bind_ret_inv in E as ((((n1 & s1) & y1) & r1) & E1 & E). cbv beta iota zeta in E.
    apply (attempt_preserves P n _ (above_preserved c0 base) _ _ _ _ _ _ _ _ _ _ _ _ Hs) in E1.
    destruct r1 as [[]|[]]; try (injection E as _ <- _ _; exact E1). destruct (negb (nw_jcur n1)); eauto. }
  destruct r1 as [[]|[]]; try (injection E as _ <- _ _; exact Hx). destruct (negb (nw_jcur n1)); eapply Hg; eauto.
Qed.

(** A solve asked to refresh the Jacobian. *)
Lemma newton_refresh fuel y0 w tol nw (s : np) y nw' s' y' r :
  newton_solve P n fuel nw s y0 y w tol true = Ret (nw', s', y', r) ->
  exists t u v t' u' v', above (cj (lp s)) (CJac t' (cj (lp s)) u' v' :: CRes t u v :: tr s) s'.
Proof.
  unfold newton_solve. intros E. destruct fuel as [|fuel]; [discriminate|]. cbn [outer_loop] in E.
  apply bind_ret_inv in E as ((((n1 & s1) & y1) & r1) & E1 & E). cbv beta iota zeta in E.
  assert (Hx : exists t u v t' u' v', above (cj (lp s)) (CJac t' (cj (lp s)) u' v' :: CRes t u v :: tr s) s1).
  { unfold attempt in E1. cbn [np_sys np_setup ida_nlproblem] in E1.
    apply bind_ret_inv in E1 as (((sa & d) & ra) & Ea & E1). cbv beta iota zeta in E1.
    apply sys_run in Ea as ((t & u & v & B1) & B2 & B3 & ->). exists t, u, v.
    apply bind_ret_inv in E1 as (((nb & sb) & rb) & Eb & E1). cbv beta iota zeta in E1.
    apply bind_ret_inv in Eb as ((sc & rc) & Ec & Eb). cbv beta iota zeta in Eb.
    apply setup_run in Ec as ((t' & u' & v' & C1) & C2 & C3). exists t', u', v'.
    assert (A1 : above (cj (lp s)) (CJac t' (cj (lp s)) u' v' :: CRes t u v :: tr s) sc).
    { unfold above. split; [|split; [congruence|exact C3]]. exists []. rewrite C1, B1, B2. split; [reflexivity|constructor]. }
    assert (A2 : above (cj (lp s)) (CJac t' (cj (lp s)) u' v' :: CRes t u v :: tr s) sb).
    { destruct rc; injection Eb as _ <- _; exact A1. }
    destruct rb as [u0|e]; [|injection E1 as _ <- _ _; exact A2].
    eapply inner_loop_preserves; [apply above_preserved|exact A2|exact E1]. }
  destruct Hx as (t & u & v & t' & u' & v' & Hx). exists t, u, v, t', u', v'.
  assert (Hg : forall c0 base fuel y0 w tol call jbad nw s y nw' s' y' r, above c0 base s ->
    outer_loop P n fuel y0 w tol call jbad nw s y = Ret (nw', s', y', r) -> above c0 base s').
  { clear - Hn. intros c0 base. induction fuel as [|fuel IH]; intros y0 w tol call jbad nw s y nw' s' y' r Hs E; [discriminate|].
    cbn [outer_loop] in E. apply bind_ret_inv in E as ((((n1 & s1) & y1) & r1) & E1 & E). cbv beta iota zeta in E.
    apply (attempt_preserves P n _ (above_preserved c0 base) _ _ _ _ _ _ _ _ _ _ _ _ Hs) in E1.
    destruct r1 as [[]|[]]; try (injection E as _ <- _ _; exact E1). destruct (negb (nw_jcur n1)); eauto. }
  destruct r1 as [[]|[]]; try (injection E as _ <- _ _; exact Hx). destruct (negb (nw_jcur n1)); eapply Hg; eauto.
Qed.

(** A solve not asked to. *)
Lemma newton_keep fuel y0 w tol nw (s : np) y nw' s' y' r :
  known s -> newton_solve P n fuel nw s y0 y w tol false = Ret (nw', s', y', r) ->
  exists t u v, cj (lp s') = cj (lp s) /\ known s' /\
    (tr s' = CRes t u v :: tr s \/
     exists evs t' u' v', tr s' = evs ++ CRes t' u' v' :: CRes t u v :: tr s /\ quiet_evs evs).
Proof.
  unfold newton_solve. intros Hk E. destruct fuel as [|fuel]; [discriminate|]. cbn [outer_loop] in E.
  apply bind_ret_inv in E as ((((n1 & s1) & y1) & r1) & E1 & E). cbv beta iota zeta in E.
  assert (Hx : exists t u v, soft (cj (lp s)) (cjold (lp s)) (CRes t u v :: tr s) s1).
  { unfold attempt in E1. cbn [np_sys np_setup ida_nlproblem] in E1.
    apply bind_ret_inv in E1 as (((sa & d) & ra) & Ea & E1). cbv beta iota zeta in E1.
    apply sys_run in Ea as ((t & u & v & B1) & B2 & B3 & ->). exists t, u, v. cbn [bind] in E1.
    eapply inner_soft; [|exact E1]. unfold soft. rewrite B1, B2, B3. auto. }
  destruct Hx as (t & u & v & Q1 & Q2 & Q3 & Q4). exists t, u, v.
  assert (K1 : known s1). { unfold known. rewrite Q4, Q3. exact Hk. }
  assert (Hdone : cj (lp s1) = cj (lp s) /\ known s1 /\ (tr s1 = CRes t u v :: tr s \/
     exists evs t' u' v', tr s1 = evs ++ CRes t' u' v' :: CRes t u v :: tr s /\ quiet_evs evs)).
  { split; [exact Q2|]. split; [exact K1|]. exact Q1. }
  assert (Hmore : forall call jbad nw, outer_loop P n fuel y0 w tol call jbad nw s1 y1 = Ret (nw', s', y', r) ->
    cj (lp s') = cj (lp s) /\ known s' /\ (tr s' = CRes t u v :: tr s \/
     exists evs t' u' v', tr s' = evs ++ CRes t' u' v' :: CRes t u v :: tr s /\ quiet_evs evs)).
  { intros call jbad nw0 E2. destruct (outer_known _ _ _ _ _ _ _ _ _ _ _ _ _ K1 E2) as (t2 & u2 & v2 & (evs & A1 & A2) & A3 & A4).
    split; [congruence|]. split; [exact A4|]. right. destruct Q1 as [Q1|(ev1 & t' & u' & v' & Q1 & Q5)]; rewrite Q1 in A1.
    - exists evs, t2, u2, v2. auto.
    - exists (evs ++ CRes t2 u2 v2 :: ev1), t', u', v'. rewrite A1, <- app_assoc. split; [reflexivity|].
      apply Forall_app. split; [exact A2|]. constructor; [reflexivity|exact Q5]. }
  destruct r1 as [[]|[]]; try (injection E as _ <- _ _; exact Hdone). destruct (negb (nw_jcur n1)); eapply Hmore; eauto.
Qed.
End Solve.

(** ** Lives *)
Section Lives.
Context {T LSt : Type} `{Scalar T} `{LSolver T LSt}.
Variable prob : problem T.
Variable ewt_set : list T -> list T.
Variable fuel : nat.
Instance newton_nls : NLSolver T (newton T) := NewtonNLS fuel.
Variable c : @config T.
Hypothesis Hc : config_ok c.
Notation n := (model_size prob).
Notation state := (ida T LSt (newton T)).
Notation tr st := (trace (lp (nlp st))).
Hypothesis Hn : n <> 0.

Definition refreshed (st : state) : Prop :=
  every jac_policy (tr st) /\ settled (tr st) /\ (nst st <> 0 -> known (nlp st)).

Lemma nls_prepare_cj (st : state) :
  nlp (fst (nls_prepare st)) = set_ss (ss (nlp (fst (nls_prepare st))))
    (set_lp (set_cjratio (cjratio (lp (nlp (fst (nls_prepare st)))))
       (set_cjold (if nst st =? 0 then cj (lp (nlp st)) else cjold (lp (nlp st))) (lp (nlp st)))) (nlp st)) /\
  snd (nls_prepare st) = (nst st =? 0) ||
    ((cj (lp (nlp st)) / cjold (lp (nlp st)) <? sxrate_lo)%sc ||
     (srecip sxrate_lo <? cj (lp (nlp st)) / cjold (lp (nlp st)))%sc).
Proof.
  unfold nls_prepare. cbv zeta. destruct (nst st =? 0).
  - split; [|reflexivity]. cbn [fst]. destruct (sneqb _ _); destruct st as [];
      cbn; repeat match goal with x : nlprob _ _ |- _ => destruct x as [] | x : lprob _ _ |- _ => destruct x as [] end; reflexivity.
  - split; [|reflexivity]. cbn [fst]. destruct (sneqb _ _); destruct st as [];
      cbn; repeat match goal with x : nlprob _ _ |- _ => destruct x as [] | x : lprob _ _ |- _ => destruct x as [] end; reflexivity.
Qed.

Lemma try_policy (st st1 : state) ck ek ek1 r :
  try_step prob st = Ret (st1, ck, ek, ek1, r) -> tried prob st st1 ck r ->
  length (steps (tr st)) = nst st -> refreshed st ->
  every jac_policy (tr st1) /\ settled (tr st1) /\ known (nlp st1).
Proof.
  intros E Htr Hs (R1 & R2 & R3). pose proof (tr_cj _ _ _ _ _ Htr) as Hcj. clear Htr.
  unfold try_step in E. set (sx := on_lp (push_ev (CTry (tn (nlp st)) (hh st) (kk st))) st) in E.
  apply bind_ret_inv in E as ((s1 & c1) & E1 & E). apply bind_ret_inv in E as (s2 & E2 & E).
  apply bind_ret_inv in E as ((s3 & r3) & E3 & E). cbv beta iota in E.
  assert (X1 : tr s2 = CTry (tn (nlp st)) (hh st) (kk st) :: tr st /\ cjold (lp (nlp s2)) = cjold (lp (nlp st)) /\ nst s2 = nst st).
  { destruct (set_coeffs_frame _ _ _ _ E1) as (_ & _ & _ & _ & _ & _ & _ & N1 & N2).
    destruct (predict_frame _ _ _ E2) as (_ & _ & _ & _ & _ & M1 & M2). rewrite advance_tn_eq in M1, M2.
    rewrite M2. change (nlp (on_nlp (set_tn (tn_next s1)) s1)) with (set_tn (tn_next s1) (nlp s1)). rewrite N2.
    split; [reflexivity|]. split; [reflexivity|].
    assert (nst s2 = nst s1) by (unfold stepst in M1; change (nst (on_nlp (set_tn (tn_next s1)) s1)) with (nst s1) in M1; congruence).
    assert (nst s1 = nst sx) by congruence. change (nst sx) with (nst st) in *. congruence. }
  destruct X1 as (X1 & X2 & X3). clear E1 E2 sx.
  assert (X4 : tr st1 = match r3 with Ok _ => (match r with Ok _ => [] | Err _ => [CFail] end) | Err _ => [] end ++ tr s3 /\
               cj (lp (nlp st1)) = cj (lp (nlp s3)) /\ cjold (lp (nlp st1)) = cjold (lp (nlp s3))).
  { destruct r3 as [u|e].
    - apply bind_ret_inv in E as ((((s4 & ek') & ek1') & r4) & E4 & E). cbv beta iota in E. injection E as <- _ _ _ <-.
      destruct (test_error_frame _ _ _ _ _ _ _ E4) as (_ & _ & _ & _ & _ & _ & _ & _ & _ & _ & Fr).
      destruct r4 as [u'|e]; [destruct Fr as (_ & ->); auto|destruct Fr as (_ & _ & ->); auto].
    - injection E as <- _ _ _ _. auto. }
  clear E. destruct X4 as (X4 & X5 & X6).
  assert (X7 : every jac_policy (tr s3) /\ settled (tr s3) /\ known (nlp s3)).
  2:{ destruct X7 as (Y1 & Y2 & Y3). rewrite X4. split; [|split].
      - eapply settled_app; [|exact Y1|exact Y2]. destruct r3; [destruct r|]; repeat constructor.
      - eapply settled_app; [|exact Y1|exact Y2]. destruct r3; [destruct r|]; repeat constructor.
      - unfold known. rewrite X4, X6. destruct r3; [destruct r|]; exact Y3. }
  rewrite X5 in Hcj. clear X4 X5 X6 st1 r ck ek ek1.
  unfold nonlinear_solve in E3. destruct (nls_prepare_cj s2) as (P1 & P2).
  destruct (nls_prepare s2) as (sp & call). cbn [fst snd] in P1, P2.
  cbn [nls_setup newton_nls NewtonNLS bind] in E3. cbv zeta in E3.
  apply bind_ret_inv in E3 as ((((nw' & x) & eev) & r4) & E4 & E3). cbv beta iota in E3.
  cbn [nls_solve newton_nls NewtonNLS] in E4.
  assert (X8 : lp (nlp s3) = lp x).
  { destruct r4; [|injection E3 as <- _; reflexivity]. destruct (constraints_set _); [discriminate|injection E3 as <- _; reflexivity]. }
  unfold known. rewrite X8 in *. clear E3 X8 s3 r3.
  match type of E4 with newton_solve _ _ _ _ ?s _ _ _ _ _ = _ => change s with (nlp sp) in E4 end.
  assert (T1 : tr sp = CTry (tn (nlp st)) (hh st) (kk st) :: tr st) by (rewrite P1; exact X1).
  assert (T2 : cj (lp (nlp sp)) = cj (lp (nlp s2))) by (rewrite P1; reflexivity).
  assert (T3 : cjold (lp (nlp sp)) = if nst st =? 0 then cj (lp (nlp s2)) else cjold (lp (nlp st))).
  { rewrite P1. cbn [nlp lp set_ss set_lp set_cjratio set_cjold cjold]. rewrite X3, X2. reflexivity. }
  rewrite X2, X3 in P2. clear P1.
  assert (Pt : every jac_policy (CTry (tn (nlp st)) (hh st) (kk st) :: tr st)).
  { apply every_cons; [|exact R1]. apply settled_policy; [exact R2|reflexivity]. }
  assert (Hcall : cj (lp (nlp s2)) = cj_of st -> call = due (hh st) (kk st) (tr st)).
  { intros Hx. rewrite P2, Hx. unfold due. destruct (Nat.eqb_spec (nst st) 0) as [Hz|Hz].
    - destruct (steps (tr st)); [reflexivity|cbn in Hs; lia].
    - rewrite (R3 Hz). destruct (steps (tr st)); [cbn in Hs; lia|]. reflexivity. }
  destruct call.
  - apply (newton_refresh prob Hn) in E4. destruct E4 as (t & u & v & t' & u' & v' & (evs & A1 & A2) & A3 & A4).
    rewrite T1 in A1. rewrite T2 in *. rewrite A3 in Hcj. specialize (Hcall Hcj).
    assert (Pb : every jac_policy (CJac t' (cj (lp (nlp s2))) u' v' :: CRes t u v :: CTry (tn (nlp st)) (hh st) (kk st) :: tr st)).
    { apply every_cons; [|apply every_cons; [reflexivity|exact Pt]]. cbn. split; [exact Hcall|].
      intros ? ? ? ? [= _ <- _ _]. exact Hcj. }
    rewrite A1. split; [|split; [|rewrite <- A1; exact A4]]; apply policy_deep; auto.
  - assert (Hz : nst st <> 0). { intros Hz. rewrite Hz in P2. discriminate. }
    assert (K : known (nlp sp)).
    { unfold known. rewrite T1, T3. destruct (Nat.eqb_spec (nst st) 0); [contradiction|]. exact (R3 Hz). }
    apply (newton_keep prob Hn _ _ _ _ _ _ _ _ _ _ _ K) in E4. destruct E4 as (t & u & v & A3 & A4 & A1).
    rewrite T1 in A1. rewrite A3, T2 in Hcj. specialize (Hcall Hcj).
    assert (Pb : every jac_policy (CRes t u v :: CTry (tn (nlp st)) (hh st) (kk st) :: tr st)).
    { apply every_cons; [reflexivity|exact Pt]. }
    destruct A1 as [A1|(evs & t' & u' & v' & A1 & A2)].
    + rewrite A1. split; [exact Pb|]. split; [cbn; auto|]. rewrite <- A1. exact A4.
    + assert (Pc : every jac_policy (CRes t' u' v' :: CRes t u v :: CTry (tn (nlp st)) (hh st) (kk st) :: tr st)).
      { apply every_cons; [|exact Pb]. cbn. split; [exact Hcall|]. discriminate. }
      rewrite A1. split; [|split; [|rewrite <- A1; exact A4]]; apply policy_deep; auto.
Qed.

Definition JP (o : option (T * nat)) (st : state) : Prop := tlink prob c o st /\ refreshed st.
Notation Hl := (newton_lawful fuel).

Lemma refreshed_quiet (a b : state) evs : refreshed a -> tr b = evs ++ tr a ->
  Forall (fun e => is_root e || is_warn e = true) evs ->
  (nst a <> 0 -> cjold (lp (nlp b)) = cjold (lp (nlp a))) -> nst b = nst a -> refreshed b.
Proof.
  intros (R1 & R2 & R3) E1 Hq E2 E3.
  assert (Hq' : Forall (fun e : event T => is_jac e = false /\ is_try e = false) evs).
  { eapply Forall_impl; [|exact Hq]. intros e; destruct e; cbn; auto; discriminate. }
  destruct (settled_app evs (tr a) Hq' R1 R2) as (A & B). unfold refreshed, known. rewrite E1, E3.
  split; [exact A|]. split; [exact B|]. intros Hz. rewrite (E2 Hz).
  rewrite last_jac_app; [exact (R3 Hz)|]. eapply Forall_impl; [|exact Hq']. intros e (X & _). exact X.
Qed.

Lemma refreshed_attempt (st1 st' : state) evs :
  every jac_policy (tr st1) /\ settled (tr st1) /\ known (nlp st1) ->
  tr st' = evs ++ tr st1 -> Forall (fun e => is_jac e = false /\ is_try e = false) evs ->
  cjold (lp (nlp st')) = cjold (lp (nlp st1)) -> refreshed st'.
Proof.
  intros (R1 & R2 & R3) E1 Hq E2. destruct (settled_app evs (tr st1) Hq R1 R2) as (A & B).
  unfold refreshed, known. rewrite E1, E2. split; [exact A|]. split; [exact B|]. intros _.
  rewrite last_jac_app; [exact R3|]. eapply Forall_impl; [|exact Hq]. intros e (X & _). exact X.
Qed.

Lemma JP_new yy0 yp0 : i_new prob JP c yy0 yp0.
Proof.
  intros st E. split; [exact (tlink_new prob c yy0 yp0 st E)|].
  pose proof (new_fields prob _ _ _ E) as F. destruct F as (_ & _ & _ & F4 & _ & _ & _ & _ & _ & F10 & _).
  assert (Et : tr (configure c st) = []) by exact F10. assert (En : nst (configure c st) = 0) by exact F4.
  unfold refreshed. rewrite Et, En. split; [apply every_nil|]. split; [exact I|congruence].
Qed.

Lemma JP_shell : i_shell prob JP.
Proof.
  intros a b Ho (L & R) S. split; [exact (tlink_shell prob c a b Ho L S)|].
  destruct (sh_trace _ _ _ S) as (evs & T1 & T2 & _). pose proof (sh_core _ _ _ S) as D.
  apply (refreshed_quiet a b evs R T1 T2); [|apply core_fields in D; tauto].
  intros _. unfold core in D. cbv zeta in D. congruence.
Qed.

Lemma JP_lims : i_lims JP.
Proof.
  intros a b Ho (L & R) Hz S. split; [exact (tlink_lims prob c a b Ho L Hz S)|].
  destruct S as [(_ & ->)|(ts & _ & _ & ->)]; [exact R|].
  assert (Hl' : limit_to_tstop a ts = set_hh (hh (limit_to_tstop a ts)) a).
  { unfold limit_to_tstop. destruct (_ <? _)%sc; [reflexivity|]. destruct a; reflexivity. }
  rewrite Hl'. exact R.
Qed.

Lemma JP_first : i_first prob ewt_set JP.
Proof.
  intros a tout x Ho (L & R) Hz E. split; [exact (tlink_first prob ewt_set c a tout x Ho L Hz E)|].
  apply first_call_frame in E. cbv zeta in E. destruct E as (F1 & _ & _ & _ & F2).
  set (b := match x with inl (s, _) => s | inr s => s end) in *.
  assert (Ht : exists evs, tr b = evs ++ tr a /\ Forall (fun e => is_root e || is_warn e = true) evs).
  { destruct x as [(s & m)|s]; subst b.
    - destruct F2 as (_ & _ & _ & F2 & _). exists []. rewrite F2. auto.
    - destruct F2 as (_ & _ & _ & _ & _ & _ & evs & F3 & F4 & _). exists evs. split; [exact F3|].
      eapply Forall_impl; [|exact F4]. cbn. intros e ->. reflexivity. }
  destruct Ht as (evs & T1 & T2). apply (refreshed_quiet a b evs R T1 T2); [lia|].
  apply fkeep_fields in F1. intuition congruence.
Qed.

Lemma JP_begin : i_begin prob ewt_set JP.
Proof.
  intros st Ho (L & R) Hlim Hfr. split; [exact (tlink_begin prob ewt_set c st Ho L Hlim Hfr)|].
  destruct (init_fields st) as (_ & _ & _ & _ & _ & _ & _ & F8 & _ & _ & _ & _ & _ & _ & _ & _ & _ & _ & F19 & _).
  destruct R as (R1 & R2 & R3). unfold refreshed. rewrite F19, F8.
  destruct (settled_push (begin_ev st) (tr st) R2 eq_refl eq_refl) as (A & B).
  split; [apply every_cons; assumption|]. split; [exact B|]. intros Hz. specialize (R3 Hz).
  assert (Ec : cjold (lp (nlp (st_init st))) = cjold (lp (nlp st))).
  { unfold st_init. cbv zeta. destruct (_ =? _); reflexivity. }
  unfold known. rewrite F19, Ec. exact R3.
Qed.

Lemma JP_retry : i_retry prob JP.
Proof.
  intros st t0 nef st1 ck ek ek1 st' Hi (L & R) Et Htr Hat Hnf Hrt.
  split; [exact (tlink_retry prob ewt_set c st t0 nef st1 ck ek ek1 st' Hi L Et Htr Hat Hnf Hrt)|].
  pose proof (try_policy _ _ _ _ _ _ Et Htr (tl_n _ _ _ _ L) R) as Q. pose proof (rt_nlp _ _ _ _ _ Hrt) as U.
  apply (refreshed_attempt st1 st' [] Q); [|constructor|]; rewrite U; reflexivity.
Qed.

Lemma JP_commit : i_commit prob JP.
Proof.
  intros st t0 nef st1 ck ek ek1 st2 Hi (L & R) Et Htr Hat Hcp.
  split; [exact (tlink_commit prob ewt_set c st t0 nef st1 ck ek ek1 st2 Hi L Et Htr Hat Hcp)|].
  pose proof (try_policy _ _ _ _ _ _ Et Htr (tl_n _ _ _ _ L) R) as Q. pose proof (cp_nlp _ _ _ Hcp) as U.
  apply (refreshed_attempt st1 _ [CStep (tn (nlp st2)) (yy (nlp st2))] Q); [|repeat constructor|];
    unfold st_commit; cbn; rewrite U; reflexivity.
Qed.

Lemma JP_giveup : i_giveup prob JP.
Proof.
  intros st t0 nef st1 ck ek ek1 st' e Hi (L & R) Et Htr Hat Hg Hx.
  split; [exact (tlink_giveup prob ewt_set c st t0 nef st1 ck ek ek1 st' e Hi L Et Htr Hat Hg Hx)|].
  pose proof (try_policy _ _ _ _ _ _ Et Htr (tl_n _ _ _ _ L) R) as Q. pose proof (gu_nlp _ _ _ _ Hg) as U.
  apply (refreshed_attempt st1 st' [] Q); [|constructor|]; rewrite U; reflexivity.
Qed.

Lemma reach_refreshed yy0 yp0 (st : state) : reach prob ewt_set c yy0 yp0 st -> refreshed st.
Proof.
  intros Hr. refine (proj2 (reach_life prob ewt_set Hl JP c yy0 yp0 st Hc _ _ _ _ _ Hr)).
  - apply JP_new.
  - exact JP_shell.
  - exact JP_lims.
  - exact JP_first.
  - split; [exact JP_begin|]. split; [exact JP_retry|]. split; [exact JP_commit|exact JP_giveup].
Qed.
End Lives.

(** A completed step has been preceded by a Jacobian evaluation. *)
Lemma steps_have_jac {T} `{Scalar T} (tr : list (event T)) : every jac_policy tr -> last_jac tr = None ->
  steps tr = [] /\
  (last_try tr = None \/ (exists t h k q, tr = CTry t h k :: q) \/
   exists a b d t h k q, tr = CRes a b d :: CTry t h k :: q).
Proof.
  induction tr as [|e q IH]; intros He Hj; [auto|].
  assert (He' : every jac_policy q) by (eapply (every_past _ [e]); exact He).
  assert (Hj' : last_jac q = None) by (destruct e; cbn in Hj; congruence).
  destruct (IH He' Hj') as (S1 & S2). pose proof (He [] e q eq_refl) as Hp.
  assert (Hne : is_jac e = false) by (destruct e; cbn in *; congruence).
  assert (Hx : is_try e = true \/ last_try q = None \/ (is_res e = true /\ exists t h k p, q = CTry t h k :: p)).
  { destruct S2 as [S2|[(t & h & k & p & ->)|(a & b & d & t & h & k & p & ->)]]; [auto|right; right; split; [exact Hp|eauto]|].
    exfalso. cbn in Hp. destruct Hp as (Hp & _). cbn in S1. unfold due in Hp. rewrite S1 in Hp. congruence. }
  destruct e; cbn in *; try discriminate;
    destruct Hx as [Hx|[Hx|(Hx & t' & h' & k' & p & ->)]]; try discriminate; split; auto.
  - right. right. eauto 12.
  - right. left. eauto 8.
  - right. left. eauto 8.
  - rewrite Hx. exact S1.
Qed.
