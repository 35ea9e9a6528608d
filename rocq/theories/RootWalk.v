(** * RootWalk: the root checks made by one call of [solve], for every scalar *)
Require Import List Arith Bool Lia.
Import ListNotations.
Require Import Verif.Base Verif.Scalar Verif.Dense Verif.Norms Verif.Newton Verif.NewtonSpec Verif.IdaState
  Verif.IdaNls Verif.IdaCore Verif.IdaRoots Verif.IdaSolve Verif.BaseFacts Verif.NewtonFacts
  Verif.IdaFacts Verif.IdaLoops Verif.IdaStep Verif.IdaSpec Verif.IdaShell Verif.IdaReach Verif.IdaInv
  Verif.IdaCount Verif.IdaLife Verif.IdaTrace Verif.IdaCall.
Open Scope nat_scope.

Section Walk.
Context {T LSt NSt : Type} `{Scalar T} `{LSolver T LSt} `{NLSolver T NSt}.
Variable prob : problem T.
Variable ewt_set : list T -> list T.
Hypothesis Hl : @nls_lawful T NSt _.
Notation n := (model_size prob).
Notation nr := (num_roots prob).
Notation state := (ida T LSt NSt).
Notation tr st := (trace (lp (nlp st))).

Definition rk (st : state) := (iroots st, tlo st, glo st, gactive st, (toutc st, taskc st, cfg st)).

(** Nothing of the root data changes. *)
Definition still (a b : state) : Prop := rk b = rk a /\ exists evs, tr b = evs ++ tr a.

Lemma still_refl a : still a a.
Proof. split; [reflexivity|]. exists []. reflexivity. Qed.
Lemma still_trans a b c : still a b -> still b c -> still a c.
Proof. intros (A & ea & A') (B & eb & B'). split; [congruence|]. exists (eb ++ ea). rewrite B', A', app_assoc. reflexivity. Qed.

Lemma still_quiet (a b : state) : rk b = rk a -> tr b = tr a -> still a b.
Proof. intros A B. split; [exact A|]. exists []. exact B. Qed.

Lemma rk_rootst (a b : state) : rootst b = rootst a -> cfg b = cfg a -> rk b = rk a.
Proof. intros R C. apply rootst_fields in R. unfold rk. rewrite C. destruct R as (-> & -> & _ & _ & -> & _ & _ & -> & _ & -> & _ & _ & ->). reflexivity. Qed.

Lemma still_gs (a b : state) t r : get_solution prob a t = Ret (b, r) -> still a b.
Proof.
  intros E. pose proof (get_solution_shell prob _ _ _ _ E) as S. apply get_solution_frame in E.
  destruct E as (E1 & _ & E2 & _). split; [apply rk_rootst; assumption|].
  destruct (sh_trace _ _ _ S) as (evs & X & _). eauto.
Qed.

Lemma still_tretlast (a : state) t : still a (set_tretlast t a).
Proof. apply still_quiet; reflexivity. Qed.

Lemma still_lims (a b : state) : lims a b -> still a b.
Proof. intros L. apply lims_fields in L. destruct L as (h & ->). apply still_quiet; reflexivity. Qed.

Lemma still_step fuel (a b : state) r : ordok a -> step prob fuel a = Ret (b, r) -> still a b.
Proof.
  intros O E. split.
  - apply (step_spec prob Hl) in E; [|exact O]. destruct (stepped_ord prob _ _ _ O E) as (_ & C & _ & R' & _).
    apply rk_rootst; assumption.
  - destruct (step_first prob Hl _ _ _ _ O E) as (new & X). exists (new ++ [CTry (tn (nlp a)) (hh a) (kk (st_init a)); begin_ev a]).
    rewrite X, <- app_assoc. reflexivity.
Qed.

Lemma still_perf (a : state) l b : ls_perf (lp (nlp a)) (nst a) (nni a) (ncfn a) b = Ret l -> still a (on_lp (fun _ => l) a).
Proof.
  intros E. split; [reflexivity|]. destruct b.
  - pose proof (ls_perf_true_shell prob a l E) as S. destruct (sh_trace _ _ _ S) as (evs & X & _). eauto.
  - pose proof (ls_perf_false_shell prob a l E) as S. destruct (sh_trace _ _ _ S) as (evs & X & _). eauto.
Qed.

Lemma still_stop1 (a b : state) tout tret itask t r : stop_test1 prob a tout tret itask = Ret (b, t, r) ->
  still a b /\ r <> Ok RootReturn.
Proof.
  intros E. unfold stop_test1 in E.
  assert (Body : forall o, match itask with
  | Normal =>
      if (tout =? tretlast a)%sc then
        Ret (set_tretlast tout a, tout, Ok Success)
      else if (szero <=? (tn (nlp a) - tout) * hh a)%sc then
        let* (st, r) := get_solution prob a tout in
        match r with
        | Err e => Ret (st, tret, Err e)
        | Ok _ => Ret (set_tretlast tout st, tout, Ok Success)
        end
      else
        match o with
        | Some ts =>
            if at_tstop a ts then
              let* (st, r) := get_solution prob a ts in
              match r with
              | Err _ => Ret (st, tret, Err (EIda (BadStopTime ts (tn (nlp st)))))
              | Ok _ => Ret (set_tstop None (set_tretlast ts st), ts, Ok TStop)
              end
            else Ret (limit_to_tstop a ts, tret, Ok ContinueSteps)
        | None => Ret (a, tret, Ok ContinueSteps)
        end
  | OneStep =>
      if (szero <? (tn (nlp a) - tretlast a) * hh a)%sc then
        let* (st, _) := get_solution prob a (tn (nlp a)) in
        Ret (set_tretlast (tn (nlp st)) st, tn (nlp st), Ok Success)
      else
        match o with
        | Some ts =>
            if at_tstop a ts then
              let* (st, r) := get_solution prob a ts in
              match r with
              | Err e => Ret (st, tret, Err e)
              | Ok _ => Ret (set_tretlast ts st, ts, Ok TStop)
              end
            else Ret (limit_to_tstop a ts, tret, Ok ContinueSteps)
        | None => Ret (a, tret, Ok ContinueSteps)
        end
  end = Ret (b, t, r) -> still a b /\ r <> Ok RootReturn).
  { clear E. intros o E.
    assert (Lim : forall ts, still a (limit_to_tstop a ts)).
    { clear E. intros ts. unfold limit_to_tstop. destruct (_ <? _)%sc; [|apply still_refl]. apply still_quiet; reflexivity. }
    destruct itask.
    - destruct (tout =? tretlast a)%sc; [injection E as <- <- <-; split; [apply still_tretlast|discriminate]|].
      destruct (_ <=? _)%sc.
      + apply bind_ret_inv in E. destruct E as ((s & x) & E1 & E). cbv beta iota in E.
        pose proof (still_gs _ _ _ _ E1) as S. destruct x; injection E as <- <- <-; (split; [|discriminate]).
        * eapply still_trans; [exact S|apply still_tretlast].
        * exact S.
      + destruct o as [ts|]; [|injection E as <- <- <-; split; [apply still_refl|discriminate]].
        destruct (at_tstop a ts).
        * apply bind_ret_inv in E. destruct E as ((s & x) & E1 & E). cbv beta iota in E.
          pose proof (still_gs _ _ _ _ E1) as S. destruct x; injection E as <- <- <-; (split; [|discriminate]).
          -- eapply still_trans; [exact S|]. apply still_quiet; reflexivity.
          -- exact S.
        * injection E as <- <- <-. split; [apply Lim|discriminate].
    - destruct (_ <? _)%sc.
      + apply bind_ret_inv in E. destruct E as ((s & x) & E1 & E). cbv beta iota in E.
        pose proof (still_gs _ _ _ _ E1) as S. injection E as <- <- <-. split; [|discriminate].
        eapply still_trans; [exact S|apply still_tretlast].
      + destruct o as [ts|]; [|injection E as <- <- <-; split; [apply still_refl|discriminate]].
        destruct (at_tstop a ts).
        * apply bind_ret_inv in E. destruct E as ((s & x) & E1 & E). cbv beta iota in E.
          pose proof (still_gs _ _ _ _ E1) as S. destruct x; injection E as <- <- <-; (split; [|discriminate]).
          -- eapply still_trans; [exact S|]. apply still_tretlast.
          -- exact S.
        * injection E as <- <- <-. split; [apply Lim|discriminate]. }
  destruct (tstop a) as [ts|] eqn:Et; [|exact (Body None E)].
  destruct (_ <? _)%sc; [injection E as <- <- <-; split; [apply still_refl|discriminate]|exact (Body (Some ts) E)].
Qed.

Lemma still_stop2 (a b : state) tout tret itask t r : stop_test2 prob a tout tret itask = Ret (b, t, r) ->
  still a b /\ r <> Ok RootReturn.
Proof.
  intros E.
  assert (Q : forall x, stop2_tstop prob a = Ret x ->
    match x with inl (s, _, r) => still a s /\ r <> Ok RootReturn | inr s => still a s end).
  { intros x Ex. apply stop2_tstop_cases in Ex. destruct x as [((s & t') & r')|s].
    - destruct Ex as (-> & ts & s' & r0 & _ & _ & _ & E1 & ->). split; [|discriminate].
      eapply still_trans; [exact (still_gs _ _ _ _ E1)|]. apply still_quiet; reflexivity.
    - apply still_lims. exact Ex. }
  unfold stop_test2 in E. destruct itask.
  - destruct (_ <=? _)%sc.
    + apply bind_ret_inv in E. destruct E as ((s & x) & E1 & E). cbv beta iota in E. injection E as <- <- <-.
      split; [|discriminate]. eapply still_trans; [apply still_tretlast|exact (still_gs _ _ _ _ E1)].
    + apply bind_ret_inv in E. destruct E as (x & E1 & E). apply Q in E1. destruct x as [((s & t') & r')|s].
      * injection E as <- <- <-. exact E1.
      * injection E as <- <- <-. split; [exact E1|discriminate].
  - apply bind_ret_inv in E. destruct E as (x & E1 & E). apply Q in E1. destruct x as [((s & t') & r')|s].
    + injection E as <- <- <-. exact E1.
    + injection E as <- <- <-. split; [|discriminate]. eapply still_trans; [exact E1|apply still_tretlast].
Qed.

Lemma still_pre (a : state) tret nl x : pre_step prob ewt_set a tret nl = Ret x ->
  match x with inl (s, _, r) => still a s /\ r <> Ok RootReturn | inr s => still a s end.
Proof.
  intros E. unfold pre_step in E. destruct (_ && _); [injection E as <-; split; [apply still_tretlast|discriminate]|].
  apply bind_ret_inv in E. destruct E as (l & El & E). cbv beta zeta in E.
  pose proof (still_perf _ _ _ El) as S1. set (s1 := on_lp (fun _ => l) a) in *. clearbody s1.
  apply bind_ret_inv in E. destruct E as (y & Ey & E). cbv beta in E.
  assert (Sy : match y with inl (s, _, r) => still a s /\ r <> Ok RootReturn | inr s => still a s end).
  { destruct (0 <? nst s1); [|injection Ey as <-; exact S1].
    apply bind_ret_inv in Ey. destruct Ey as (p0 & _ & Ey). cbv beta zeta in Ey.
    destruct (existsb _ _).
    - apply bind_ret_inv in Ey. destruct Ey as ((s & r0) & E1 & Ey). cbv beta iota in Ey. injection Ey as <-.
      split; [|discriminate]. eapply still_trans; [exact S1|]. eapply still_trans; [|apply still_tretlast].
      eapply still_trans; [|exact (still_gs _ _ _ _ E1)]. apply still_quiet; reflexivity.
    - injection Ey as <-. eapply still_trans; [exact S1|]. apply still_quiet; reflexivity. }
  destruct y as [((s & t') & r')|s]; [injection E as <-; exact Sy|].
  apply bind_ret_inv in E. destruct E as (p0 & _ & E). cbv beta zeta in E.
  destruct (_ <? _)%sc.
  - apply bind_ret_inv in E. destruct E as (s' & E1 & E). cbv beta in E. injection E as <-.
    split; [|discriminate]. eapply still_trans; [exact Sy|].
    match type of E1 with (if ?c then _ else Ret ?x) = _ =>
      apply (still_trans s x); [apply still_quiet; reflexivity|]; destruct c end.
    + apply bind_ret_inv in E1. destruct E1 as ((s2 & r0) & E2 & E1). cbv beta iota in E1. injection E1 as <-.
      exact (still_gs _ _ _ _ E2).
    + injection E1 as <-. apply still_refl.
  - injection E as <-. eapply still_trans; [exact Sy|]. apply still_quiet; reflexivity.
Qed.

Lemma still_failed (a b : state) tret e t r : step_failed prob a tret e = Ret (b, t, r) -> still a b /\ r = Err e.
Proof.
  intros E. unfold step_failed in E. apply bind_ret_inv in E. destruct E as ((s & x) & E1 & E). cbv beta iota in E.
  pose proof (still_gs _ _ _ _ E1) as S. destruct x; injection E as <- <- <-; (split; [|reflexivity]).
  - eapply still_trans; [exact S|apply still_tretlast].
  - exact S.
Qed.

(** ** One call *)
Section Call.
Variable st : state.
Hypothesis Ho : ordok st.
Variable P : state -> Prop.
Hypothesis Pq : forall a b, P a -> still a b -> P b.
Hypothesis P1 : forall a b, nst st = 0 -> nst a = 0 -> tn (nlp a) = tn (nlp st) -> phi a = phi st -> gactive a = gactive st ->
  P a -> r_check1 prob a = Ret b -> P b.
Hypothesis P2 : forall a b, pieces prob ewt_set st a -> nst a <> 0 -> irfnd a = irfnd st -> P a -> r_check2 prob a = Ret (b, Ok RootContinue) -> P b.
Hypothesis P3 : forall f a b, pieces prob ewt_set st a -> nst a <> 0 -> P a -> r_check3 prob f a = Ret (b, RootContinue) -> P b.

Lemma first_call_P (a : state) tout x : nst st = 0 -> nst a = 0 -> tn (nlp a) = tn (nlp st) -> phi a = phi st -> gactive a = gactive st ->
  P a -> first_call prob ewt_set a tout = Ret x ->
  P (match x with inl (s, _) => s | inr s => s end).
Proof.
  intros Hzs Hz Htn Hphi Hga Ha E. unfold first_call in E. apply bind_ret_inv in E. destruct E as (s0 & E0 & E). cbv beta in E.
  assert (H0' : P s0 /\ nst s0 = 0 /\ tn (nlp s0) = tn (nlp st) /\ phi s0 = phi st /\ gactive s0 = gactive st).
  { destruct (setup_done a); [injection E0 as <-; auto|].
    apply bind_ret_inv in E0. destruct E0 as (s & E1 & E0). cbv beta in E0. injection E0 as <-.
    unfold initial_setup in E1. apply bind_ret_inv in E1. destruct E1 as (p0 & _ & E1). injection E1 as <-.
    split; [|auto].
    eapply Pq; [exact Ha|]. apply still_quiet; reflexivity. }
  destruct H0' as (P0 & Hz0 & Htn0 & Hphi0 & Hga0).
  apply bind_ret_inv in E. destruct E as (y & E1 & E). cbv beta in E.
  pose proof (first_step_frame _ _ _ E1) as F. destruct y as [(s & m)|s].
  - destruct F as (h & ->). injection E as <-. eapply Pq; [exact P0|]. apply still_quiet; reflexivity.
  - destruct F as (h & ->). apply bind_ret_inv in E. destruct E as (s2 & E2 & E). cbv beta in E.
    assert (H2' : P s2).
    { destruct (0 <? _).
      - eapply P1; [| | | | | |exact E2]; [exact Hzs|exact Hz0|exact Htn0|exact Hphi0|exact Hga0|]. eapply Pq; [exact P0|]. apply still_quiet; reflexivity.
      - injection E2 as <-. eapply Pq; [exact P0|]. apply still_quiet; reflexivity. }
    apply bind_ret_inv in E. destruct E as (p1 & _ & E). cbv beta in E.
    apply bind_ret_inv in E. destruct E as (ph & _ & E). cbv beta in E. injection E as <-.
    eapply Pq; [exact H2'|]. apply still_quiet; reflexivity.
Qed.

(** How a call ends with respect to the root checks. *)
Inductive root_end (tret : T) (st' : state) (t : T) (r : result solve_status (err T)) : Prop :=
| re_none : P st' -> r <> Ok RootReturn -> root_end tret st' t r
| re_close a e : pieces prob ewt_set st a -> nst a <> 0 -> irfnd a = irfnd st -> P a -> r_check2 prob a = Ret (st', Err e) ->
    t = tret -> r = Err e -> root_end tret st' t r
| re_again a b : pieces prob ewt_set st a -> nst a <> 0 -> irfnd a = irfnd st -> P a -> r_check2 prob a = Ret (b, Ok RootFound) ->
    st' = set_tretlast (tlo b) b -> t = tlo b -> r = Ok RootReturn -> root_end tret st' t r
| re_found f a b : pieces prob ewt_set st a -> nst a <> 0 -> P a -> r_check3 prob f a = Ret (b, RootFound) ->
    st' = set_tretlast (tlo b) (set_irfnd true b) -> t = tlo b -> r = Ok RootReturn -> root_end tret st' t r.

Lemma later_roots rfuel (a : state) tout tret itask x : pieces prob ewt_set st a -> nst a <> 0 -> irfnd a = irfnd st -> P a ->
  later_call prob rfuel a tout tret itask = Ret x ->
  match x with inl (s, t, r) => root_end tret s t r | inr (s, _) => P s end.
Proof.
  intros Pc Hz Hi Ha E. unfold later_call in E. apply bind_ret_inv in E. destruct E as (y & Ey & E). cbv beta in E.
  assert (Hy : match y with inl (s, t, r) => root_end tret s t r | inr s => P s end).
  { clear E. destruct (0 <? nrtfn a); [|injection Ey as <-; exact Ha].
    apply bind_ret_inv in Ey. destruct Ey as ((s & ier) & E2 & Ey). cbv beta iota zeta in Ey.
    destruct ier as [[ | ]|e].
    - injection Ey as <-. eapply re_again; [exact Pc|exact Hz|exact Hi|exact Ha|exact E2| | |]; reflexivity.
    - pose proof (P2 _ _ Pc Hz Hi Ha E2) as Hs. pose proof (r_check2_shell prob _ _ _ E2) as S2.
      assert (Pcs : pieces prob ewt_set st s) by (eapply pieces_shell; eassumption).
      assert (Hzs : nst s <> 0) by (rewrite (shell_nst _ _ _ S2); exact Hz).
      destruct (_ <? _)%sc; [|injection Ey as <-; exact Hs].
      apply bind_ret_inv in Ey. destruct Ey as ((s3 & r3) & E3 & Ey). cbv beta iota in Ey. destruct r3.
      + injection Ey as <-. eapply re_found; [exact Pcs|exact Hzs|exact Hs|exact E3| | |]; reflexivity.
      + pose proof (P3 _ _ _ Pcs Hzs Hs E3) as H3'.
        assert (H4' : P (set_irfnd false s3)) by (eapply Pq; [exact H3'|]; apply still_quiet; reflexivity).
        destruct itask; [injection Ey as <-; exact H4'|].
        destruct (irfnd a); [|injection Ey as <-; exact H4'].
        apply bind_ret_inv in Ey. destruct Ey as ((s5 & r5) & E5 & Ey). cbv beta iota in Ey. injection Ey as <-.
        apply re_none; [|discriminate]. eapply Pq; [|exact (still_gs _ _ _ _ E5)].
        eapply Pq; [exact H4'|]. apply still_tretlast.
    - injection Ey as <-. eapply re_close; [exact Pc|exact Hz|exact Hi|exact Ha|exact E2| |]; reflexivity. }
  destruct y as [((s & t) & r)|s]; [injection E as <-; exact Hy|].
  apply bind_ret_inv in E. destruct E as (((s1 & t1) & r1) & E1 & E). cbv beta iota in E.
  apply still_stop1 in E1. destruct E1 as (S1 & N1).
  destruct r1 as [[ | | | ]|e]; injection E as <-; first [exact (Pq _ _ Hy S1) | apply re_none; [exact (Pq _ _ Hy S1)|exact N1]].
Qed.

Lemma post_roots rfuel (a : state) tout tret itask s t r : pieces prob ewt_set st a -> nst a <> 0 -> P a ->
  post_step prob rfuel a tout tret itask = Ret (s, t, r) -> root_end tret s t r.
Proof.
  intros Pc Hz Ha E. unfold post_step in E. apply bind_ret_inv in E. destruct E as (y & Ey & E). cbv beta in E.
  assert (Hy : match y with inl (s, t, r) => root_end tret s t r | inr s => P s end).
  { clear E. destruct (0 <? nrtfn a); [|injection Ey as <-; exact Ha].
    apply bind_ret_inv in Ey. destruct Ey as ((s3 & r3) & E3 & Ey). cbv beta iota in Ey. destruct r3.
    - injection Ey as <-. eapply re_found; [exact Pc|exact Hz|exact Ha|exact E3| | |]; reflexivity.
    - injection Ey as <-. exact (P3 _ _ _ Pc Hz Ha E3). }
  destruct y as [((s' & t') & r')|s']; [injection E as <- <- <-; exact Hy|].
  apply still_stop2 in E. destruct E as (S1 & N1). apply re_none; [exact (Pq _ _ Hy S1)|exact N1].
Qed.

Lemma tset_nst tout itask : nst (task_set st tout itask) = 0 -> nst st = 0.
Proof. unfold task_set. destruct itask; auto. Qed.
Lemma tset_tn tout itask : tn (nlp (task_set st tout itask)) = tn (nlp st).
Proof. destruct itask; reflexivity. Qed.
Lemma tset_phi tout itask : phi (task_set st tout itask) = phi st.
Proof. destruct itask; reflexivity. Qed.
Lemma tset_ga tout itask : gactive (task_set st tout itask) = gactive st.
Proof. destruct itask; reflexivity. Qed.

Lemma solve_roots fuel rfuel tout tret itask st' t r : P (task_set st tout itask) ->
  solve prob ewt_set fuel rfuel st tout tret itask = Ret (st', t, r) -> root_end tret st' t r.
Proof.
  intros Ht E.
  assert (Pt : pieces prob ewt_set st (task_set st tout itask)) by (apply piece1, p_shell, task_set_shell).
  assert (Start : forall x, solve_start prob ewt_set rfuel (task_set st tout itask) tout tret itask = Ret x ->
     match x with inl (s, t, r) => root_end tret s t r | inr (s, _) => P s end).
  { intros x A.
    destruct (solve_start_cases _ _ _ _ _ _ _ _ A) as [(Hz & s & m & X & ->)|[(Hz & s & l & E1 & E2 & E3 & E4 & ->)|(Hz & l & E1 & S1 & Q)]].
    - apply re_none; [exact (first_call_P _ _ _ (tset_nst tout itask Hz) Hz (tset_tn tout itask) (tset_phi tout itask) (tset_ga tout itask) Ht X)|discriminate].
    - eapply Pq; [exact (first_call_P _ _ _ (tset_nst tout itask Hz) Hz (tset_tn tout itask) (tset_phi tout itask) (tset_ga tout itask) Ht E1)|exact (still_perf _ _ _ E3)].
    - eapply later_roots; [| | | |exact Q].
      + eapply pieces_shell; [exact Pt|exact S1].
      + exact Hz.
      + destruct itask; reflexivity.
      + eapply Pq; [exact Ht|exact (still_perf _ _ _ E1)]. }
  destruct (solve_run _ _ _ _ _ _ _ _ _ _ _ E) as [A|(s0 & s & nl & m & En & Lo & F)]; [exact (Start _ A)|].
  pose proof (Start _ En) as Hs. cbv iota in Hs.
  assert (Step : forall s nl s1 f s2 rs, P s -> head prob ewt_set tout itask st s -> pre_step prob ewt_set s tret nl = Ret (inr s1) ->
     step prob f s1 = Ret (s2, rs) -> P s2 /\ pieces prob ewt_set st s2).
  { intros x nl0 s1 f s2 rs Hx Hh Ep Es. pose proof (head_step prob ewt_set _ _ _ _ _ _ _ _ _ _ Hh Ep Es) as Pc2. split; [|exact Pc2].
    pose proof (still_pre _ _ _ _ Ep) as Sp. cbv iota in Sp.
    assert (O1 : ordok s1).
    { apply (pieces_ord prob ewt_set Hl st); [exact Ho|]. pose proof (pre_step_shell _ _ _ _ _ _ Ep) as (S1 & _).
      eapply pieces_shell; [exact (hd_pieces _ _ _ _ _ _ Hh)|exact S1]. }
    eapply Pq; [exact (Pq _ _ Hx Sp)|]. eapply still_step; eassumption. }
  assert (Hp : P s).
  { clear F. induction Lo as [|s nl s1 s2 u s' Lo IH Ep Es Ef]; [exact Hs|].
    destruct (Step _ _ _ _ _ _ IH (run_head _ _ _ _ _ _ _ _ _ _ En Lo) Ep Es) as (H2' & Pc2).
    pose proof (step_ok_nst _ _ _ _ _ Es) as Hz2.
    pose proof (post_roots _ _ _ _ _ _ _ _ Pc2 Hz2 H2' Ef) as [H3' _|a0 e _ _ _ _ _ _ D|a0 b0 _ _ _ _ _ _ _ D|f a0 b0 _ _ _ _ _ _ D]; try discriminate.
    exact H3'. }
  pose proof (run_head _ _ _ _ _ _ _ _ _ _ En Lo) as Hh.
  destruct F as [st' t r Ep|s1 s2 e st' t r Ep Es Ef|s1 s2 u st' t r Ep Es Ef Hr2].
  - apply still_pre in Ep. destruct Ep as (Ep & N). apply re_none; [exact (Pq _ _ Hp Ep)|exact N].
  - destruct (Step _ _ _ _ _ _ Hp Hh Ep Es) as (H2' & _). apply still_failed in Ef. destruct Ef as (Ef & ->).
    apply re_none; [exact (Pq _ _ H2' Ef)|discriminate].
  - destruct (Step _ _ _ _ _ _ Hp Hh Ep Es) as (H2' & Pc2). pose proof (step_ok_nst _ _ _ _ _ Es) as Hz2.
    exact (post_roots _ _ _ _ _ _ _ _ Pc2 Hz2 H2' Ef).
Qed.
End Call.
End Walk.
