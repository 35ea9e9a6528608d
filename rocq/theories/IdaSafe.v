(** * IdaSafe: no panics, and which loops can fail to end, for every scalar *)
Require Import List Arith Bool Lia.
Import ListNotations.
Require Import Verif.Base Verif.Scalar Verif.Dense Verif.Norms Verif.Newton Verif.NewtonSpec Verif.IdaState
  Verif.IdaNls Verif.IdaCore Verif.IdaRoots Verif.IdaSolve Verif.BaseFacts Verif.NewtonFacts
  Verif.IdaFacts Verif.IdaLoops Verif.IdaStep Verif.IdaSpec Verif.IdaShell Verif.IdaReach Verif.IdaInv
  Verif.IdaCount Verif.IdaLife.

(** [m] does not panic, and ends unless [D]. *)
Definition safe (D : Prop) {A} (m : outcome A) : Prop :=
  match m with Ret _ => True | Panic => False | Diverge => D end.

Lemma safe_bind D {A B} (m : outcome A) (k : A -> outcome B) :
  safe D m -> (forall a, m = Ret a -> safe D (k a)) -> safe D (bind m k).
Proof. destruct m; cbn; auto. Qed.
Lemma safe_ex D {A} (m : outcome A) : (exists a, m = Ret a) -> safe D m.
Proof. intros (a & ->). exact I. Qed.
Lemma safe_weaken (D D' : Prop) {A} (m : outcome A) : (D -> D') -> safe D m -> safe D' m.
Proof. destruct m; cbn; auto. Qed.
Lemma safe_false {A} (m : outcome A) : safe False m -> exists a, m = Ret a.
Proof. destruct m; cbn; try tauto. eauto. Qed.
Lemma safe_aget D {A} (l : list A) i : i < length l -> safe D (aget l i).
Proof. intros Hi. destruct l as [|d l]; [cbn in Hi; lia|]. rewrite (aget_ret _ _ d) by exact Hi. exact I. Qed.
Lemma safe_aset D {A} (l : list A) i v : i < length l -> safe D (aset l i v).
Proof. intros Hi. rewrite aset_ret by exact Hi. exact I. Qed.

Section Safe.
Context {T LSt NSt : Type} `{Scalar T} `{LSolver T LSt} `{NLSolver T NSt}.
Variable prob : problem T.
Variable ewt_set : list T -> list T.
Hypothesis Hl : @nls_lawful T NSt _.
Notation n := (model_size prob).
Notation nr := (num_roots prob).
Notation state := (ida T LSt NSt).

(** What the solvers need: a property [Q] of linear solver and matrix that all
    callbacks keep and under which nonlinear solves do not panic. *)
Variable D : Prop.
Variable Q : LSt -> mat T -> Prop.
Definition Qn (x : nlprob T LSt) : Prop := Q (lp_ls (lp x)) (lp_matj (lp x)).
Hypothesis HQ : preserves (ida_nlproblem prob) Qn.
Hypothesis Hset : forall s y, safe D (nls_setup s y).
Hypothesis Hsol : forall s x y0 y w tol call, Qn x ->
  safe D (nls_solve _ (ida_nlproblem prob) n s x y0 y w tol call).

Lemma get_solution_safe (st : state) t : arrays st -> kused st <= 5 -> safe D (get_solution prob st t).
Proof.
  intros Ha Hk. pose proof (get_solution_spec prob st t Ha Hk) as G.
  destruct (time_check st t); [rewrite G; exact I|]. destruct G as (cv & dv & -> & _). exact I.
Qed.

(** ** One attempt *)
Lemma nls_prepare_Q (st : state) : exists x b, nls_prepare st = (set_nlp x st, b) /\
  (Qn (nlp st) -> Qn x).
Proof.
  unfold nls_prepare. cbv zeta.
  destruct (nst st =? 0); destruct (sneqb _ _); (eexists; eexists; split; [reflexivity|exact (fun q => q)]).
Qed.

Lemma nonlinear_solve_safe (st : state) : constraints_set st = false -> Qn (nlp st) ->
  safe D (nonlinear_solve prob st).
Proof.
  intros Hcs Hq. unfold nonlinear_solve.
  destruct (nls_prepare_Q st) as (x & b & -> & Hx). specialize (Hx Hq). cbv zeta.
  apply safe_bind; [apply Hset|]. intros ((s1 & d1) & r1) _. cbv beta iota.
  destruct r1; [|exact I].
  apply safe_bind; [apply Hsol; exact Hx|]. intros (((s2 & x2) & e2) & r2) _. cbv beta iota.
  destruct r2; [|exact I].
  change (constraints_set _) with (constraints_set st). rewrite Hcs. exact I.
Qed.

Lemma nonlinear_solve_Q (st st' : state) r : nonlinear_solve prob st = Ret (st', r) ->
  Qn (nlp st) -> Qn (nlp st').
Proof.
  intros E Hq. unfold nonlinear_solve in E.
  destruct (nls_prepare_Q st) as (x & b & Hb & Hx). rewrite Hb in E. specialize (Hx Hq).
  cbv zeta in E. apply bind_ret_inv in E. destruct E as (((s1 & d1) & r1) & E1 & E). cbv beta iota in E.
  destruct r1 as [u|e]; [|injection E as <- <-; exact Hx].
  apply bind_ret_inv in E. destruct E as ((((s2 & x2) & e2) & r2) & E2 & E). cbv beta iota in E.
  pose proof (Hl _ _ _ HQ _ _ _ _ _ _ _ _ _ _ _ _ Hx E2) as Hx2.
  destruct r2 as [u2|e2']; [destruct (constraints_set _); [discriminate|]|];
    injection E as <- <-; exact Hx2.
Qed.

Lemma test_error_safe (st : state) ck : arrays st -> kk st <= 5 -> safe D (test_error prob st ck).
Proof.
  intros (A1 & A2 & A3 & A4 & A5 & A6 & A7 & A8) Hk. unfold test_error. cbv zeta.
  apply safe_bind; [apply safe_aget; lia|]. intros sgk _.
  apply safe_bind.
  - destruct (1 <? kk st); [|exact I].
    apply safe_bind; [apply safe_aget; lia|]. intros pk _.
    apply safe_bind; [apply safe_aget; cbn; lia|]. intros sgk1 _.
    destruct (2 <? _); [|exact I].
    apply safe_bind; [apply safe_aget; cbn; lia|]. intros pk1 _.
    apply safe_bind; [apply safe_aget; cbn; lia|]. intros. exact I.
  - intros ((s & e) & k) _. destruct (_ <=? _)%sc; exact I.
Qed.

Lemma try_step_safe (st : state) : arrays st -> kk st <= 5 -> constraints_set st = false ->
  Qn (nlp st) -> safe D (try_step prob st).
Proof.
  intros Ha Hk Hcs Hq. unfold try_step. cbv zeta.
  set (sta := on_lp (push_ev _) st).
  assert (Ha' : arrays sta) by exact Ha. assert (Hk' : kk sta <= 5) by exact Hk.
  assert (Hcs' : constraints_set sta = false) by exact Hcs. assert (Hq' : Qn (nlp sta)) by exact Hq.
  clearbody sta. clear Ha Hk Hcs Hq.
  destruct (set_coeffs_spec prob sta Ha' Hk') as (st1 & E1 & Ha1 & _ & _).
  pose proof (set_coeffs_frame prob _ _ _ E1) as (F1 & _ & _ & _ & _ & F2 & _ & _ & F3).
  rewrite E1. cbn [bind].
  assert (Hk1 : kk st1 <= 5) by (pinj; lia).
  rewrite advance_tn_eq.
  set (st2 := on_nlp _ st1).
  assert (Ha2 : arrays st2) by exact Ha1. assert (Hk2 : kk st2 <= 5) by exact Hk1.
  rewrite (predict_spec prob st2 Ha2 Hk2). cbn [bind].
  set (st3 := on_nlp _ st2).
  assert (Hcs3 : constraints_set st3 = false).
  { apply cfg_fields in F1. destruct F1 as (F1 & _). change (constraints_set st3) with (constraints_set st1). congruence. }
  assert (Hq3 : Qn (nlp st3)).
  { change (Qn (nlp st1)). rewrite F3. exact Hq'. }
  assert (Ha3 : arrays st3) by exact Ha1. assert (Hk3 : kk st3 <= 5) by exact Hk1.
  clearbody st3. clear st2 Ha2 Hk2.
  apply safe_bind; [apply nonlinear_solve_safe; auto|]. intros (st4 & r4) E4.
  apply (nonlinear_solve_frame prob Hl) in E4.
  destruct E4 as (_ & _ & _ & V1 & V2 & V3 & V4 & _).
  destruct r4; [|exact I].
  apply safe_bind; [|intros (((? & ?) & ?) & ?) _; exact I].
  apply test_error_safe; [|pinj; lia].
  pinj. destruct Ha3 as (A1 & A2 & A3 & A4 & A5 & A6 & A7 & A8).
  unfold arrays. repeat split; congruence.
Qed.

Lemma try_step_Q (st st' : state) ck ek ek1 r : arrays st -> kk st <= 5 ->
  try_step prob st = Ret (st', ck, ek, ek1, r) -> Qn (nlp st) -> Qn (nlp st').
Proof.
  intros Ha Hk E Hq. unfold try_step in E. cbv zeta in E.
  set (sta := on_lp (push_ev _) st) in E.
  assert (Hq' : Qn (nlp sta)) by exact Hq. clearbody sta.
  apply bind_ret_inv in E. destruct E as ((st1 & ck1) & E1 & E). cbv beta iota in E.
  apply set_coeffs_calls in E1.
  apply bind_ret_inv in E. destruct E as (st2 & E2 & E). cbv beta in E.
  apply predict_frame in E2. destruct E2 as (_ & _ & _ & _ & _ & _ & E2).
  rewrite advance_tn_eq in E2. cbn [nlp on_nlp set_nlp] in E2.
  assert (Hq2 : Qn (nlp st2)) by (rewrite E2, E1; exact Hq').
  apply bind_ret_inv in E. destruct E as ((st3 & r3) & E3 & E). cbv beta iota in E.
  apply nonlinear_solve_Q in E3; [|exact Hq2].
  destruct r3 as [u|e].
  - apply bind_ret_inv in E. destruct E as ((((st4 & a) & b) & r4) & E4 & E). cbv beta iota in E.
    injection E as <- <- <- <- <-. apply test_error_calls in E4. destruct E4 as (l & E4 & El).
    rewrite E4, El. exact E3.
  - injection E as <- <- <- <- <-. exact E3.
Qed.

Lemma ns_next_pos (st : state) : 1 <= ns_next st.
Proof. unfold ns_next. destruct (_ || _); lia. Qed.

Lemma attempt_safe (st : state) t0 ncf nef : arrays st -> kk st <= 5 -> constraints_set st = false ->
  Qn (nlp st) -> safe D (attempt_step prob st t0 ncf nef).
Proof.
  intros Ha Hk Hcs Hq. unfold attempt_step. cbv zeta.
  apply safe_bind; [apply try_step_safe; auto|].
  intros ((((st1 & ck) & ek) & ek1) & r1) E1. cbv beta iota.
  pose proof (try_step_spec prob Hl _ _ _ _ _ _ Ha Hk E1) as Ht.
  destruct r1 as [u|e]; [exact I|].
  pose proof (tr_arrays _ _ _ _ _ Ht) as Ha1. pose proof (tr_ord _ _ _ _ _ Ht) as Ho.
  pose proof (tr_coeffs _ _ _ _ _ Ht) as (Hns & _). pose proof (ns_next_pos st).
  destruct (restore_spec prob st1 t0 Ha1 ltac:(pinj; lia) ltac:(lia)) as (ps & cv & ph & -> & L1 & L2 & L3 & _).
  cbn [bind]. set (st2 := set_phi _ _).
  assert (Lp : length (psi st2) = 6) by exact L1. clearbody st2.
  pose proof (tr_res _ _ _ _ _ Ht) as Hr.
  assert (X : exists st3 a b r, handle_n_flag st2 e ek ek1 ncf nef = Ret (st3, a, b, r) /\
    length (psi st3) = 6).
  { destruct e as [e|e|]; [|cbn; eauto 10|contradiction].
    destruct e; try contradiction. unfold handle_n_flag. cbv beta iota zeta.
    repeat match goal with
    | |- exists _ _ _ _, (if ?b then _ else _) = _ /\ _ => destruct b
    end; eauto 10. }
  destruct X as (st3 & a & b & r & -> & L). cbn [bind].
  destruct r; [|exact I].
  destruct (nst st3 =? 0); [|exact I].
  unfold reset. rewrite aset_ret by lia. exact I.
Qed.

Lemma step_loop_safe t0 : forall fuel (st : state) ncf nef, instep st -> constraints_set st = false ->
  Qn (nlp st) -> nef < Nat.max 3 (maxnef st) ->
  (fuel + nef < Nat.max 3 (maxnef st) -> D) -> safe D (step_loop prob fuel st t0 ncf nef).
Proof.
  induction fuel as [|fuel IH]; intros st ncf nef Hi Hcs Hq Hn Hf; cbn [step_loop].
  - apply Hf. lia.
  - destruct Hi as [Ha Hk Hm Hu Hz Hp].
    apply safe_bind; [apply attempt_safe; auto; lia|].
    intros (((st' & ncf') & nef') & r) E. cbv beta iota.
    destruct (attempt_spec prob Hl _ _ _ _ _ _ _ _ Ha ltac:(lia) E)
      as (st1 & ck & ek & ek1 & r1 & E1 & Ht & _ & [(_ & _ & _ & ->)|[(-> & Hn' & Hr & -> & -> & ->)|
          (e & _ & _ & [(_ & _ & _ & -> & _)|(_ & -> & _)])]]); try exact I.
    assert (Hi' : instep st') by (eapply instep_retry; [exact (mkinstep _ Ha Hk Hm Hu Hz Hp)|exact Ht|exact Hr]).
    pose proof (rt_cfg _ _ _ _ _ Hr) as C1. pose proof (tr_cfg _ _ _ _ _ Ht) as C2.
    rewrite C2 in C1. apply cfg_fields in C1.
    destruct C1 as (C1 & _ & _ & _ & _ & _ & C7 & _).
    apply IH.
    + exact Hi'.
    + congruence.
    + rewrite (rt_nlp _ _ _ _ _ Hr). change (Qn (nlp st1)). eapply try_step_Q; [exact Ha| |exact E1|exact Hq]. lia.
    + rewrite C7. lia.
    + rewrite C7. intros L. apply Hf. lia.
Qed.

(** ** The invariant of every life *)
Definition le4 (a b : nat * nat * nat * nat) : Prop :=
  let '(a1, a2, a3, a4) := a in let '(b1, b2, b3, b4) := b in
  a1 <= b1 /\ a2 <= b2 /\ a3 <= b3 /\ a4 <= b4.
Record wf (st : state) : Prop := mkwf {
  wf_ord : ordok st;
  wf_nr : nrtfn st = nr;
  wf_glo : length (glo st) = nr;
  wf_cs : constraints_set st = false;
  wf_perf : le4 (perf0 st) (perf_now st);
  wf_Q : Qn (nlp st) }.

Lemma le4_refl a : le4 a a.
Proof. destruct a as (((? & ?) & ?) & ?). cbn. lia. Qed.

Lemma wf_ext (a b : state) : wf a -> ordok b -> cfg b = cfg a -> length (glo b) = nr ->
  le4 (perf0 b) (perf_now b) -> Qn (nlp b) -> wf b.
Proof.
  intros [W1 W2 W3 W4 W5 W6] Ho C L P q. apply cfg_fields in C.
  destruct C as (C1 & _ & _ & _ & _ & _ & _ & _ & _ & _ & C & _).
  apply mkwf; auto; congruence.
Qed.

Lemma core_Q (a b : state) : core b = core a -> Qn (nlp a) -> Qn (nlp b).
Proof.
  unfold core, Qn. cbv zeta. intros E q. pinj.
  replace (lp_ls (lp (nlp b))) with (lp_ls (lp (nlp a))) by congruence.
  replace (lp_matj (lp (nlp b))) with (lp_matj (lp (nlp a))) by congruence. exact q.
Qed.

Lemma wf_shell (a b : state) : shell prob a b -> wf a -> wf b.
Proof.
  intros S W. pose proof (sh_core _ _ _ S) as C. pose proof (core_fields _ _ C) as (C1 & _).
  eapply wf_ext; [exact W|eapply shell_ord; [exact S|apply W]|exact C1|apply (sh_glo _ _ _ S), W| |].
  - rewrite (core_now _ _ C). destruct (sh_perf _ _ _ S) as [->| ->]; [apply W|apply le4_refl].
  - eapply core_Q; [exact C|apply W].
Qed.

Lemma wf_lims (a b : state) : lims a b -> wf a -> wf b.
Proof.
  intros L W. pose proof (lims_ord _ _ L (wf_ord _ W)). apply lims_fields in L. destruct L as (h & ->).
  eapply wf_ext; try apply W; auto.
Qed.

Lemma wf_first (a : state) tout x : nst a = 0 -> first_call prob ewt_set a tout = Ret x -> wf a ->
  wf (match x with inl (s, _) => s | inr s => s end).
Proof.
  intros Hn E W. pose proof (first_ord prob ewt_set a tout x Hn E (wf_ord _ W)) as Ho.
  apply first_call_frame in E. cbv zeta in E. set (s := match x with inl (s, _) => s | inr s => s end) in *.
  destruct E as (F & _ & _ & G & _).
  assert (Qn (nlp s)).
  { pose proof (wf_Q _ W) as q. unfold Qn in *. clear W G Ho. unfold fkeep in F. cbv zeta in F. clearbody s. pinj.
    replace (lp_ls (lp (nlp s))) with (lp_ls (lp (nlp a))) by congruence.
    replace (lp_matj (lp (nlp s))) with (lp_matj (lp (nlp a))) by congruence. exact q. }
  apply fkeep_fields in F. destruct F as (F1 & F).
  assert (perf0 s = perf0 a) by tauto.
  assert (perf_now s = perf_now a).
  { unfold perf_now. apply cfg_fields in F1. destruct F1 as (_ & _ & _ & _ & _ & _ & _ & _ & _ & _ & _ & _ & _ & ->).
    destruct F as (_ & _ & _ & _ & _ & -> & -> & _ & _ & _ & _ & _ & _ & _ & _ & _ & -> & _). reflexivity. }
  eapply wf_ext; [exact W|exact Ho|exact F1|apply G, W| |assumption].
  replace (perf0 s) with (perf0 a). replace (perf_now s) with (perf_now a). apply W.
Qed.

Lemma wf_new c yy0 yp0 (st : state) : config_ok c -> Q (ls_new n) (mkmat n n (fun _ _ => szero)) ->
  ida_new prob yy0 yp0 = Ret st -> wf (configure c st).
Proof.
  intros Hc Hq E. pose proof (new_ord prob c yy0 yp0 st Hc E) as Ho.
  pose proof (new_fields prob _ _ _ E) as F. 
  assert (Qn (nlp st)).
  { unfold ida_new in E. destruct (_ && _); [|discriminate]. apply ret_inj in E. rewrite <- E. exact Hq. }
  constructor; auto; try apply F.
  change (perf0 (configure c st)) with (perf0 st). change (perf_now (configure c st)) with (perf_now st).
  destruct F as (_ & _ & _ & _ & _ & _ & _ & -> & -> & _). apply le4_refl.
Qed.

(** ** One internal step *)
Record sinv (st : state) : Prop := mksinv {
  si_nr : nrtfn st = nr;
  si_glo : length (glo st) = nr;
  si_cs : constraints_set st = false;
  si_perf : le4 (perf0 st) (perf_now st);
  si_Q : Qn (nlp st) }.

Lemma wf_sinv st : wf st <-> ordok st /\ sinv st.
Proof. split; [intros []; split; [assumption|constructor; assumption]|intros (Ho & []); constructor; assumption]. Qed.

Lemma le4_trans a b c : le4 a b -> le4 b c -> le4 a c.
Proof. destruct a as (((? & ?) & ?) & ?), b as (((? & ?) & ?) & ?), c as (((? & ?) & ?) & ?). cbn. lia. Qed.

Lemma sinv_ext (a b : state) : sinv a -> cfg b = cfg a -> rootst b = rootst a ->
  perf0 b = perf0 a -> le4 (perf_now a) (perf_now b) -> Qn (nlp b) -> sinv b.
Proof.
  intros [W1 W2 W3 W4 W5] C R P1 P2 q. apply cfg_fields in C. apply rootst_fields in R.
  destruct C as (C1 & _ & _ & _ & _ & _ & _ & _ & _ & _ & C & _).
  destruct R as (_ & _ & _ & _ & R & _).
  apply mksinv; try congruence.
  rewrite P1. eapply le4_trans; eassumption.
Qed.

Lemma now_le (a b : state) : cfg b = cfg a -> nst a <= nst b -> ncfn a <= ncfn b ->
  ncfl (lp (nlp a)) <= ncfl (lp (nlp b)) -> le4 (perf_now a) (perf_now b).
Proof.
  intros C. apply cfg_fields in C. destruct C as (_ & _ & _ & _ & _ & _ & _ & _ & _ & _ & _ & _ & _ & C).
  unfold perf_now, le4. rewrite C. auto.
Qed.

Lemma sinv_try (st st1 : state) ck ek ek1 r : arrays st -> kk st <= 5 ->
  try_step prob st = Ret (st1, ck, ek, ek1, r) -> tried prob st st1 ck r -> attempted prob st st1 r ->
  sinv st -> sinv st1.
Proof.
  intros Ha Hk E Ht (evs & _ & _ & _ & _ & _ & At) S.
  eapply sinv_ext; [exact S|apply Ht|apply Ht| | |].
  - pose proof (tr_perf _ _ _ _ _ Ht) as P. unfold perf0. cbv zeta. pinj. congruence.
  - pose proof (tr_cnt _ _ _ _ _ Ht) as C. pinj. apply now_le; [apply Ht|lia|lia|exact At].
  - eapply try_step_Q; [exact Ha|exact Hk|exact E|apply S].
Qed.

Lemma sinv_retry (st1 st' : state) t nef : retried prob st1 st' t nef -> sinv st1 -> sinv st'.
Proof.
  intros R S. pose proof (rt_nlp _ _ _ _ _ R) as Hn. pose proof (rt_keep _ _ _ _ _ R) as Kp. 
  eapply sinv_ext; [exact S|apply R|apply R| | |].
  - unfold perf0. rewrite Hn. reflexivity.
  - apply now_le; [apply R| | |rewrite Hn; cbn; lia]; pinj; lia.
  - rewrite Hn. apply S.
Qed.

Lemma sinv_giveup (st1 st' : state) t : gave_up prob st1 st' t -> ncfn st1 <= ncfn st' -> sinv st1 -> sinv st'.
Proof.
  intros R Hc S. pose proof (gu_nlp _ _ _ _ R) as Hn. pose proof (gu_keep _ _ _ _ R) as Kp. 
  eapply sinv_ext; [exact S|apply R|apply R| | |].
  - unfold perf0. rewrite Hn. reflexivity.
  - apply now_le; [apply R| |exact Hc|rewrite Hn; cbn; lia]; pinj; lia.
  - rewrite Hn. apply S.
Qed.

Lemma sinv_commit (st1 st2 : state) ck : completed prob st1 st2 -> sinv st1 -> sinv (st_commit prob ck st2).
Proof.
  intros R S. pose proof (cp_nlp _ _ _ R) as Hn. pose proof (cp_keep _ _ _ R) as Kp.
  pose proof (cp_used _ _ _ R) as Ku.
  eapply sinv_ext; [exact S|apply R|apply R| | |].
  - unfold perf0. cbn. rewrite Hn. reflexivity.
  - apply now_le; [apply R| | |cbn; rewrite Hn; lia]; cbn; pinj; lia.
  - unfold Qn. cbn. rewrite Hn. apply S.
Qed.

Lemma sinv_init (st : state) : sinv st -> sinv (st_init st).
Proof.
  intros S. destruct (init_fields st) as (F1 & _ & F3 & _ & _ & _ & _ & F8 & F9 & _ & _ & F12 & _ & _ & _ & _ & _ & F18 & _).
  eapply sinv_ext; [exact S|exact F1|exact F3|exact F12|apply now_le; [exact F1|lia|lia|lia]|].
  unfold st_init, Qn. cbv zeta. destruct (_ =? 0); apply S.
Qed.

Lemma sinv_tries t0 (st0 sta : state) nef : instep st0 -> sinv st0 -> tries prob t0 st0 sta nef ->
  instep sta /\ sinv sta.
Proof.
  intros Hi Hs Htr. induction Htr as [|st nef st1 ck ek ek1 st' Htr IH E Ht Hn Hr]; [auto|].
  specialize (IH). destruct IH as (Hi' & Hs'). split; [eapply instep_retry; eassumption|].
  eapply sinv_retry; [exact Hr|].
  destruct Hi' as [Ha Hk Hm _ _ _].
  eapply sinv_try; [exact Ha| |exact E|exact Ht| |exact Hs']; [lia|].
  eapply try_step_calls; [exact Hl|exact Ha| |exact E]. lia.
Qed.

Lemma wf_step fuel (st st' : state) r : step prob fuel st = Ret (st', r) -> wf st -> wf st'.
Proof.
  intros E W. apply wf_sinv in W. destruct W as (Ho & Hs).
  pose proof (step_spec prob Hl _ _ _ _ Ho E) as S.
  destruct (stepped_ord prob _ _ _ Ho S) as (Ho' & _).
  apply wf_sinv. split; [exact Ho'|].
  destruct S as (sta & nef & st1 & ck & ek & ek1 & r1 & Htr & E1 & Ht & X).
  destruct (sinv_tries _ _ _ _ (instep_init _ Ho) (sinv_init _ Hs) Htr) as ([Ha Hk Hm _ _ _] & Hsa).
  assert (Hs1 : sinv st1).
  { eapply sinv_try; [exact Ha| |exact E1|exact Ht| |exact Hsa]; [lia|].
    eapply try_step_calls; [exact Hl|exact Ha| |exact E1]. lia. }
  destruct X as [(_ & _ & st2 & Hc & ->)|(e & _ & Hg & X)].
  - apply (sinv_commit st1); assumption.
  - apply (sinv_giveup st1 st' _ Hg); [|assumption]. destruct X as [(_ & _ & _ & _ & _ & ->)|(_ & _ & _ & ->)]; lia.
Qed.

Lemma step_safe fuel (st : state) : wf st -> (fuel < Nat.max 3 (maxnef st) -> D) -> safe D (step prob fuel st).
Proof.
  intros W Hf. apply wf_sinv in W. destruct W as (Ho & Hs). unfold step. cbv zeta.
  rewrite step_init_eq by (destruct Ho as ((_ & A & _) & _); lia). cbn [bind].
  pose proof (instep_init _ Ho) as Hi. pose proof (sinv_init _ Hs) as Hs0.
  destruct (init_fields st) as (F1 & _). apply cfg_fields in F1.
  destruct F1 as (_ & _ & _ & _ & _ & _ & F7 & _).
  apply safe_bind.
  - apply step_loop_safe; [exact Hi|apply Hs0|apply Hs0|lia|]. rewrite F7. intros L. apply Hf. lia.
  - intros (st2 & r2) E2. cbv beta iota. destruct r2 as [((ck & ek) & ek1)|e]; [|exact I].
    destruct (step_loop_ind prob Hl (fun s nef => tries prob (tn (nlp st)) (st_init st) s nef) (tn (nlp st)))
      with (fuel := fuel) (st := st_init st) (ncf := 0) (nef := 0) (st' := st2) (r := @Ok (T*T*T) (err T) (ck, ek, ek1))
      as (sta & nefa & st1 & ck' & a & b & r1 & Htr & _ & E1 & Ht & X).
    + intros s nef Htr. destruct (sinv_tries _ _ _ _ Hi Hs0 Htr) as ([] & _). split; [assumption|lia].
    + intros s nef s1 ck1 e1 e2 s' Htr E1 Ht Hn Hr. eapply tries_S; eassumption.
    + apply tries_0.
    + exact E2.
    + destruct X as [(-> & -> & Er)|(e & _ & _ & [(_ & _ & _ & Er & _)|(_ & Er & _)])]; try discriminate.
      destruct (sinv_tries _ _ _ _ Hi Hs0 Htr) as ([Ha Hk Hm Hu _ _] & Hsa).
      pose proof (tr_res _ _ _ _ _ Ht) as (_ & _ & _ & Hkn & _). pose proof (tr_ord _ _ _ _ _ Ht) as Hor.
      pose proof (maxord_tried _ _ _ _ _ Ht) as Hmx.
      destruct (complete_step_spec prob st1 ek ek1) as (st3 & -> & _).
      * apply Ht.
      * pinj. lia.
      * lia.
      * pinj. destruct Hkn as [->|(? & ->)]; [left|right]; lia.
      * exact I.
Qed.

(** ** Rootfinding *)
Variable rfuel : nat.
Hypothesis Hroot : forall st : state, 0 < nr -> root_find prob rfuel st = Diverge -> D.

Lemma wf_gs (st : state) t : wf st -> safe D (get_solution prob st t).
Proof. intros W. destruct (wf_ord _ W) as (A & B & C & E & _). apply get_solution_safe; [exact A|lia]. Qed.
Lemma wf_gs_True (st : state) t : wf st -> safe True (get_solution prob st t).
Proof.
  intros W. destruct (wf_ord _ W) as (A & B & C & E & _).
  pose proof (get_solution_spec prob st t A ltac:(lia)) as G.
  destruct (time_check st t); [rewrite G; exact I|]. destruct G as (cv & dv & -> & _). exact I.
Qed.

Lemma scan1_imax ga rd (gl gh : list T) z s m i : scan1 prob ga rd gl gh = (z, s, m, i) ->
  s = true -> i < nr.
Proof.
  unfold scan1.
  assert (G : forall l (acc : bool * bool * T * nat) z s m i, (forall j, In j l -> j < nr) ->
    (snd (fst (fst acc)) = true -> snd acc < nr) ->
    fold_left (scan1_body ga rd gl gh) l acc = (z, s, m, i) -> s = true -> i < nr).
  { clear. induction l as [|j l IH]; intros (((z0 & s0) & m0) & i0) z s m i Hin Ha E; cbn in *.
    - injection E as -> -> -> ->. exact Ha.
    - eapply IH; [|  |exact E]; [auto|]. unfold scan1_body.
      destruct (bget ga j); [|exact Ha].
      destruct (_ =? _)%sc; [exact Ha|]. destruct (_ && _); [|exact Ha].
      destruct (_ <? _)%sc; [cbn; auto|exact Ha]. }
  intros E. eapply G; [|  |exact E].
  - intros j Hj. apply in_seq in Hj. lia.
  - cbn. discriminate.
Qed.

Lemma scan2_imax ga rd (gl go : list T) i0 z s m i : scan2 prob ga rd gl go i0 = (z, s, m, i) ->
  i0 < nr -> i < nr.
Proof.
  unfold scan2.
  assert (G : forall l (acc : bool * bool * T * nat) z s m i, (forall j, In j l -> j < nr) ->
    snd acc < nr ->
    fold_left (scan2_body ga rd gl go) l acc = (z, s, m, i) -> i < nr).
  { clear. induction l as [|j l IH]; intros (((z0 & s0) & m0) & i0) z s m i Hin Ha E; cbn in *.
    - injection E as -> -> -> ->. exact Ha.
    - eapply IH; [|  |exact E]; [auto|]. unfold scan2_body.
      destruct (bget ga j); [|exact Ha].
      destruct (_ && _); [exact Ha|]. destruct (_ && _); [|exact Ha].
      destruct (_ <? _)%sc; [cbn; auto|exact Ha]. }
  intros E Hi. eapply G; [|  |exact E].
  - intros j Hj. apply in_seq in Hj. lia.
  - exact Hi.
Qed.

Ltac quiet := apply shell_quiet; [reflexivity|left; reflexivity|reflexivity|reflexivity|auto|reflexivity|reflexivity|reflexivity].

Lemma root_loop_no_panic fuel : forall (st : state) alph sp side imax, wf st ->
  length (ghi st) = nr -> imax < nr -> safe True (root_loop prob fuel st alph sp side imax).
Proof.
  induction fuel as [|fuel IH]; intros st alph sp side imax W Lh Hi; cbn [root_loop]; [exact I|].
  destruct (_ <=? _)%sc; [exact I|].
  apply safe_bind; [apply safe_aget; lia|]. intros ghm _.
  apply safe_bind; [apply safe_aget; rewrite (wf_glo _ W); lia|]. intros glm _.
  set (tmid := next_tmid _ _ _ _ _ _).
  apply safe_bind; [apply wf_gs_True; exact W|]. intros (st1 & r1) E1. cbv beta iota.
  pose proof (get_solution_frame _ _ _ _ _ E1) as (_ & _ & F & _). apply rootst_fields in F.
  assert (Lh1 : length (ghi st1) = nr) by (replace (ghi st1) with (ghi st); [exact Lh|symmetry; tauto]).
  apply get_solution_shell in E1. pose proof (wf_shell _ _ E1 W) as W1. clear E1 F.
  destruct (call_root prob st1 tmid (yy (nlp st1)) (yp (nlp st1))) as (st2 & g) eqn:E2.
  pose proof (root_grout_shell _ _ _ _ _ _ _ E2) as S2.
  pose proof (wf_shell _ _ S2 W1) as W2. pose proof (shell_call _ _ _ _ _ _ _ E2) as S3.
  destruct S3 as (_ & _ & _ & _ & F & _ & _ & _ & Lg). apply rootst_fields in F.
  cbv zeta. set (st3 := set_nge _ _) in *.
  assert (Lh3 : length (ghi st3) = nr) by (change (ghi st3) with (ghi st2); replace (ghi st2) with (ghi st1); [exact Lh1|symmetry; tauto]).
  assert (Lg3 : length (grout st3) = nr) by exact Lg.
  clearbody st3. clear S2 E2.
  destruct (scan2 prob _ _ _ _ imax) as (((z & s) & m) & i) eqn:Es. apply scan2_imax in Es; [|exact Hi].
  destruct s; [|destruct z].
  - destruct (_ <=? _)%sc; [exact I|]. apply IH; [|exact Lg3|exact Es].
    eapply wf_shell; [|exact W2]. quiet.
  - exact I.
  - destruct (_ <=? _)%sc; [exact I|]. apply IH; [|exact Lh3|exact Es].
    eapply wf_shell; [|exact W2]. quiet.
Qed.

Lemma root_find_safe (st : state) : wf st -> 0 < nr -> length (ghi st) = nr -> safe D (root_find prob rfuel st).
Proof.
  intros W Hn Lh. pose proof (Hroot st Hn) as HD.
  assert (safe True (root_find prob rfuel st)) as X; [|destruct (root_find prob rfuel st); cbn in *; auto].
  clear HD. unfold root_find. destruct (scan1 prob _ _ _ _) as (((z & s) & m) & i) eqn:Es.
  destruct s; cbn [negb].
  - apply safe_bind; [|intros; exact I]. apply root_loop_no_panic; auto.
    eapply scan1_imax; [exact Es|reflexivity].
  - cbv zeta. destruct z; exact I.
Qed.

Lemma r_check1_safe (st : state) : arrays st -> safe D (r_check1 prob st).
Proof.
  intros (A & _). unfold r_check1. cbv zeta.
  apply safe_bind; [apply safe_aget; cbn; lia|]. intros p0 _.
  apply safe_bind; [apply safe_aget; cbn; lia|]. intros p1 _.
  destruct (call_root prob _ _ _ _) as (s1 & g1). destruct (existsb _ _); [|exact I].
  destruct (call_root prob _ _ _ _) as (s2 & g2). exact I.
Qed.

Lemma r_check2_safe (st : state) : wf st -> safe D (r_check2 prob st).
Proof.
  intros W. unfold r_check2. cbv zeta. destruct (negb _); [exact I|].
  apply safe_bind; [apply wf_gs; exact W|]. intros (st1 & r1) E1. cbv beta iota.
  apply get_solution_shell in E1. pose proof (wf_shell _ _ E1 W) as W1.
  destruct (call_root prob _ _ _ _) as (st2 & g) eqn:E2.
  pose proof (wf_shell _ _ (root_glo_shell _ _ _ _ _ _ _ E2) W1) as W2. clear E2.
  set (st3 := set_nge _ _) in *. clearbody st3.
  destruct (existsb _ _); [|exact I].
  set (st4 := set_ttol _ _).
  assert (W4 : wf st4) by (eapply wf_shell; [|exact W2]; quiet). clearbody st4.
  apply safe_bind.
  - destruct (_ <=? _)%sc.
    + apply safe_bind; [apply safe_aget; destruct (wf_ord _ W4) as ((A & _) & _); lia|]. intros; exact I.
    + apply safe_bind; [apply wf_gs; exact W4|]. intros (? & ?) _. exact I.
  - intros st5 _. destruct (call_root prob _ _ _ _) as (st6 & g6).
    destruct (close_scan _ _ _ _ _ _) as (((ir & gl) & cl) & zr).
    destruct cl; [exact I|destruct zr; exact I].
Qed.

Lemma r_check3_safe (st : state) : wf st -> 0 < nr -> safe D (r_check3 prob rfuel st).
Proof.
  intros W Hn. unfold r_check3. cbv zeta.
  set (st0 := set_thi _ st). assert (W0 : wf st0) by (eapply wf_shell; [|exact W]; quiet). clearbody st0.
  apply safe_bind; [apply wf_gs; exact W0|]. intros (st1 & r1) E1. cbv beta iota.
  apply get_solution_shell in E1. pose proof (wf_shell _ _ E1 W0) as W1.
  destruct (call_root prob _ _ _ _) as (st2 & g) eqn:E2.
  pose proof (wf_shell _ _ (root_ghi_shell _ _ _ _ _ _ _ E2) W1) as W2.
  assert (Lg : length g = nr) by (apply shell_call in E2; tauto).
  set (st3 := set_nge _ _) in *. set (st4 := set_ttol _ _).
  assert (W4 : wf st4) by (eapply wf_shell; [|exact W2]; quiet).
  assert (Lh : length (ghi st4) = nr) by exact Lg.
  clearbody st4. clear W2 st3.
  apply safe_bind; [apply root_find_safe; auto|]. intros (st5 & r5) E5. cbv beta iota.
  pose proof (root_find_grout _ _ _ _ _ Lh E5) as Lo.
  apply root_find_shell in E5. pose proof (wf_shell _ _ E5 W4) as W5.
  destruct r5; [|exact I].
  apply safe_bind; [|intros (? & ?) _; exact I]. apply wf_gs.
  eapply wf_shell; [|exact W5]. quiet.
Qed.

(** ** [solve] *)
Lemma ls_perf_safe (st : state) b : wf st -> safe D (ls_perf (lp (nlp st)) (nst st) (nni st) (ncfn st) b).
Proof.
  intros W. pose proof (wf_perf _ W) as P. unfold perf0, perf_now, le4 in P. cbv zeta in P.
  destruct P as (P1 & P2 & P3 & P4). unfold ls_perf. cbv zeta. destruct b; cbn [negb]; [|exact I].
  rewrite !usub_ret by assumption. cbn [bind].
  destruct (_ || _); [exact I|]. destruct (negb _); [exact I|]. destruct (10 <? _); exact I.
Qed.

Lemma stop_test1_safe (st : state) tout tret itask : wf st -> safe D (stop_test1 prob st tout tret itask).
Proof.
  intros W. unfold stop_test1. cbv zeta.
  assert (X : safe D (match itask with
    | Normal =>
      if (tout =? tretlast st)%sc then
        Ret (set_tretlast tout st, tout, Ok Success)
      else if (szero <=? (tn (nlp st) - tout) * hh st)%sc then
        let* (st, r) := get_solution prob st tout in
        match r with
        | Err e => Ret (st, tret, Err e)
        | Ok _ => Ret (set_tretlast tout st, tout, Ok Success)
        end
      else
        match tstop st with
        | Some ts =>
            if at_tstop st ts then
              let* (st, r) := get_solution prob st ts in
              match r with
              | Err _ => Ret (st, tret, Err (EIda (BadStopTime ts (tn (nlp st)))))
              | Ok _ => Ret (set_tstop None (set_tretlast ts st), ts, Ok TStop)
              end
            else Ret (limit_to_tstop st ts, tret, Ok ContinueSteps)
        | None => Ret (st, tret, Ok ContinueSteps)
        end
  | OneStep =>
      if (szero <? (tn (nlp st) - tretlast st) * hh st)%sc then
        let* (st, _) := get_solution prob st (tn (nlp st)) in
        Ret (set_tretlast (tn (nlp st)) st, tn (nlp st), Ok Success)
      else
        match tstop st with
        | Some ts =>
            if at_tstop st ts then
              let* (st, r) := get_solution prob st ts in
              match r with
              | Err e => Ret (st, tret, Err e)
              | Ok _ => Ret (set_tretlast ts st, ts, Ok TStop)
              end
            else Ret (limit_to_tstop st ts, tret, Ok ContinueSteps)
        | None => Ret (st, tret, Ok ContinueSteps)
        end
  end)).
  { destruct itask.
    - destruct (_ =? _)%sc; [exact I|]. destruct (_ <=? _)%sc.
      + apply safe_bind; [apply wf_gs; exact W|]. intros (s & []) _; exact I.
      + destruct (tstop st) as [ts|]; [|exact I]. destruct (at_tstop st ts); [|exact I].
        apply safe_bind; [apply wf_gs; exact W|]. intros (s & []) _; exact I.
    - destruct (_ <? _)%sc.
      + apply safe_bind; [apply wf_gs; exact W|]. intros (s & ?) _; exact I.
      + destruct (tstop st) as [ts|]; [|exact I]. destruct (at_tstop st ts); [|exact I].
        apply safe_bind; [apply wf_gs; exact W|]. intros (s & []) _; exact I. }
  destruct (tstop st) as [ts|] eqn:Ets; [|exact X].
  destruct (szero <? (tn (nlp st) - ts) * hh st)%sc; [exact I|exact X].
Qed.

Lemma stop2_safe (st : state) : wf st -> safe D (stop2_tstop prob st).
Proof.
  intros W. unfold stop2_tstop. destruct (tstop st) as [ts|]; [|exact I]. destruct (at_tstop st ts); [|exact I].
  apply safe_bind; [apply wf_gs; exact W|]. intros (s & ?) _; exact I.
Qed.

Lemma stop_test2_safe (st : state) tout tret itask : wf st -> safe D (stop_test2 prob st tout tret itask).
Proof.
  intros W. unfold stop_test2. cbv zeta. destruct itask; [destruct (_ <=? _)%sc|].
  - apply safe_bind; [apply wf_gs; eapply wf_shell; [apply tretlast_shell|exact W]|]. intros (s & ?) _; exact I.
  - apply safe_bind; [apply stop2_safe; exact W|]. intros [?|?] _; exact I.
  - apply safe_bind; [apply stop2_safe; exact W|]. intros [?|?] _; exact I.
Qed.

Lemma first_call_safe (st : state) tout : wf st -> nst st = 0 -> safe D (first_call prob ewt_set st tout).
Proof.
  intros W Hn. unfold first_call. destruct (wf_ord _ W) as (Ha & Hm & Hk & Hu & _).
  assert (Ha0 := Ha). destruct Ha as (A & _).
  apply safe_bind.
  { destruct (setup_done st); [exact I|]. apply safe_bind; [|intros; exact I].
    unfold initial_setup. apply safe_bind; [apply safe_aget; lia|intros; exact I]. }
  intros st1 E1.
  assert (F1 : arrays st1).
  { destruct (setup_done st); [injection E1 as <-; exact Ha0|].
    apply bind_ret_inv in E1. destruct E1 as (s & E1 & E2). injection E2 as <-.
    unfold initial_setup in E1. apply bind_ret_inv in E1. destruct E1 as (p0 & _ & E2). injection E2 as <-. exact Ha0. }
  clear E1. apply safe_bind.
  { unfold first_step. cbv zeta. destruct (_ =? _)%sc; [exact I|]. destruct (_ <? _)%sc; [exact I|].
    destruct (_ && _); [exact I|]. apply safe_bind.
    - destruct (_ =? _)%sc; [|exact I]. apply safe_bind; [apply safe_aget; destruct F1; cbn; lia|intros; exact I].
    - intros st2 _. match goal with |- safe _ (match tstop ?s with _ => _ end) => destruct (tstop s) as [ts|] end; [|exact I].
      destruct (_ <=? _)%sc; exact I. }
  intros [e|st2] E2; [exact I|]. apply first_step_frame in E2. destruct E2 as (h & ->).
  cbv zeta. set (st3 := set_kused 0 _). assert (F3 : arrays st3) by exact F1. clearbody st3.
  assert (R : safe D (if 0 <? nrtfn st3 then r_check1 prob st3 else Ret st3)).
  { destruct (0 <? nrtfn st3); [apply r_check1_safe; exact F3|exact I]. }
  apply safe_bind; [exact R|]. intros st4 E4.
  assert (F4 : length (phi st4) = 6).
  { destruct (0 <? nrtfn st3); [|injection E4 as <-; apply F3].
    apply r_check1_frame in E4. destruct E4 as ((C & _) & _).
    apply core_fields in C. destruct C as (_ & C & _). rewrite C. apply F3. }
  apply safe_bind; [apply safe_aget; lia|]. intros p1 _.
  apply safe_bind; [apply safe_aset; lia|]. intros; exact I.
Qed.

Lemma later_call_safe (st : state) tout tret itask : wf st -> safe D (later_call prob rfuel st tout tret itask).
Proof.
  intros W. unfold later_call.
  assert (X : safe D (if 0 <? nrtfn st then
       let irfndp := irfnd st in
       let* (st, ier) := r_check2 prob st in
       match ier with
       | Err e => Ret (inl (st, tret, Err e))
       | Ok RootFound => Ret (inl (set_tretlast (tlo st) st, tlo st, Ok RootReturn))
       | Ok RootContinue =>
           let troundoff := root_ttol st in
           if (troundoff <? sabs (tn (nlp st) - tretlast st))%sc then
             let* (st, ier) := r_check3 prob rfuel st in
             match ier with
             | RootContinue =>
                 let st := set_irfnd false st in
                 match itask, irfndp with
                 | OneStep, true =>
                     let st := set_tretlast (tn (nlp st)) st in
                     let* (st, _) := get_solution prob st (tn (nlp st)) in
                     Ret (inl (st, tn (nlp st), Ok Success))
                 | _, _ => Ret (inr st)
                 end
             | RootFound =>
                 let st := set_irfnd true st in
                 Ret (inl (set_tretlast (tlo st) st, tlo st, Ok RootReturn))
             end
           else Ret (inr st)
       end
     else @Ret (state * T * result solve_status (err T) + state) (inr st)) /\
     forall s, (if 0 <? nrtfn st then
       let irfndp := irfnd st in
       let* (st, ier) := r_check2 prob st in
       match ier with
       | Err e => Ret (inl (st, tret, Err e))
       | Ok RootFound => Ret (inl (set_tretlast (tlo st) st, tlo st, Ok RootReturn))
       | Ok RootContinue =>
           let troundoff := root_ttol st in
           if (troundoff <? sabs (tn (nlp st) - tretlast st))%sc then
             let* (st, ier) := r_check3 prob rfuel st in
             match ier with
             | RootContinue =>
                 let st := set_irfnd false st in
                 match itask, irfndp with
                 | OneStep, true =>
                     let st := set_tretlast (tn (nlp st)) st in
                     let* (st, _) := get_solution prob st (tn (nlp st)) in
                     Ret (inl (st, tn (nlp st), Ok Success))
                 | _, _ => Ret (inr st)
                 end
             | RootFound =>
                 let st := set_irfnd true st in
                 Ret (inl (set_tretlast (tlo st) st, tlo st, Ok RootReturn))
             end
           else Ret (inr st)
       end
     else @Ret (state * T * result solve_status (err T) + state) (inr st)) = Ret (inr s) -> wf s).
  { destruct (0 <? nrtfn st) eqn:En; [|split; [exact I|intros s E; injection E as <-; exact W]].
    apply Nat.ltb_lt in En. rewrite (wf_nr _ W) in En. cbv zeta.
    split.
    - apply safe_bind; [apply r_check2_safe; exact W|]. intros (st1 & r1) E1. cbv beta iota.
      apply r_check2_shell in E1. pose proof (wf_shell _ _ E1 W) as W1. destruct r1 as [[|]|]; try exact I.
      destruct (_ <? _)%sc; [|exact I].
      apply safe_bind; [apply r_check3_safe; assumption|]. intros (st2 & r2) E2. cbv beta iota.
      apply r_check3_shell in E2. pose proof (wf_shell _ _ E2 W1) as W2. destruct r2; [exact I|].
      destruct itask; [exact I|]. destruct (irfnd st); [|exact I].
      apply safe_bind; [apply wf_gs; eapply wf_shell; [|exact W2]; quiet|]. intros (? & ?) _. exact I.
    - intros s E. apply bind_ret_inv in E. destruct E as ((st1 & r1) & E1 & E). cbv beta iota in E.
      apply r_check2_shell in E1. pose proof (wf_shell _ _ E1 W) as W1. destruct r1 as [[|]|]; try discriminate.
      destruct (_ <? _)%sc; [|injection E as <-; exact W1].
      apply bind_ret_inv in E. destruct E as ((st2 & r2) & E2 & E). cbv beta iota in E.
      apply r_check3_shell in E2. pose proof (wf_shell _ _ E2 W1) as W2. destruct r2; [discriminate|].
      assert (W3 : wf (set_irfnd false st2)) by (eapply wf_shell; [apply irfnd_shell|exact W2]).
      destruct itask; [injection E as <-; exact W3|]. destruct (irfnd st); [|injection E as <-; exact W3].
      apply bind_ret_inv in E. destruct E as ((? & ?) & _ & E). discriminate. }
  destruct X as (X1 & X2).
  apply safe_bind; [exact X1|]. intros [a|s] E; [exact I|]. apply X2 in E.
  apply safe_bind; [apply stop_test1_safe; exact E|]. intros ((? & ?) & [[]|]) _; exact I.
Qed.

Lemma pre_step_safe (st : state) tret nl : wf st -> safe D (pre_step prob ewt_set st tret nl).
Proof.
  intros W. unfold pre_step. destruct (_ && _); [exact I|].
  apply safe_bind; [apply ls_perf_safe; exact W|]. intros l El. apply (ls_perf_true_shell prob) in El.
  pose proof (wf_shell _ _ El W) as W1. cbv zeta. set (st1 := on_lp _ st) in *. clearbody st1.
  assert (L0 : forall s : state, wf s -> 0 < length (phi s)).
  { intros s Ws. destruct (wf_ord _ Ws) as ((A & _) & _). lia. }
  apply safe_bind.
  { destruct (0 <? nst st1); [|exact I].
    apply safe_bind; [apply safe_aget; auto|]. intros p0 _.
    destruct (existsb _ _); [|exact I].
    apply safe_bind; [apply wf_gs; eapply wf_shell; [apply ewt_shell|exact W1]|]. intros (? & ?) _. exact I. }
  intros [a|st2] E2; [exact I|].
  assert (W2 : wf st2).
  { destruct (0 <? nst st1); [|injection E2 as <-; exact W1].
    apply bind_ret_inv in E2. destruct E2 as (p0 & _ & E2).
    destruct (existsb _ _); [apply bind_ret_inv in E2; destruct E2 as ((? & ?) & _ & E2); discriminate|].
    injection E2 as <-. eapply wf_shell; [apply ewt_shell|exact W1]. }
  clear E2. apply safe_bind; [apply safe_aget; auto|]. intros p0 _.
  destruct (_ <? _)%sc; [|exact I].
  apply safe_bind; [|intros; exact I]. 
  match goal with |- safe _ (if 0 <? ?k then _ else _) => destruct (0 <? k) end; [|exact I].
  apply safe_bind; [|intros (? & ?) _; exact I].
  apply wf_gs. eapply wf_shell; [|exact W2]. quiet.
Qed.

Lemma post_step_safe (st : state) tout tret itask : wf st -> safe D (post_step prob rfuel st tout tret itask).
Proof.
  intros W. unfold post_step. destruct (0 <? nrtfn st) eqn:En.
  - apply Nat.ltb_lt in En. rewrite (wf_nr _ W) in En.
    apply safe_bind.
    + apply safe_bind; [apply r_check3_safe; assumption|]. intros (st1 & []) _; exact I.
    + intros [a|st1] E; [exact I|]. apply stop_test2_safe.
      apply bind_ret_inv in E. destruct E as ((st2 & r2) & E & E').
      apply r_check3_shell in E. destruct r2; [discriminate|injection E' as <-; exact (wf_shell _ _ E W)].
  - apply stop_test2_safe. exact W.
Qed.

Lemma wf_post (st st' : state) tout tret itask t r :
  post_step prob rfuel st tout tret itask = Ret (st', t, r) -> wf st -> wf st'.
Proof.
  intros E W. apply post_step_shell in E. destruct E as (st1 & S & X).
  pose proof (wf_shell _ _ S W) as W1. destruct X as [(_ & L & _)|(_ & [S2|(st2 & L & S2)])].
  - eapply wf_lims; eassumption.
  - eapply wf_shell; eassumption.
  - eapply wf_shell; [exact S2|]. eapply wf_lims; eassumption.
Qed.

Lemma cfg_shell (a b : state) : shell prob a b -> maxnef b = maxnef a /\ mxstep b = mxstep a.
Proof.
  intros S. pose proof (sh_core _ _ _ S) as C. apply core_fields in C. destruct C as (C & _).
  apply cfg_fields in C. tauto.
Qed.
Lemma cfg_lims (a b : state) : lims a b -> maxnef b = maxnef a /\ mxstep b = mxstep a.
Proof. intros L. apply lims_fields in L. destruct L as (h & ->). auto. Qed.

Lemma solve_loop_safe tout itask : forall fuel (st : state) tret nl, wf st ->
  (rfuel < Nat.max 3 (maxnef st) -> D) -> (mxstep st = 0 -> D) -> (fuel + nl < mxstep st + 1 -> D) ->
  (fuel = 0 -> D) ->
  safe D (solve_loop prob ewt_set fuel rfuel st tout tret itask nl).
Proof.
  induction fuel as [|fuel IH]; intros st tret nl W Hr Hz Hf H0'; cbn [solve_loop]; [apply H0'; reflexivity|].
  apply safe_bind; [apply pre_step_safe; exact W|]. intros [a|st1] E1; [exact I|].
  apply pre_step_shell in E1. destruct E1 as (S1 & M1 & _).
  pose proof (wf_shell _ _ S1 W) as W1. destruct (cfg_shell _ _ S1) as (C1 & C2).
  apply safe_bind; [apply step_safe; [exact W1|rewrite C1; exact Hr]|]. intros (st2 & r2) E2. cbv beta iota.
  pose proof (wf_step _ _ _ _ E2 W1) as W2.
  destruct r2 as [u|e].
  - apply safe_bind; [apply post_step_safe; exact W2|]. intros ((st3 & t3) & r3) E3. cbv beta iota.
    pose proof (wf_post _ _ _ _ _ _ _ E3 W2) as W3.
    destruct r3 as [[]|]; try exact I.
    assert (C : maxnef st3 = maxnef st /\ mxstep st3 = mxstep st).
    { pose proof (step_spec prob Hl _ _ _ _ (wf_ord _ W1) E2) as S.
      destruct (stepped_ord prob _ _ _ (wf_ord _ W1) S) as (_ & S' & _).
      apply cfg_fields in S'.
      apply post_step_shell in E3. destruct E3 as (s & Sh & [(_ & L & _)|(X & _)]); [|congruence].
      apply cfg_shell in Sh. apply cfg_lims in L.
      destruct S' as (_ & _ & _ & _ & _ & _ & S7 & _ & S9 & _). split; destruct Sh, L; congruence. }
    destruct C as (C3 & C4).
    apply IH; rewrite ?C3, ?C4; auto.
    + intros L. apply Hf. lia.
    + intros ->. destruct M1 as [M1|M1]; [auto|]. apply Hf. lia.
  - unfold step_failed. apply safe_bind; [apply wf_gs; exact W2|]. intros (? & []) _; exact I.
Qed.

Lemma wf_perf_call (st : state) l b : ls_perf (lp (nlp st)) (nst st) (nni st) (ncfn st) b = Ret l ->
  wf st -> wf (on_lp (fun _ => l) st).
Proof. intros E W. destruct b; [apply (ls_perf_true_shell prob) in E|apply (ls_perf_false_shell prob) in E]; eapply wf_shell; eassumption. Qed.

Lemma solve_safe fuel (st : state) tout tret itask : wf st ->
  (rfuel < Nat.max 3 (maxnef st) -> D) -> (mxstep st = 0 -> D) -> (fuel < mxstep st + 1 -> D) ->
  safe D (solve prob ewt_set fuel rfuel st tout tret itask).
Proof.
  intros W Hr Hz Hf. rewrite solve_unfold.
  set (st0 := set_taskc itask _).
  pose proof (task_shell prob st tout itask) as S0. fold st0 in S0.
  pose proof (wf_shell _ _ S0 W) as W0. destruct (cfg_shell _ _ S0) as (C1 & C2). clearbody st0.
  rewrite <- C1 in Hr. rewrite <- C2 in Hz, Hf. clear W S0 C1 C2.
  apply safe_bind.
  - unfold solve_start. apply safe_bind.
    + destruct (nst st0 =? 0) eqn:En; [|exact I]. apply Nat.eqb_eq in En.
      apply safe_bind; [apply first_call_safe; assumption|]. intros [(? & ?)|?] _; exact I.
    + intros [a|st1] E1; [exact I|].
      assert (W1 : wf st1).
      { destruct (nst st0 =? 0) eqn:En; [|injection E1 as <-; exact W0]. apply Nat.eqb_eq in En.
        apply bind_ret_inv in E1. destruct E1 as ([(s & m)|s] & E1 & E2); [discriminate|]. injection E2 as <-.
        apply (wf_first _ _ _ En E1 W0). }
      apply safe_bind; [apply ls_perf_safe; exact W1|]. intros l El.
      apply wf_perf_call in El; [|exact W1].
      match goal with |- safe _ (if ?b then _ else _) => destruct b end; [|exact I]. apply later_call_safe. exact El.
  - intros [a|(st1 & tr1)] E1; [exact I|].
    assert (X : wf st1 /\ maxnef st1 = maxnef st0 /\ mxstep st1 = mxstep st0).
    { apply solve_start_cases in E1. destruct E1 as [(_ & s & m & _ & E)|[(En & s & l & E & _ & _ & Sh & E')|(_ & l & El & Sh & E)]].
      - discriminate.
      - injection E' as -> ->. pose proof (wf_first _ _ _ En E W0) as W1. cbn in W1.
        split; [eapply wf_shell; eassumption|]. apply cfg_shell in Sh. apply first_call_frame in E. destruct E as (F & _).
        apply fkeep_fields in F. destruct F as (F & _). apply cfg_fields in F. split; destruct Sh; [transitivity (maxnef s)|transitivity (mxstep s)]; tauto.
      - apply later_call_shell in E. destruct E as (_ & s & S1 & _ & L & _).
        split; [eapply wf_lims; [exact L|]; eapply wf_shell; [exact S1|]; eapply wf_shell; eassumption|].
        apply cfg_shell in Sh, S1. apply cfg_lims in L. split; destruct Sh, S1, L; congruence. }
    destruct X as (W1 & C1 & C2).
    apply solve_loop_safe; rewrite ?C1, ?C2; auto.
    + intros L. apply Hf. lia.
    + intros ->. apply Hf. lia.
Qed.

Lemma wf_piece (a b : state) : piece prob ewt_set a b -> wf a -> wf b.
Proof.
  intros P W. destruct P as [st st' S|st st' Hn L|st st' tout m Hn E|st st' tout Hn E|fuel st st' r _ _ E].
  - eapply wf_shell; eassumption.
  - eapply wf_lims; eassumption.
  - exact (wf_first _ _ _ Hn E W).
  - exact (wf_first _ _ _ Hn E W).
  - eapply wf_step; eassumption.
Qed.

Lemma reach_wf c yy0 yp0 (st : state) : config_ok c -> Q (ls_new n) (mkmat n n (fun _ _ => szero)) ->
  reach prob ewt_set c yy0 yp0 st -> wf st.
Proof.
  intros Hc Hq R. revert R. apply reach_inv.
  - intros s E. apply (wf_new c yy0 yp0); assumption.
  - intros a b W P. eapply wf_piece; eassumption.
Qed.

End Safe.
