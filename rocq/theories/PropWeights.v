(** * PropWeights: vanishing tolerances (C16), binary64, with the solvers of
      the library *)
Require Import List Arith Bool Lia Floats.
Import ListNotations.
Require Import Verif.Base Verif.Scalar Verif.ScalarF Verif.Dense Verif.Norms Verif.Newton Verif.NewtonSpec Verif.IdaState
  Verif.IdaNls Verif.IdaCore Verif.IdaRoots Verif.IdaSolve Verif.IdaIo Verif.BaseFacts Verif.NewtonFacts
  Verif.IdaFacts Verif.IdaLoops Verif.IdaStep Verif.IdaSpec Verif.IdaShell Verif.IdaReach Verif.IdaInv Verif.IdaCount
  Verif.IdaLife Verif.IdaTrace Verif.IdaCall Verif.NewtonSafe Verif.FloatBad Verif.PropSafe.
Set Warnings "-inexact-float".
Open Scope nat_scope.

(** ** The solution of the dense solver has the length of the right-hand side *)
Lemma subst_length (a : mat float) (k lo hi : nat) bk (b b' : list float) :
  for_range lo hi (fun i b => let* aik := mget a i k in let* bi := aget b i in aset b i (bi - aik * bk)%sc) b = Ret b' ->
  length b' = length b.
Proof.
  intros E. destruct (Nat.le_gt_cases lo hi) as [L|L].
  - apply (for_range_inv (fun _ s => length s = length b)) in E; auto.
    intros i s s' _ Hs F. minv. apply aset_inv in F. destruct F as (_ & ->). rewrite upd_length. exact Hs.
  - rewrite for_range_empty in E by lia. apply ret_inj in E. congruence.
Qed.

Lemma dense_solve_length piv (a : mat float) b tol x : dense_solve piv a b tol = Ret x -> length x = length b.
Proof.
  unfold dense_solve, dense_get_rs. intros E. cbv zeta in E.
  apply bind_ret_inv in E. destruct E as (b1 & E1 & E). apply bind_ret_inv in E. destruct E as (b2 & E2 & E).
  assert (L1 : length b1 = length b).
  { unfold permute_rhs in E1. apply (for_range_inv (fun _ s => length s = length b)) in E1; [exact E1|lia|reflexivity|].
    intros i s s' _ Hs F. minv; [congruence|]. unfold vswap in F. minv.
    repeat match goal with H : aset _ _ _ = Ret _ |- _ => apply aset_inv in H; destruct H as (_ & ->) end.
    rewrite !upd_length. exact Hs. }
  assert (L2 : length b2 = length b1).
  { unfold forward_subst in E2. apply bind_ret_inv in E2. destruct E2 as (m & _ & E2).
    apply (for_range_inv (fun _ s => length s = length b1)) in E2; [exact E2|lia|reflexivity|].
    intros i s s' _ Hs F. apply bind_ret_inv in F. destruct F as (bk & _ & F). apply subst_length in F. congruence. }
  unfold backward_subst in E. apply bind_ret_inv in E. destruct E as (b3 & E3 & E).
  assert (L3 : length b3 = length b2).
  { destruct (Nat.le_gt_cases 1 (ncols a)) as [L|L].
    - apply (for_range_rev_inv (fun _ s => length s = length b2)) in E3; [exact E3|lia|reflexivity|].
      intros i s s' _ Hs F. minv. apply subst_length in F.
      match goal with H : aset _ _ _ = Ret _ |- _ => apply aset_inv in H; destruct H as (_ & ->) end.
      rewrite upd_length in F. congruence.
    - unfold for_range_rev in E3. replace (ncols a - 1) with 0 in E3 by lia. apply ret_inj in E3. congruence. }
  minv. apply aset_inv in E. destruct E as (_ & ->). rewrite upd_length. congruence.
Qed.

Section Weights.
Variable prob : problem float.
Variable nfuel : nat.
#[local] Existing Instance DenseLS.
#[local] Instance NL : NLSolver float (newton float) := NewtonNLS nfuel.
Notation n := (model_size prob).
Notation state := (ida float (list nat) (newton float)).
Notation tr st := (trace (lp (nlp st))).
Notation P := (ida_nlproblem prob).

(** ** The convergence test never accepts *)

Variable i : nat.
Hypothesis Hi : i < n.

(** The tolerances of the convergence test with the default coefficient. *)
Definition tols (s : nlprob float (list nat)) : Prop := toldel s = (0.0001 * 0.33)%float.
Definition Q (s : nlprob float (list nat)) : Prop := unsigned (Prim2SF (ss s)) /\ tols s.

Lemma unsigned_bad x y : unsigned (Prim2SF x) -> bad y -> (x * y <=? 0.33)%float = false.
Proof.
  intros U [-> | ->].
  - assert (E : Prim2SF (x * infinity) = Prim2SF infinity \/ Prim2SF (x * infinity) = Prim2SF nan).
    { rewrite mul_spec. unfold SF64mul. change (Prim2SF infinity) with (S754_infinity false).
      change (Prim2SF nan) with S754_nan.
      destruct (Prim2SF x) as [s|s| |s m e]; cbn in *; subst; auto. }
    destruct E as [E|E]; apply of_sf in E; rewrite E; reflexivity.
  - assert (E : Prim2SF (x * nan) = Prim2SF nan).
    { rewrite mul_spec. unfold SF64mul. change (Prim2SF nan) with S754_nan.
      destruct (Prim2SF x) as [s|s| |s m e]; reflexivity. }
    apply of_sf in E. rewrite E. reflexivity.
Qed.

Lemma ctest_bad s m y d w s' r : Q s -> (m <> 0 -> bad (oldnrm s)) -> i < length d -> nth i w 0%float = infinity ->
  nlp_ctest s m y d 0.33%float w = Ret (s', r) -> r = Ok false /\ Q s' /\ bad (oldnrm s').
Proof.
  intros (U & Ht) Ho Hd Hw E. pose proof (norm_bad d w i Hd Hw) as B. unfold nlp_ctest in E. cbv zeta in E.
  change (@norm_wrms float _ d w) with (norm_wrms d w) in E. 
  remember (norm_wrms d w) as v eqn:Ev. clear Ev.
  destruct (Nat.eqb_spec m 0) as [->|Hm].
  - change (toldel (set_oldnrm v s)) with (toldel s) in E. rewrite Ht in E.
    assert (Ev : (v <=? spt0001 * (0.0001 * 0.33)%float)%sc = false) by (destruct B as [-> | ->]; reflexivity).
    rewrite Ev in E. change (ss (set_oldnrm v s)) with (ss s) in E.
    change (@smul float _ (ss s) v <=? 0.33%float)%sc with (ss s * v <=? 0.33)%float in E.
    rewrite (unsigned_bad _ _ U B) in E. apply ret_inj in E. injection E as <- <-.
    split; [reflexivity|]. split; [split; assumption|exact B].
  - specialize (Ho Hm).
    assert (Er : spowf (v / oldnrm s)%sc (srecip (sofnat m)) = nan).
    { assert (Ed : (v / oldnrm s)%sc = nan) by (destruct B as [-> | ->], Ho as [-> | ->]; reflexivity).
      rewrite Ed. reflexivity. }
    rewrite Er in E. change (sratemax <? nan)%sc with false in E. cbv iota in E.
    change (ss (set_ss (nan / (sone - nan))%sc s)) with nan in E.
    assert (Ev : (nan * v <=? 0.33%float)%sc = false) by (destruct B as [-> | ->]; reflexivity).
    rewrite Ev in E. apply ret_inj in E. injection E as <- <-.
    split; [reflexivity|]. split; [split; [exact I|exact Ht]|exact Ho].
Qed.

Notation nst_t := (nlprob float (list nat)).

Lemma sys_Q (s : nst_t) y s' d r : nlp_sys prob s y = Ret (s', d, r) ->
  ss s' = ss s /\ toldel s' = toldel s /\ oldnrm s' = oldnrm s /\ r = Ok tt.
Proof. unfold nlp_sys. intros E. cbv zeta in E. apply ret_inj in E. injection E as <- <- <-. auto. Qed.

Lemma setup_Q (s : nst_t) y f j s' r : Q s -> nlp_setup prob s y f j = Ret (s', r) -> Q s' /\ exists b, r = Ok b.
Proof.
  intros (U & Ht) E. unfold nlp_setup in E. cbv zeta in E. apply bind_ret_inv in E. destruct E as (l & _ & E).
  apply ret_inj in E. injection E as <- <-. split; [split; [reflexivity|exact Ht]|eauto].
Qed.

Lemma solve_Q (s : nst_t) y d s' b r : length d = n -> nlp_solve prob s y d = Ret (s', b, r) ->
  ss s' = ss s /\ toldel s' = toldel s /\ oldnrm s' = oldnrm s /\ r = Ok tt /\ length b = n.
Proof.
  intros Hd E. unfold nlp_solve in E.
  apply bind_ret_inv in E. destruct E as ((l & b0) & E0 & E). cbv beta iota in E. apply ret_inj in E. injection E as <- <- <-.
  repeat split. unfold lp_solve in E0. cbn [ls_type ls_solve DenseLS] in E0. cbv zeta in E0.
  apply bind_ret_inv in E0. destruct E0 as ((x & rv) & E1 & E0).
  apply bind_ret_inv in E1. destruct E1 as (x0 & E1 & E2). apply ret_inj in E2. injection E2 as <- <-.
  apply dense_solve_length in E1. cbv beta iota in E0. apply ret_inj in E0. injection E0 as _ <-.
  match goal with |- length (if ?b then _ else _) = _ => destruct b end; [unfold vscale; apply vtab_length|cbn; congruence].
Qed.

(** ** Newton's iteration never returns *)
Section Never.
Variable w : list float.
Hypothesis Hw : nth i w 0%float = infinity.

Lemma inner_bad fuel : forall nw (s : nst_t) y nw' s' y' r, Q s -> (nw_curiter nw <> 0 -> bad (oldnrm s)) ->
  inner_loop P n fuel w 0.33%float nw s y = Ret (nw', s', y', r) -> r = Err ConvergenceRecover /\ Q s'.
Proof.
  induction fuel as [|fuel IH]; intros nw s y nw' s' y' r HQ Ho E; [discriminate|].
  cbn [inner_loop np_solve np_ctest np_sys ida_nlproblem] in E. cbv zeta in E.
  apply bind_ret_inv in E. destruct E as (((s1 & d1) & r1) & E1 & E). cbv beta iota in E.
  apply solve_Q in E1; [|cbn; apply vtab_length]. destruct E1 as (A1 & A2 & A3 & -> & A4).
  cbv beta iota in E. apply bind_ret_inv in E. destruct E as ((s2 & r2) & E2 & E). cbv beta iota in E.
  apply ctest_bad in E2.
  2:{ destruct HQ as (U & Ht). split; [rewrite A1; exact U|unfold tols in *; congruence]. }
  2:{ rewrite A3. exact Ho. }
  2:{ cbn. lia. }
  2:{ exact Hw. }
  destruct E2 as (-> & Q2 & B2). cbv beta iota in E.
  destruct (_ <=? _) eqn:Em in E; [apply ret_inj in E; injection E as <- <- <- <-; auto|].
  apply bind_ret_inv in E. destruct E as (((s3 & d3) & r3) & E3 & E). cbv beta iota in E.
  apply sys_Q in E3. destruct E3 as (C1 & C2 & C3 & ->). cbv beta iota in E.
  eapply IH; [| |exact E].
  - destruct Q2 as (U & Ht). split; [rewrite C1; exact U|unfold tols in *; congruence].
  - intros _. rewrite C3. exact B2.
Qed.

Lemma attempt_bad y0 call jbad nw (s : nst_t) y nw' s' y' r : Q s ->
  attempt P n y0 w 0.33%float call jbad nw s y = Ret (nw', s', y', r) -> r = Err ConvergenceRecover /\ Q s'.
Proof.
  intros HQ E. unfold attempt in E. cbn [np_sys np_setup ida_nlproblem] in E. cbv zeta in E.
  apply bind_ret_inv in E. destruct E as (((s1 & d1) & r1) & E1 & E). cbv beta iota in E.
  apply sys_Q in E1. destruct E1 as (A1 & A2 & _ & ->). cbv beta iota in E.
  assert (Q1 : Q s1) by (destruct HQ as (U & Ht); split; [rewrite A1; exact U|unfold tols in *; congruence]).
  apply bind_ret_inv in E. destruct E as (((nw2 & s2) & r2) & E2 & E). cbv beta iota in E.
  assert (H2 : Q s2 /\ exists u, r2 = Ok u).
  { destruct call.
    - apply bind_ret_inv in E2. destruct E2 as ((s3 & r3) & E3 & E2). cbv beta iota in E2.
      apply setup_Q in E3; [|exact Q1]. destruct E3 as (Q3 & b & ->). cbv beta iota in E2.
      apply ret_inj in E2. injection E2 as _ <- <-. eauto.
    - apply ret_inj in E2. injection E2 as _ <- <-. eauto. }
  destruct H2 as (Q2 & u & ->). cbv beta iota in E.
  eapply inner_bad; [exact Q2| |exact E]. cbn. congruence.
Qed.

Lemma outer_bad y0 fuel : forall call jbad nw (s : nst_t) y x, Q s ->
  outer_loop P n fuel y0 w 0.33%float call jbad nw s y <> Ret x.
Proof.
  induction fuel as [|fuel IH]; intros call jbad nw s y x HQ E; [discriminate|].
  cbn [outer_loop] in E. apply bind_ret_inv in E. destruct E as ((((nw1 & s1) & y1) & r1) & E1 & E).
  cbv beta iota in E. apply attempt_bad in E1; [|exact HQ]. destruct E1 as (-> & Q1).
  cbv beta iota in E. destruct (negb (nw_jcur nw1)); exact (IH _ _ _ _ _ _ Q1 E).
Qed.
End Never.

(** ** No attempt returns *)

(** An infinite weight and the default coefficient of the convergence test. *)
Definition stuck (st : state) : Prop :=
  nst st = 0 /\ nth i (ewt (nlp st)) 0%float = infinity /\ eps_newt st = 0.33%float /\ tols (nlp st).

Lemma nonlinear_stuck (st : state) x : stuck st -> nonlinear_solve prob st <> Ret x.
Proof.
  intros (Hn & Hw & He & Ht) E. unfold nonlinear_solve in E.
  assert (Hp : exists y b, nls_prepare st = (set_nlp y st, b) /\ ewt y = ewt (nlp st) /\ Q y).
  { unfold nls_prepare. cbv zeta. rewrite Hn. cbn [Nat.eqb].
    destruct (sneqb _ _); eexists _, _; (split; [reflexivity|]; split; [reflexivity|]; split; [reflexivity|exact Ht]). }
  destruct Hp as (y & b & Ep & Ey & HQ). rewrite Ep in E. clear Ep. cbv beta iota zeta in E.
  apply bind_ret_inv in E. destruct E as (((s & d) & r) & E1 & E). cbn [nls_setup NL NewtonNLS] in E1.
  apply ret_inj in E1. injection E1 as <- <- <-. cbv beta iota in E.
  apply bind_ret_inv in E. destruct E as ((((s2 & x2) & e2) & r2) & E1 & _).
  cbn [nls_solve NL NewtonNLS] in E1. unfold newton_solve in E1.
  match type of E1 with outer_loop _ _ _ _ ?a ?b _ _ _ _ _ = _ => change a with (ewt y) in E1; change b with (eps_newt st) in E1 end.
  rewrite He in E1. eapply outer_bad; [|exact HQ|exact E1]. rewrite Ey. exact Hw.
Qed.

Lemma try_stuck (st : state) x : stuck st -> try_step prob st <> Ret x.
Proof.
  intros (Hn & Hw & He & Ht) E. unfold try_step in E. cbv zeta in E.
  apply bind_ret_inv in E. destruct E as ((s1 & ck) & E1 & E). cbv beta iota in E.
  apply bind_ret_inv in E. destruct E as (s2 & E2 & E).
  apply bind_ret_inv in E. destruct E as ((s3 & r) & E3 & _).
  apply set_coeffs_frame in E1. destruct E1 as (C1 & O1 & _ & _ & _ & _ & _ & N1 & L1).
  pose proof (advance_tn_frame s1) as (C2 & O2 & _ & _ & _ & S2 & L2).
  apply predict_frame in E2. destruct E2 as (C3 & O3 & _ & _ & _ & S3 & L3).
  assert (Hn3 : nst s2 = nst st).
  { apply (f_equal (fun x => fst (fst (snd (fst x))))) in S2, S3. cbn in S2, S3.
    apply (f_equal (fun x => fst (fst (fst x)))) in N1. cbn in N1. congruence. }
  assert (He3 : eps_newt s2 = eps_newt st).
  { apply (f_equal (fun x => snd (fst x))) in O1, O2, O3. cbn in O1, O2, O3. congruence. }
  revert E3. apply nonlinear_stuck. split; [congruence|].
  split; [rewrite L3, L2, L1; exact Hw|]. split; [congruence|].
  unfold tols. rewrite L3, L2, L1. exact Ht.
Qed.

Lemma step_stuck fuel (st : state) x : stuck st -> step prob fuel st <> Ret x.
Proof.
  intros (Hn & Hw & He & Ht) E. unfold step in E. cbv zeta in E.
  apply bind_ret_inv in E. destruct E as (s1 & E1 & E). cbv beta in E.
  apply bind_ret_inv in E. destruct E as ((s2 & r) & E2 & _).
  assert (S1 : stuck s1).
  { unfold step_init in E1. change (nst (on_lp (push_ev (begin_ev st)) st)) with (nst st) in E1. rewrite Hn in E1.
    cbn [Nat.eqb] in E1. apply bind_ret_inv in E1. destruct E1 as (ps & _ & E1). apply ret_inj in E1. subst s1.
    repeat split; assumption. }
  destruct fuel as [|fuel]; [discriminate|]. cbn [step_loop] in E2.
  apply bind_ret_inv in E2. destruct E2 as ((((s3 & a) & b) & r3) & E3 & _).
  unfold attempt_step in E3. apply bind_ret_inv in E3. destruct E3 as (y & E3 & _). exact (try_stuck _ _ S1 E3).
Qed.

(** ** Lives *)
Variable ewt_set : list float -> list float.
Variables yy0 yp0 : list float.
Hypothesis Hw : nth i (ewt_set yy0) 0%float = infinity.

(** Nothing has been attempted. *)
Record idle (st : state) : Prop := mkidle {
  id_n : nst st = 0;
  id_y : row (phi st) 0 = yy0;
  id_l : 1 < length (phi st);
  id_e : epcon st = 0.33%float;
  id_w : setup_done st = true -> ewt (nlp st) = ewt_set yy0;
  id_t : existsb is_try (tr st) = false }.

Lemma idle_shell (a b : state) : shell prob a b -> ewt (nlp b) = ewt (nlp a) -> idle a -> idle b.
Proof.
  intros S Ew [A1 A2 A2' A3 A4 A5]. pose proof (sh_core _ _ _ S) as C. pose proof (core_fields _ _ C) as Cf.
  assert (Hc : cfg b = cfg a) by tauto.
  assert (Hs : setup_done b = setup_done a).
  { apply (f_equal (fun x => snd (snd (fst (fst x))))) in C. exact C. }
  constructor.
  - destruct Cf as (_ & _ & _ & _ & _ & _ & _ & _ & _ & _ & _ & _ & _ & _ & _ & N & _). congruence.
  - destruct Cf as (_ & Ph & _). rewrite Ph. exact A2.
  - destruct Cf as (_ & Ph & _). rewrite Ph. exact A2'.
  - apply (f_equal (fun x => snd (fst (fst x)))) in Hc. cbn in Hc. congruence.
  - rewrite Hs, Ew. exact A4.
  - destruct (shell_trace _ _ _ S) as (ev & U1 & U2 & U3 & _). rewrite U1, existsb_app, A5, orb_false_r. exact U2.
Qed.

Lemma idle_new c (st : state) : g_epcon c = 0.33%float -> ida_new prob yy0 yp0 = Ret st -> idle (configure c st).
Proof.
  intros Hc E. pose proof (new_fields _ _ _ _ E) as F.
  assert (Hs : setup_done st = false).
  { unfold ida_new in E. destruct (_ && _); [|discriminate]. apply ret_inj in E. subst st. reflexivity. }
  assert (E1 : phi st = yy0 :: yp0 :: repeat (vzero n) 4) by tauto.
  assert (E2 : nst st = 0) by tauto. assert (E3 : tr st = []) by tauto.
  constructor; [exact E2| | |exact Hc| |].
  - change (phi (configure c st)) with (phi st). rewrite E1. reflexivity.
  - change (phi (configure c st)) with (phi st). rewrite E1. cbn. lia.
  - change (setup_done (configure c st)) with (setup_done st). congruence.
  - change (tr (configure c st)) with (tr st). rewrite E3. reflexivity.
Qed.

(** The first-call block. *)
Lemma idle_first (st : state) tout x : idle st -> first_call prob ewt_set st tout = Ret x ->
  let st' := match x with inl (s, _) => s | inr s => s end in
  idle st' /\ ewt (nlp st') = ewt_set yy0 /\ (match x with inr _ => stuck st' | _ => True end).
Proof.
  intros [A1 A2 A2' A3 A4 A5] E. pose proof (first_call_frame _ _ _ _ _ E) as F. cbv zeta in F |- *.
  set (st' := match x with inl (s, _) => s | inr s => s end) in *.
  destruct F as (F1 & F2 & F3 & _ & F4). apply fkeep_fields in F1.
  assert (Hc : cfg st' = cfg st) by tauto. assert (Hn : nst st' = 0) by (rewrite <- A1; tauto).
  apply (f_equal (fun x => snd (fst (fst x)))) in Hc. cbn in Hc.
  assert (Ew : ewt (nlp st') = ewt_set yy0).
  { rewrite F3, A2. destruct (setup_done st); auto. }
  clear F1 F3.
  destruct x as [(s & m)|s]; subst st'; cbv beta iota in *.
  - destruct F4 as (P & _ & _ & L & _). split; [|auto].
    constructor; [exact Hn|rewrite P; exact A2|rewrite P; exact A2'|congruence|intros _; exact Ew|].
    rewrite L. exact A5.
  - destruct F4 as (P & _ & _ & _ & G1 & G2 & evs & G3 & G4 & _). specialize (P A2').
    assert (I' : idle s).
    { constructor; [exact Hn| | |congruence|intros _; exact Ew|].
      - rewrite P. unfold row in *. rewrite nth_upd_neq by lia. exact A2.
      - rewrite P, upd_length. exact A2'.
      - rewrite G3, existsb_app, A5, orb_false_r. clear -G4. induction G4 as [|e l He _ IH]; [reflexivity|].
        cbn. rewrite IH. destruct e; cbn in *; congruence. }
    split; [exact I'|]. split; [exact Ew|].
    assert (Ee : eps_newt s = 0.33%float) by congruence.
    split; [exact Hn|]. split; [rewrite Ew; exact Hw|]. split; [exact Ee|].
    unfold tols. rewrite G2, Ee. reflexivity.
Qed.

Lemma pre_idle (st : state) tret nl x : nst st = 0 -> pre_step prob ewt_set st tret nl = Ret x ->
  let st' := match x with inl (s, _, _) => s | inr s => s end in
  shell prob st st' /\ ewt (nlp st') = ewt (nlp st) /\
  match x with inl (_, _, r) => r <> Err (EIda (IllegalIn EwtBad)) | _ => True end.
Proof.
  intros Hn E. pose proof (pre_step_shell _ _ _ _ _ _ E) as S.
  unfold pre_step in E. destruct (_ && _).
  - apply ret_inj in E. subst x. cbv beta iota zeta. split; [apply S|]. split; [reflexivity|discriminate].
  - apply bind_ret_inv in E. destruct E as (l & _ & E). cbv beta zeta in E.
    change (nst (on_lp (fun _ => l) st)) with (nst st) in E. rewrite Hn in E. cbn [Nat.ltb Nat.leb bind] in E.
    apply bind_ret_inv in E. destruct E as (p0 & _ & E). cbv beta in E.
    destruct (_ <? _)%sc in E.
    + match type of E with bind (if ?b then _ else _) _ = _ => change b with (0 <? nst st) in E end.
      rewrite Hn in E. cbn [Nat.ltb Nat.leb bind] in E. apply ret_inj in E. subst x. cbv beta iota zeta. split; [apply S|]. split; [reflexivity|discriminate].
    + apply ret_inj in E. subst x. cbv beta iota zeta. split; [apply S|]. split; [reflexivity|exact I].
Qed.

Lemma idle_stuck_shell (a b : state) : shell prob a b -> ewt (nlp b) = ewt (nlp a) -> stuck a -> stuck b.
Proof.
  intros S Ew (B1 & B2 & B3 & B4). pose proof (sh_core _ _ _ S) as C. pose proof (core_fields _ _ C) as Cf.
  split; [rewrite <- B1; tauto|]. split; [congruence|]. split; [rewrite <- B3; tauto|].
  unfold tols in *. apply (f_equal (fun x => snd (fst (fst (snd (snd (fst x))))))) in C. cbn in C. congruence.
Qed.

Lemma first_reason (st : state) tout s m : first_call prob ewt_set st tout = Ret (inl (s, m)) -> m <> EwtBad.
Proof.
  unfold first_call. intros E. apply bind_ret_inv in E. destruct E as (s0 & _ & E). cbv beta in E.
  apply bind_ret_inv in E. destruct E as (r & Er & E). cbv beta in E. destruct r as [(s1 & m1)|s1].
  - apply ret_inj in E. injection E as <- <-. unfold first_step in Er. cbv zeta in Er.
    destruct (_ =? _)%sc; [apply ret_inj in Er; injection Er as _ <-; discriminate|].
    destruct (_ <? _)%sc; [apply ret_inj in Er; injection Er as _ <-; discriminate|].
    destruct (_ && _)%bool; [apply ret_inj in Er; injection Er as _ <-; discriminate|].
    apply bind_ret_inv in Er. destruct Er as (s2 & _ & Er). cbv beta in Er.
    match type of Er with context [match ?o with Some _ => _ | None => _ end] => destruct o end; [|discriminate].
    match type of Er with context [if ?b then Ret (inl _) else _] => destruct b end; [|discriminate].
    apply ret_inj in Er. injection Er as _ <-. discriminate.
  - exfalso. cbv zeta in E. do 3 (apply bind_ret_inv in E; destruct E as (? & _ & E); cbv beta in E). discriminate.
Qed.

Lemma idle_solve fuel rfuel (st : state) tout tret itask st' t r : idle st ->
  solve prob ewt_set fuel rfuel st tout tret itask = Ret (st', t, r) ->
  idle st' /\ exists e, r = Err e /\ e <> EIda (IllegalIn EwtBad).
Proof.
  intros I0 E. 
  assert (I1 : idle (task_set st tout itask)).
  { eapply idle_shell; [apply task_set_shell| |exact I0]. destruct itask; reflexivity. }
  assert (N1 : nst (task_set st tout itask) = 0) by exact (id_n _ I1).
  apply solve_run in E. destruct E as [E|(s0 & s & nl & m & En & Lo & Ed)].
  - unfold answers in E. apply solve_start_cases in E. destruct E as [E|[E|E]].
    + destruct E as (_ & s & m & E & Ex). injection Ex as -> -> ->.
      pose proof (idle_first _ _ _ I1 E) as (I2 & _). split; [exact I2|].
      eexists. split; [reflexivity|]. intros C. injection C as C. exact (first_reason _ _ _ _ E C).
    + exfalso. destruct E as (_ & s & l & _ & _ & _ & _ & Ex). discriminate.
    + exfalso. destruct E as (N & _). exact (N N1).
  - unfold enters in En. apply solve_start_cases in En. destruct En as [En|[En|En]].
    + exfalso. destruct En as (_ & s1 & m1 & _ & Ex). discriminate.
    + destruct En as (_ & s1 & l & E1 & _ & _ & Sh & Ex). injection Ex as ->.
      pose proof (idle_first _ _ _ I1 E1) as (I2 & _ & St).
      assert (I3 : idle (on_lp (fun _ => l) s1)) by (eapply idle_shell; [exact Sh|reflexivity|exact I2]).
      assert (St3 : stuck (on_lp (fun _ => l) s1)) by (eapply idle_stuck_shell; [exact Sh|reflexivity|exact St]).
      clear I2 St Sh E1. set (s0 := on_lp (fun _ => l) s1) in *. clearbody s0.
      assert (Hs : forall s2 nl x tret' rf s3 , pre_step prob ewt_set s0 tret' nl = Ret (inr s2) -> step prob rf s2 = Ret (s3, x) -> False).
      { intros s2 nl' x tret' rf s3 Ep Es. apply pre_idle in Ep; [|apply (id_n _ I3)]. destruct Ep as (Sp & Ew & _).
        eapply step_stuck; [|exact Es]. eapply idle_stuck_shell; eassumption. }
      assert (Ls : s = s0).
      { clear Ed. induction Lo as [|s nl s2 s3 u s' Lo IH Ep Es _]; [reflexivity|]. subst s. exfalso.
        eapply Hs; eassumption. }
      subst s. destruct Ed as [st' t r Ep|s2 s3 e st' t r Ep Es _|s2 s3 u st' t r Ep Es _ _].
      * pose proof (pre_step_shell _ _ _ _ _ _ Ep) as Pr. apply pre_idle in Ep; [|apply (id_n _ I3)].
        cbv zeta beta iota in Ep. destruct Ep as (Sp & Ew & Hr).
        split; [eapply idle_shell; eassumption|].
        destruct Pr as (_ & _ & [(-> & _)|(_ & [-> | ->])]);
          (eexists; split; [reflexivity|]); [discriminate|congruence|discriminate].
      * exfalso. eapply Hs; eassumption.
      * exfalso. eapply Hs; eassumption.
    + exfalso. destruct En as (N & _). exact (N N1).
Qed.

Lemma reach_idle c (st : state) : g_epcon c = 0.33%float -> reach prob ewt_set c yy0 yp0 st -> idle st.
Proof.
  intros Hc. induction 1 as [st E|fuel rfuel st k st' rep Hr IH E]; [apply idle_new; assumption|].
  destruct k as [tout tret itask|t|t k]; cbn [api_call] in E; apply bind_ret_inv in E; destruct E as (x & Ex & E).
  - destruct x as ((s & t) & r). injection E as <- <-. exact (proj1 (idle_solve _ _ _ _ _ _ _ _ _ IH Ex)).
  - destruct x as (s & r). injection E as <- <-.
    eapply idle_shell; [exact (get_solution_shell _ _ _ _ _ Ex)| |exact IH].
    apply get_solution_frame in Ex. destruct Ex as (_ & _ & _ & _ & Ex).
    apply (f_equal (fun x => fst (fst (snd (fst (fst x)))))) in Ex. exact Ex.
  - destruct x as (d & r). injection E as <- <-. exact IH.
Qed.
End Weights.

(** ** C16 *)

(** A zero tolerance gives an infinite weight. *)
Lemma zero_tolerance rtol atol (y : list float) i : i < length y ->
  (rtol * abs (nth i y 0) + atol = 0)%float -> nth i (ewt_set_ss rtol atol y) 0%float = infinity.
Proof.
  intros Hi E. unfold ewt_set_ss.
  rewrite (nth_indep _ 0%float (srecip (rtol * sabs 0%float + atol)%sc)) by (rewrite map_length; exact Hi).
  rewrite (map_nth (fun y => srecip (rtol * sabs y + atol)%sc)).
  change (srecip (rtol * abs (nth i y 0) + atol)%float = infinity). rewrite E. reflexivity.
Qed.

(** With the solvers of the library and any component whose tolerance
    rtol*|y_i| + atol is zero at the start: in the whole life of the object no
    call that attempts a step returns, and the calls that do return (because
    their arguments are rejected) do not report bad weights. *)
Theorem C16_zero_tolerance_never_steps : forall (prob : problem float) nfuel rtol atol c yy0 yp0 i,
  let _ : NLSolver float (newton float) := NewtonNLS nfuel in
  let ewt_set := ewt_set_ss rtol atol in
  i < model_size prob -> (rtol * abs (nth i yy0 0) + atol = 0)%float -> g_epcon c = 0.33%float ->
  forall st : ida float (list nat) (newton float), reach prob ewt_set c yy0 yp0 st ->
  existsb is_try (trace (lp (nlp st))) = false /\
  forall fuel rfuel tout tret itask st' t r,
    solve prob ewt_set fuel rfuel st tout tret itask = Ret (st', t, r) ->
    exists e, r = Err e /\ e <> EIda (IllegalIn EwtBad).
Proof.
  cbv zeta. intros prob nfuel rtol atol c yy0 yp0 i Hi Hz Hc st Hr.
  assert (Hy : length yy0 = model_size prob).
  { destruct (@reach_pieces _ _ _ _ _ (NewtonNLS nfuel) _ _ _ _ _ _ Hr) as (st0 & E & _).
    unfold ida_new in E. destruct (Nat.eqb_spec (length yy0) (model_size prob)) as [Hy|]; [exact Hy|discriminate]. }
  assert (Hw : nth i (ewt_set_ss rtol atol yy0) 0%float = infinity) by (apply zero_tolerance; [lia|exact Hz]).
  assert (I0 : idle (ewt_set_ss rtol atol) yy0 st) by exact (reach_idle prob nfuel i Hi _ yy0 yp0 Hw c st Hc Hr).
  split; [apply (id_t _ _ _ I0)|].
  intros fuel rfuel tout tret itask st' t r E.
  exact (proj2 (idle_solve prob nfuel i Hi _ yy0 Hw _ _ _ _ _ _ _ _ _ I0 E)).
Qed.

Print Assumptions C16_zero_tolerance_never_steps.

(** y' = 0 from y = 0 with atol = 0. *)
Definition flat : problem float := mkproblem 1 0 (fun _ _ yp _ => vget yp 0) (fun _ cj _ _ _ _ _ => 1%float) (fun _ _ _ _ => 0%float).

Lemma flat_factorable : factorable flat.
Proof. intros c y yp r [|p0 [|]] Hp; try discriminate Hp; do 2 eexists; vm_compute; reflexivity. Qed.

Section Flat.
Variable nfuel : nat.
#[local] Existing Instance DenseLS.
#[local] Instance NLF : NLSolver float (newton float) := NewtonNLS nfuel.
Notation state := (ida float (list nat) (newton float)).
Definition zero_ewt : list float -> list float := ewt_set_ss 1e-4%float 0%float.

(** The call gets as far as the first step. *)
Definition flat_passes (st : state) : bool :=
  match first_call flat zero_ewt (task_set st 1%float Normal) 1%float with
  | Ret (inr s1) =>
      match ls_perf (lp (nlp s1)) (nst s1) (nni s1) (ncfn s1) false with
      | Ret l => match pre_step flat zero_ewt (on_lp (fun _ => l) s1) 0%float 0 with
                 | Ret (inr _) => true
                 | _ => false
                 end
      | _ => false
      end
  | _ => false
  end.

Lemma flat_new : exists s0 : state, ida_new flat [0%float] [0%float] = Ret s0 /\ flat_passes (configure (default_config flat) s0) = true.
Proof. eexists. split; [vm_compute; reflexivity|]. vm_compute. reflexivity. Qed.

Lemma flat_reach (s0 : state) : ida_new flat [0%float] [0%float] = Ret s0 ->
  reach flat zero_ewt (default_config flat) [0%float] [0%float] (configure (default_config flat) s0).
Proof. intros E. constructor. exact E. Qed.

Lemma idle_task (st : state) tout itask : idle zero_ewt [0%float] st -> idle zero_ewt [0%float] (task_set st tout itask).
Proof. intros I0. refine (idle_shell flat zero_ewt [0%float] st _ (task_set_shell flat st tout itask) _ I0). destruct itask; reflexivity. Qed.

Lemma flat_stuck (st : state) fuel rfuel x : idle zero_ewt [0%float] st -> flat_passes st = true ->
  solve flat zero_ewt fuel rfuel st 1%float 0%float Normal <> Ret x.
Proof.
  intros I0 Hp E. destruct x as ((st' & t) & r). pose proof (idle_task _ 1%float Normal I0) as I1. clear I0.
  assert (Hw : nth 0 (zero_ewt [0%float]) 0%float = infinity) by (vm_compute; reflexivity).
  assert (Hi : 0 < model_size flat) by (cbn; lia).
  unfold flat_passes in Hp.
  apply solve_run in E. destruct E as [E|(s1 & s & nl & m & En & Lo & Ed)].
  + unfold answers in E. apply solve_start_cases in E. destruct E as [E|[E|E]].
    * destruct E as (_ & s & m & E & _). rewrite E in Hp. discriminate.
    * destruct E as (_ & s & l & _ & _ & _ & _ & Ex). discriminate.
    * destruct E as (N & _). exact (N (id_n _ _ _ I1)).
  + unfold enters in En. apply solve_start_cases in En. destruct En as [En|[En|En]].
    * destruct En as (_ & s2 & m1 & _ & Ex). discriminate.
    * destruct En as (_ & s2 & l & E1 & _ & El & Sh & Ex). injection Ex as ->.
      rewrite E1, El in Hp.
      pose proof (idle_first flat 0 Hi zero_ewt [0%float] Hw _ _ _ I1 E1) as (I2 & _ & St).
      assert (I3 : idle zero_ewt [0%float] (on_lp (fun _ => l) s2)) by (eapply (idle_shell flat); [exact Sh|reflexivity|exact I2]).
      assert (St3 : stuck 0 (on_lp (fun _ => l) s2)) by (eapply (idle_stuck_shell flat 0 zero_ewt [0%float] Hw); [exact Sh|reflexivity|exact St]).
      clear I2 St Sh E1 El. set (s1 := on_lp (fun _ => l) s2) in *. clearbody s1.
      assert (Hs : forall s2 nl x tret' rf s3, pre_step flat zero_ewt s1 tret' nl = Ret (inr s2) -> step flat rf s2 = Ret (s3, x) -> False).
      { intros s4 nl' x tret' rf s5 Ep Es. apply pre_idle in Ep; [|apply (id_n _ _ _ I3)]. destruct Ep as (Sp & Ew & _).
        eapply (step_stuck flat nfuel 0 Hi); [|exact Es]. eapply (idle_stuck_shell flat 0 zero_ewt [0%float] Hw); eassumption. }
      assert (Ls : s = s1 /\ nl = 0).
      { clear Ed. induction Lo as [|s nl s4 s5 u s' Lo IH Ep Es _]; [auto|]. destruct IH as (-> & _). exfalso.
        eapply Hs; eassumption. }
      destruct Ls as (-> & ->). destruct Ed as [st' t r Ep|s4 s5 e st' t r Ep Es _|s4 s5 u st' t r Ep Es _ _].
      -- rewrite Ep in Hp. discriminate.
      -- eapply Hs; eassumption.
      -- eapply Hs; eassumption.
    * destruct En as (N & _). exact (N (id_n _ _ _ I1)).
Qed.

Lemma flat_panic (st : state) fuel rfuel : solve flat zero_ewt fuel rfuel st 1%float 0%float Normal = Panic ->
  api_call flat zero_ewt fuel rfuel st (CallSolve 1%float 0%float Normal) = Panic.
Proof. intros E. cbn [api_call]. rewrite E. reflexivity. Qed.

Lemma flat_hangs (s0 : state) fuel rfuel : ida_new flat [0%float] [0%float] = Ret s0 ->
  flat_passes (configure (default_config flat) s0) = true ->
  solve flat zero_ewt fuel rfuel (configure (default_config flat) s0) 1%float 0%float Normal = Diverge.
Proof.
  intros E0 Hp. destruct (solve _ _ _ _ _ _ _ _) as [x| |] eqn:E; [exfalso| |reflexivity].
  - assert (Hi : 0 < model_size flat) by (cbn; lia).
    assert (I0 : idle zero_ewt [0%float] (configure (default_config flat) s0)).
    { eapply idle_new with (i := 0) (nfuel := nfuel); [exact Hi|reflexivity|exact E0]. }
    exact (flat_stuck _ _ _ _ I0 Hp E).
  - exfalso.
    assert (Hn : 1 <= model_size flat) by (cbn; lia).
    assert (Hc : config_ok (default_config flat)) by (unfold config_ok; cbn; lia).
    pose proof (C31_newton_dense_no_panic flat zero_ewt nfuel Hn flat_factorable (default_config flat) [0%float] [0%float]
      (configure (default_config flat) s0) fuel rfuel (CallSolve 1%float 0%float Normal) Hc (flat_reach _ E0) I) as Np.
    exact (Np (flat_panic _ _ _ E)).
Qed.
End Flat.

(** C16 fails: the tolerance of y = 0 is 1e-4*0 + 0; the first call neither
    reports it nor returns at all, whatever number of passes any of the loops
    gets. *)
Theorem C16_refuted : exists (prob : problem float) rtol atol yy0 yp0,
  factorable prob /\ (rtol * abs (nth 0 yy0 0) + atol = 0)%float /\
  forall nfuel, let _ : NLSolver float (newton float) := NewtonNLS nfuel in
  exists st : ida float (list nat) (newton float), ida_new prob yy0 yp0 = Ret st /\
  forall fuel rfuel, solve prob (ewt_set_ss rtol atol) fuel rfuel st 1%float 0%float Normal = Diverge.
Proof.
  exists flat, 1e-4%float, 0%float, [0%float], [0%float]. split; [exact flat_factorable|]. split; [vm_compute; reflexivity|].
  intros nfuel NL. subst NL. destruct (flat_new nfuel) as (s0 & E0 & Hp). exists s0. split; [exact E0|]. intros fuel rfuel.
  rewrite <- (configure_default flat [0%float] [0%float] s0 E0). exact (flat_hangs nfuel s0 fuel rfuel E0 Hp).
Qed.
Print Assumptions C16_refuted.

Example C16_hypotheses_met :
  0 < model_size flat /\ (1e-4 * abs (nth 0 [0] 0) + 0 = 0)%float /\ g_epcon (default_config flat) = 0.33%float /\
  forall nfuel, let _ : NLSolver float (newton float) := NewtonNLS nfuel in
  exists st : ida float (list nat) (newton float),
    reach flat (ewt_set_ss 1e-4%float 0%float) (default_config flat) [0%float] [0%float] st.
Proof.
  split; [cbn; lia|]. split; [vm_compute; reflexivity|]. split; [reflexivity|].
  intros nfuel NL. subst NL. destruct (flat_new nfuel) as (s0 & E0 & _). eexists. exact (flat_reach nfuel s0 E0).
Qed.
