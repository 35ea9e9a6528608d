(** * PropRows: linear equations of the system at the accepted steps (C80)
      (src/lib.rs 787-890, src/ida_nls.rs 118-266, src/ida_ls.rs 298-455,
       crates/nonlinear/src/newton.rs 51-167, crates/linear/src/dense.rs) *)
Require Import List Arith Bool Lia Reals Lra.
Import ListNotations.
Require Import Verif.Base Verif.Scalar Verif.ScalarR Verif.Dense Verif.RSum Verif.DenseSpec Verif.Norms Verif.VecR
  Verif.Newton Verif.NewtonSpec Verif.IdaState Verif.IdaNls Verif.IdaCore Verif.IdaRoots Verif.IdaSolve Verif.BaseFacts
  Verif.NewtonFacts Verif.IdaFacts Verif.IdaLoops Verif.IdaStep Verif.IdaSpec Verif.IdaShell Verif.IdaReach Verif.IdaInv
  Verif.IdaCount Verif.IdaLife Verif.IdaTrace Verif.IdaAccept Verif.IdaStepR Verif.IdaJac Verif.IdaLinear Verif.IdaRows Verif.Samples Verif.PropConserve Verif.PropExact Verif.PropLinear.
Open Scope R_scope.

(** The derivative the corrector attaches to [y] when the residual was last
    evaluated at [(yl, ypl)]: both lie on the line of slope [cj] in each component. *)
Definition corrected (n : nat) (cj : R) (yl ypl y : list R) : list R :=
  vtab n (fun i => nth i ypl 0 + cj * (nth i y 0 - nth i yl 0)).

Lemma vtab_same {A} m (f g : nat -> A) : (forall i, (i < m)%nat -> f i = g i) -> vtab m f = vtab m g.
Proof. intros E. apply map_ext_in. intros i Hi. apply in_seq in Hi. apply E. lia. Qed.

Section Rows.
Context {LSt : Type} `{LSolver R LSt}.
Variable prob : problem R.
Variable ewt_set : list R -> list R.
Variable fuel : nat.
Instance newton_rows : NLSolver R (newton R) := NewtonNLS fuel.
Notation n := (model_size prob).
Notation state := (ida R LSt (newton R)).
Notation tr st := (trace (lp (nlp st))).
Variable okls : LSt -> Prop.
Hypothesis Hls : exact_ls n okls.
Hypothesis Hn : (1 <= n)%nat.
Variables (w a b : nat -> R) (f : R -> R).
Hypothesis Hres : affine_row prob w a b f.
Hypothesis Hjac : jac_row prob w a b.
Variable g : @config R.
Hypothesis Hg : config_ok g.
Variables yy0 yp0 : list R.
Notation Hl := (newton_lawful fuel).

Definition form (t : R) (y yp : list R) : R := rsum n (fun i => w i * p_res prob t y yp i).

(** The matrix in use is the one of the latest Jacobian. *)
Definition matrix_ok (l : lprob R LSt) : Prop :=
  inverts prob w a b l (cjold l) /\ cjold l <> 0 /\ last_jac (trace l) = Some (cjold l).

Lemma nonlinear_row (st st' : state) r :
  okls (lp_ls (lp (nlp st))) -> (nst st <> 0%nat -> matrix_ok (lp (nlp st))) -> cj (lp (nlp st)) <> 0 ->
  nonlinear_solve prob st = Ret (st', r) ->
  let c1 := cj (lp (nlp st)) in
  let P1 := yypredict (nlp st) in
  let Q1 := yppredict (nlp st) in
  okls (lp_ls (lp (nlp st'))) /\ matrix_ok (lp (nlp st')) /\
  (nst st = 0%nat -> cjold (lp (nlp st')) = c1) /\ 3 / 5 <= c1 / cjold (lp (nlp st')) <= 5 / 3 /\
  exists yl, last_res (tr st') = Some (tn (nlp st), argy prob P1 yl, argyp prob c1 Q1 yl) /\
    (r = Ok tt -> forall k, row_rate prob a b (c1 / cjold (lp (nlp st'))) k ->
       G prob a b f c1 (tn (nlp st)) P1 Q1 (ee st') = k * G prob a b f c1 (tn (nlp st)) P1 Q1 yl).
Proof.
  intros O K L E. cbv zeta. unfold nonlinear_solve in E. destruct (nls_prepare st) as (sp & call) eqn:Ep.
  assert (X : yypredict (nlp sp) = yypredict (nlp st) /\ yppredict (nlp sp) = yppredict (nlp st) /\
    lp_ls (lp (nlp sp)) = lp_ls (lp (nlp st)) /\ lp_matj (lp (nlp sp)) = lp_matj (lp (nlp st)) /\
    cj (lp (nlp sp)) = cj (lp (nlp st)) /\ tr sp = tr st /\ tn (nlp sp) = tn (nlp st) /\
    cjratio (lp (nlp sp)) = cj (lp (nlp st)) / cjold (lp (nlp sp)) /\
    (nst st = 0%nat -> cjold (lp (nlp sp)) = cj (lp (nlp st))) /\
    (call = false -> nst st <> 0%nat /\ cjold (lp (nlp sp)) = cjold (lp (nlp st)) /\
       3 / 5 <= cj (lp (nlp st)) / cjold (lp (nlp st)) <= 5 / 3)).
  { unfold nls_prepare in Ep. cbv zeta in Ep. pose proof (f_equal fst Ep) as E1. pose proof (f_equal snd Ep) as E2.
    cbn [fst snd] in E1, E2. clear Ep E. rewrite <- E1. destruct (nst st =? 0)%nat eqn:Ez.
    - apply Nat.eqb_eq in Ez. repeat match goal with |- _ /\ _ => split end; try (destruct (sneqb _ _); reflexivity).
      intros Hc. rewrite Hc in E2. discriminate.
    - apply Nat.eqb_neq in Ez. repeat match goal with |- _ /\ _ => split end; try (destruct (sneqb _ _); reflexivity).
      + intros Hz. contradiction.
      + intros Hc. split; [exact Ez|]. split; [destruct (sneqb _ _); reflexivity|].
        rewrite Hc in E2. cbn [orb] in E2. apply orb_false_iff in E2. destruct E2 as (W1 & W2).
        unfold srecip in W2. cbn [on_lp on_nlp set_nlp nlp set_lp lp set_cjratio cjratio sltb sdiv sone sxrate_lo ScalarR] in W1, W2.
        apply Rltb_false in W1. apply Rltb_false in W2. lra. }
  clear Ep. destruct X as (X1 & X2 & X3 & X4 & X5 & X6 & X7 & X8 & X9 & X10).
  cbn [nls_setup newton_rows NewtonNLS bind] in E. cbv zeta in E.
  apply bind_ret_inv in E. destruct E as ((((nw' & x) & eev) & r4) & E4 & E). cbv beta iota in E.
  cbn [nls_solve newton_rows NewtonNLS] in E4. unfold newton_solve in E4.
  match type of E4 with outer_loop _ _ _ _ _ _ _ _ _ ?s _ = _ => change s with (nlp sp) in E4 end.
  assert (A : bas okls (cj (lp (nlp st))) (tn (nlp st)) (yypredict (nlp st)) (yppredict (nlp st)) (nlp sp)).
  { constructor; [congruence|exact X5|exact X7|exact X1|exact X2]. }
  assert (C : call = true \/ ready prob w a b (cj (lp (nlp st))) (nlp sp)).
  { destruct call; [left; reflexivity|right]. destruct (X10 eq_refl) as (Z1 & Z2 & Z3). destruct (K Z1) as (K1 & K2 & K3).
    constructor; rewrite ?Z2; [unfold inverts in *; rewrite X3, X4; exact K1|exact K2|congruence|exact Z3|congruence]. }
  apply (outer_row prob okls Hls Hn w a b f Hres Hjac _ _ _ _ L _ _ _ _ _ _ _ _ _ _ _ _ _ A C) in E4.
  destruct E4 as ([B1 B2 B3 B4 B5] & [K1 K2 K3 K4 K5] & O4 & yl & S4 & D4).
  assert (Z : okls (lp_ls (lp x)) /\ matrix_ok (lp x) /\ (nst st = 0%nat -> cjold (lp x) = cj (lp (nlp st)))).
  { split; [exact B1|]. split; [exact (conj K1 (conj K2 K5))|]. auto. }
  destruct Z as (Z1 & Z2 & Z3).
  destruct r4 as [[]|e].
  - destruct (constraints_set _) in E; [discriminate|]. apply ret_inj in E.
    pose proof (f_equal (fun q => lp (nlp (fst q))) E) as E1. pose proof (f_equal (fun q => ee (fst q)) E) as E2.
    cbn [fst] in E1, E2. rewrite <- E1, <- E2. split; [exact Z1|]. split; [exact Z2|]. split; [exact Z3|]. split; [exact K4|].
    exists yl. split; [exact S4|]. intros _. exact (D4 eq_refl).
  - apply ret_inj in E. pose proof (f_equal (fun q => lp (nlp (fst q))) E) as E1. pose proof (f_equal snd E) as E2.
    cbn [fst snd] in E1, E2. rewrite <- E1, <- E2. split; [exact Z1|]. split; [exact Z2|]. split; [exact Z3|]. split; [exact K4|].
    exists yl. split; [exact S4|]. discriminate.
Qed.

(** What the claim says of an accepted step. *)
Definition row_step (t : R) (y : list R) (past : list (event R)) : Prop :=
  exists yl ypl c0 ts h k,
    last_res past = Some (t, yl, ypl) /\ last_jac past = Some c0 /\ last_try past = Some (ts, h, k) /\ c0 <> 0 /\
    (steps past = [] -> lead k h = c0) /\ 3 / 5 <= lead k h / c0 <= 5 / 3 /\
    forall kap, row_rate prob a b (lead k h / c0) kap ->
      form t y (corrected n (lead k h) yl ypl y) = kap * form t yl ypl.
Definition row_ok (e : event R) (past : list (event R)) : Prop :=
  match e with CStep t y => row_step t y past | _ => True end.

Record rows (st : state) : Prop := {
  ro_ls : okls (lp_ls (lp (nlp st)));
  ro_mat : nst st <> 0%nat -> matrix_ok (lp (nlp st));
  ro_tr : every row_ok (tr st) }.

Lemma every_steady (evs past : list (event R)) :
  Forall (fun e => is_step e = false) evs -> every row_ok past -> every row_ok (evs ++ past).
Proof.
  intros A B. induction A as [|e evs He _ IH]; [exact B|]. cbn. apply every_cons; [|exact IH].
  destruct e; cbn in *; trivial; discriminate.
Qed.

Lemma cj_nz (st : state) : (1 <= kk st)%nat -> hh st <> 0 -> cj_of st <> 0.
Proof.
  intros Hk Hh. unfold cj_of. cbn [sneg sdiv ScalarR].
  assert (A : forall k, asum k = - rsum k (fun i => / INR (i + 1))).
  { induction k as [|k IH]; [cbn; ring|]. cbn [asum rsum]. rewrite IH. cbn [ssub sdiv sone sofnat ScalarR]. unfold Rdiv. ring. }
  rewrite A. assert (0 < rsum (kk st) (fun i => / INR (i + 1))).
  { destruct (kk st) as [|k]; [lia|]. cbn [rsum].
    assert (0 <= rsum k (fun i => / INR (i + 1))) by (apply rsum_nonneg; intros i _; left; apply Rinv_0_lt_compat, lt_0_INR; lia).
    assert (0 < / INR (k + 1)) by (apply Rinv_0_lt_compat, lt_0_INR; lia). lra. }
  unfold Rdiv. intros Q. apply Rmult_integral in Q. destruct Q as [Q|Q]; [lra|].
  apply Rinv_neq_0_compat in Hh. contradiction.
Qed.

(** ** One attempt *)
Lemma try_row (st st1 : state) ck ek ek1 r :
  (1 <= kk st)%nat -> hh st <> 0 ->
  try_step prob st = Ret (st1, ck, ek, ek1, r) -> tried prob st st1 ck r -> rows st ->
  let c1 := cj (lp (nlp st1)) in
  let P1 := yypredict (nlp st1) in
  let Q1 := yppredict (nlp st1) in
  let t1 := tn (nlp st1) in
  okls (lp_ls (lp (nlp st1))) /\ matrix_ok (lp (nlp st1)) /\
  (nst st = 0%nat -> cjold (lp (nlp st1)) = c1) /\ 3 / 5 <= c1 / cjold (lp (nlp st1)) <= 5 / 3 /\
  exists yl, last_res (tr st1) = Some (t1, argy prob P1 yl, argyp prob c1 Q1 yl) /\
    (r = Ok tt -> forall k, row_rate prob a b (c1 / cjold (lp (nlp st1))) k ->
       G prob a b f c1 t1 P1 Q1 (ee st1) = k * G prob a b f c1 t1 P1 Q1 yl).
Proof.
  intros Hk Hh E Htr [P1 P3 P4]. cbv zeta. pose proof (tr_cj _ _ _ _ _ Htr) as Hcj. clear Htr.
  pose proof (cj_nz st Hk Hh) as Hc0. rewrite <- Hcj in Hc0. clear Hcj.
  unfold try_step in E. set (sx := on_lp (push_ev (CTry (tn (nlp st)) (hh st) (kk st))) st) in E.
  apply bind_ret_inv in E as ((s1 & c1) & E1 & E). apply bind_ret_inv in E as (s2 & E2 & E).
  apply bind_ret_inv in E as ((s3 & r3) & E3 & E). cbv beta iota in E.
  assert (X1 : tr s2 = CTry (tn (nlp st)) (hh st) (kk st) :: tr st /\ nst s2 = nst st /\
     lp_ls (lp (nlp s2)) = lp_ls (lp (nlp st)) /\ lp_matj (lp (nlp s2)) = lp_matj (lp (nlp st)) /\
     cjold (lp (nlp s2)) = cjold (lp (nlp st))).
  { destruct (set_coeffs_frame _ _ _ _ E1) as (_ & _ & _ & _ & _ & _ & _ & N1 & N2).
    destruct (predict_frame _ _ _ E2) as (_ & _ & _ & _ & _ & M1 & M2). rewrite advance_tn_eq in M1, M2.
    rewrite M2. change (nlp (on_nlp (set_tn (tn_next s1)) s1)) with (set_tn (tn_next s1) (nlp s1)). rewrite N2.
    split; [reflexivity|]. split; [|repeat split; reflexivity].
    assert (nst s2 = nst s1) by (unfold stepst in M1; change (nst (on_nlp (set_tn (tn_next s1)) s1)) with (nst s1) in M1; congruence).
    assert (nst s1 = nst sx) by congruence. change (nst sx) with (nst st) in *. congruence. }
  destruct X1 as (X1 & X2 & X3 & X4 & X4b). clear E1 E2 sx.
  assert (X5 : tr st1 = match r3 with Ok _ => (match r with Ok _ => [] | Err _ => [CFail] end) | Err _ => [] end ++ tr s3 /\
     cj (lp (nlp st1)) = cj (lp (nlp s3)) /\ lp_ls (lp (nlp st1)) = lp_ls (lp (nlp s3)) /\
     lp_matj (lp (nlp st1)) = lp_matj (lp (nlp s3)) /\ yypredict (nlp st1) = yypredict (nlp s3) /\
     yppredict (nlp st1) = yppredict (nlp s3) /\ cjold (lp (nlp st1)) = cjold (lp (nlp s3)) /\ tn (nlp st1) = tn (nlp s3) /\
     (r = Ok tt -> r3 = Ok tt /\ ee st1 = ee s3)).
  { destruct r3 as [[]|e].
    - apply bind_ret_inv in E as ((((s4 & ek') & ek1') & r4) & E4 & E). cbv beta iota in E. injection E as <- _ _ _ <-.
      destruct (test_error_frame _ _ _ _ _ _ _ E4) as (_ & _ & _ & _ & _ & _ & _ & F8 & _ & _ & Fr).
      assert (ee s4 = ee s3) by congruence.
      destruct r4 as [u'|e]; [destruct Fr as (_ & ->); auto 12|destruct Fr as (_ & _ & ->); auto 12].
    - injection E as <- _ _ _ <-. repeat split; try reflexivity; discriminate. }
  clear E. destruct X5 as (X5 & X6 & X7 & X8 & X9 & X10 & X11 & X12 & X13).
  destruct (nonlinear_solve_frame prob Hl _ _ _ E3) as (_ & _ & _ & _ & _ & _ & _ & _ & _ & Kp & _).
  unfold nlpkeep in Kp.
  assert (Q : yypredict (nlp s2) = yypredict (nlp s3) /\ yppredict (nlp s2) = yppredict (nlp s3) /\
    cj (lp (nlp s2)) = cj (lp (nlp s3)) /\ tn (nlp s2) = tn (nlp s3)) by (repeat split; congruence).
  destruct Q as (Q1 & Q2 & Q3 & Q4).
  apply nonlinear_row in E3.
  - rewrite X9, X10, X6, X11, X12, <- Q1, <- Q2, <- Q3, <- Q4, <- X2. destruct E3 as (A1 & A2 & A3 & A4 & yl & A5 & A6).
    assert (T1 : last_res (tr st1) = last_res (tr s3) /\ last_jac (tr st1) = last_jac (tr s3)).
    { rewrite X5. destruct r3; [destruct r|]; split; reflexivity. }
    destruct T1 as (T1 & T2).
    split; [congruence|]. split; [unfold matrix_ok, inverts in *; rewrite X7, X8, X11, T2; exact A2|].
    split; [exact A3|]. split; [exact A4|]. exists yl. split; [congruence|].
    intros Hr. destruct (X13 Hr) as (R3 & ->). exact (A6 R3).
  - congruence.
  - rewrite X2. intros Hz. specialize (P3 Hz). unfold matrix_ok, inverts in *. rewrite X3, X4, X4b, X1. exact P3.
  - congruence.
Qed.

(** ** The whole life *)
Definition RJ (o : option (R * nat)) (st : state) : Prop := J prob g o st /\ rows st.

Lemma quiet_steady evs : Forall (fun e => is_root e || is_warn e = true) evs ->
  Forall (fun e : event R => is_step e = false) evs.
Proof. intros A. eapply Forall_impl; [|exact A]. intros e. destruct e; cbn; trivial; discriminate. Qed.
Lemma quiet_jac evs past : Forall (fun e => is_root e || is_warn e = true) evs ->
  last_jac (evs ++ past) = @last_jac R past.
Proof. intros A. apply last_jac_app. eapply Forall_impl; [|exact A]. intros e. destruct e; cbn; trivial; discriminate. Qed.

Lemma rows_quiet (x y : state) evs : rows x -> tr y = evs ++ tr x -> Forall (fun e => is_root e || is_warn e = true) evs ->
  lp_ls (lp (nlp y)) = lp_ls (lp (nlp x)) -> lp_matj (lp (nlp y)) = lp_matj (lp (nlp x)) ->
  (nst x <> 0%nat -> cjold (lp (nlp y)) = cjold (lp (nlp x))) -> nst y = nst x -> rows y.
Proof.
  intros [R1 R2 R3] T1 T2 E1 E2 E3 E4. constructor; [congruence| |].
  - rewrite E4. intros Hz. destruct (R2 Hz) as (M1 & M2 & M3). unfold matrix_ok, inverts in *.
    rewrite E1, E2, (E3 Hz), T1, (quiet_jac _ _ T2). auto.
  - rewrite T1. exact (every_steady _ _ (quiet_steady _ T2) R3).
Qed.

Lemma RJ_new : i_new prob RJ g yy0 yp0.
Proof.
  intros st E. split; [exact (J_new prob g yy0 yp0 st E)|].
  pose proof (new_fields prob _ _ _ E) as F.
  destruct F as (_ & _ & _ & F4 & _ & _ & _ & _ & _ & F10 & _).
  constructor.
  - unfold ida_new in E. destruct (_ && _); [|discriminate]. apply ret_inj in E. subst st. exact (proj1 Hls).
  - intros Hz. exfalso. apply Hz. exact F4.
  - change (every row_ok (tr st)). rewrite F10. apply every_nil.
Qed.

Lemma RJ_shell : i_shell prob RJ.
Proof.
  intros x y Ho (Ja & La) S. split; [exact (J_shell prob g x y Ho Ja S)|].
  destruct (sh_trace _ _ _ S) as (evs & T1 & T2 & _). pose proof (sh_core _ _ _ S) as C.
  pose proof (core_fields _ _ C) as D. destruct D as (_ & D1 & D).
  assert (En : nst y = nst x) by intuition congruence. clear D.
  unfold core in C. cbv zeta in C.
  apply (rows_quiet x y evs La T1 T2); try congruence.
Qed.

Lemma RJ_lims : i_lims RJ.
Proof.
  intros x y Ho (Ja & La) Hz S. split; [exact (J_lims prob g x y Ho Ja Hz S)|].
  destruct S as [(_ & ->)|(ts & _ & _ & ->)]; [exact La|]. unfold limit_to_tstop. destruct (_ <? _)%sc; [|exact La].
  apply (rows_quiet x _ []); try reflexivity; [exact La|constructor].
Qed.

Lemma RJ_first : i_first prob ewt_set RJ.
Proof.
  intros x tout r Ho (Ja & La) Hz E. split; [exact (J_first prob ewt_set g x tout r Ho Ja Hz E)|].
  apply first_call_frame in E. cbv zeta in E. destruct E as (F1 & _ & _ & _ & F5).
  set (y := match r with inl (s, _) => s | inr s => s end) in *.
  assert (El : lp_ls (lp (nlp y)) = lp_ls (lp (nlp x)) /\ lp_matj (lp (nlp y)) = lp_matj (lp (nlp x)) /\ nst y = nst x).
  { unfold fkeep in F1. cbv zeta in F1. repeat split; congruence. }
  destruct El as (El & Em & En).
  assert (Ht : exists evs, tr y = evs ++ tr x /\ Forall (fun e => is_root e || is_warn e = true) evs).
  { unfold y in *. destruct r as [(s & m)|s].
    - exists []. split; [|constructor]. destruct F5 as (_ & _ & _ & -> & _). reflexivity.
    - destruct F5 as (_ & _ & _ & _ & _ & _ & evs & T1 & T2 & _). exists evs. split; [exact T1|].
      eapply Forall_impl; [|exact T2]. intros e ->. reflexivity. }
  destruct Ht as (evs & T1 & T2). apply (rows_quiet x y evs La T1 T2 El Em); [congruence|exact En].
Qed.

Lemma RJ_begin : i_begin prob ewt_set RJ.
Proof.
  intros st Ho (Jst & [P1 P2 P3]) Hlim Hfr. split; [exact (J_begin prob ewt_set g st Ho Jst Hlim Hfr)|].
  destruct (init_fields st) as (F1 & F2 & F3 & F4 & F5 & F6 & F7 & F8 & F9 & F10 & F11 & F12 & F13 & F14 &
    F15 & F16 & F17 & F18 & F19 & _).
  assert (El : lp_ls (lp (nlp (st_init st))) = lp_ls (lp (nlp st)) /\ lp_matj (lp (nlp (st_init st))) = lp_matj (lp (nlp st)) /\
    cjold (lp (nlp (st_init st))) = cjold (lp (nlp st))).
  { unfold st_init. cbv zeta. destruct (_ =? 0)%nat; repeat split; reflexivity. }
  destruct El as (El & Em & Ec).
  constructor; [congruence| |].
  - rewrite F8. intros Hz. destruct (P2 Hz) as (M1 & M2 & M3). unfold matrix_ok, inverts in *. rewrite El, Em, Ec, F19.
    cbn [last_jac]. auto.
  - rewrite F19. apply every_cons; [exact I|exact P3].
Qed.

Lemma calm_steady evs : Forall (fun e => calm e = true) evs -> Forall (fun e : event R => is_step e = false) evs.
Proof. intros A. eapply Forall_impl; [|exact A]. intros e. destruct e; cbn; trivial; discriminate. Qed.

Lemma RJ_retry : i_retry prob RJ.
Proof.
  intros st t0 nef st1 ck ek ek1 st' Hi (Jst & Lst) Et Htr Hat Hne Hrt.
  split; [exact (J_retry prob ewt_set g st t0 nef st1 ck ek ek1 st' Hi Jst Et Htr Hat Hne Hrt)|].
  destruct (rl_try prob ewt_set g st st1 t0 nef ck _ Hi Jst Htr Hat) as (evs & T1 & T2 & _).
  pose proof (rt_nlp _ _ _ _ _ Hrt) as U1.
  destruct (rl_h _ _ _ (proj2 Jst) ltac:(right; discriminate)) as (Hh & _).
  destruct (try_row _ _ _ _ _ _ (proj1 (is_kk _ Hi)) Hh Et Htr Lst) as (A1 & A2 & _).
  assert (El : lp (nlp st') = lp (nlp st1)) by (rewrite U1; reflexivity).
  constructor; [congruence|intros _; rewrite El; exact A2|].
  rewrite El, T1. cbn [fails]. destruct Lst as [_ _ P3].
  apply every_steady; [repeat constructor|]. apply every_steady; [exact (calm_steady _ T2)|]. apply every_cons; [exact I|exact P3].
Qed.

Lemma RJ_giveup : i_giveup prob RJ.
Proof.
  intros st t0 nef st1 ck ek ek1 st' e Hi (Jst & Lst) Et Htr Hat Hgu He.
  split; [exact (J_giveup prob ewt_set g st t0 nef st1 ck ek ek1 st' e Hi Jst Et Htr Hat Hgu He)|].
  destruct (rl_try prob ewt_set g st st1 t0 nef ck _ Hi Jst Htr Hat) as (evs & T1 & T2 & _).
  pose proof (gu_nlp _ _ _ _ Hgu) as U1.
  destruct (rl_h _ _ _ (proj2 Jst) ltac:(right; discriminate)) as (Hh & _).
  destruct (try_row _ _ _ _ _ _ (proj1 (is_kk _ Hi)) Hh Et Htr Lst) as (A1 & A2 & _).
  assert (El : lp (nlp st') = lp (nlp st1)) by (rewrite U1; reflexivity).
  constructor; [congruence|intros _; rewrite El; exact A2|].
  rewrite El, T1. destruct Lst as [_ _ P3].
  apply every_steady; [destruct e as [[]| |]; repeat constructor|]. apply every_steady; [exact (calm_steady _ T2)|]. apply every_cons; [exact I|exact P3].
Qed.

Lemma RJ_commit : i_commit prob RJ.
Proof.
  intros st t0 nef st1 ck ek ek1 st2 Hi (Jst & Lst) Et Htr Hat Hcp.
  split; [exact (J_commit prob ewt_set g st t0 nef st1 ck ek ek1 st2 Hi Jst Et Htr Hat Hcp)|].
  destruct (rl_try prob ewt_set g st st1 t0 nef ck _ Hi Jst Htr Hat) as (evs & T1 & T2 & _).
  pose proof (cp_nlp _ _ _ Hcp) as U2. pose proof (tr_res _ _ _ _ _ Htr) as (R1 & _).
  assert (Ht : tr (st_commit prob ck st2) = CStep (tn (nlp st2)) (yy (nlp st2)) :: tr st1).
  { unfold st_commit. cbn [nlp lp trace set_ee on_lp on_nlp set_nlp set_lp push_ev set_trace]. rewrite U2. reflexivity. }
  destruct (rl_h _ _ _ (proj2 Jst) ltac:(right; discriminate)) as (Hh & _).
  destruct (try_row _ _ _ _ _ _ (proj1 (is_kk _ Hi)) Hh Et Htr Lst) as (A1 & A2 & A3 & A4 & yl & A5 & A6). specialize (A6 eq_refl).
  assert (El : lp_ls (lp (nlp (st_commit prob ck st2))) = lp_ls (lp (nlp st1)) /\
               lp_matj (lp (nlp (st_commit prob ck st2))) = lp_matj (lp (nlp st1)) /\
               cjold (lp (nlp (st_commit prob ck st2))) = cjold (lp (nlp st1))).
  { unfold st_commit. cbn [nlp lp set_ee on_lp on_nlp set_nlp set_lp push_ev set_trace lp_ls lp_matj cjold]. rewrite U2. repeat split; reflexivity. }
  destruct El as (El & Em & Ec).
  constructor; [congruence| |].
  - intros _. unfold matrix_ok, inverts in *. rewrite El, Em, Ec, Ht. exact A2.
  - rewrite Ht. destruct Lst as [_ _ P3].
    assert (Ev : every row_ok (tr st1)).
    { rewrite T1. cbn [fails app]. apply every_steady; [exact (calm_steady _ T2)|]. apply every_cons; [exact I|exact P3]. }
    apply every_cons; [|exact Ev]. cbn [row_ok]. destruct A2 as (_ & M2 & M3).
    assert (Hcj : cj (lp (nlp st1)) = lead (kk st) (hh st)) by exact (tr_cj _ _ _ _ _ Htr).
    rewrite Hcj in *. 
    assert (Tr : last_try (tr st1) = Some (tn (nlp st), hh st, kk st) /\ steps (tr st1) = steps (tr st)).
    { rewrite T1. cbn [fails app]. clear -T2. induction T2 as [|e evs He _ IH]; [split; reflexivity|].
      destruct e; cbn in *; try discriminate; exact IH. }
    destruct Tr as (Tr & Ts).
    exists (argy prob (yypredict (nlp st1)) yl), (argyp prob (lead (kk st) (hh st)) (yppredict (nlp st1)) yl),
      (cjold (lp (nlp st1))), (tn (nlp st)), (hh st), (kk st).
    rewrite U2. split; [exact A5|]. split; [exact M3|]. split; [exact Tr|]. split; [exact M2|]. split.
    { intros Hs. symmetry. apply A3. rewrite Ts in Hs. rewrite <- (tl_n _ _ _ _ (proj1 Jst)), Hs. reflexivity. }
    split; [exact A4|]. intros kap Hkap. change (tn (nlp st1)) with (tn (nlp st1)).
    unfold form. rewrite (G_res prob w a b f Hres), <- (A6 kap Hkap), <- (G_res prob w a b f Hres).
    rewrite R1. change (vadd n (yypredict (nlp st1)) (ee st1)) with (argy prob (yypredict (nlp st1)) (ee st1)).
    match goal with |- rsum _ (fun i => _ * p_res prob _ _ ?p _) = rsum _ (fun k => _ * p_res prob _ _ ?q _) =>
      replace p with q; [reflexivity|] end.
    unfold corrected, argyp, argy, vscaled_add, vadd. apply vtab_same. intros j Hj.
    unfold vget. rewrite !nth_vtab by exact Hj. cbn [sadd smul szero ScalarR]. ring.
Qed.

Lemma reach_RJ (st : state) : reach prob ewt_set g yy0 yp0 st -> RJ None st.
Proof.
  intros Hr. apply (reach_life prob ewt_set Hl RJ g yy0 yp0 st Hg);
    [apply RJ_new|apply RJ_shell|apply RJ_lims|apply RJ_first| |exact Hr].
  split; [exact RJ_begin|]. split; [exact RJ_retry|]. split; [exact RJ_commit|exact RJ_giveup].
Qed.
End Rows.

Lemma lead_sum k (h : R) : lead k h = rsum k (fun i => / INR (i + 1)) / h.
Proof.
  unfold lead. cbn [sneg sdiv ScalarR]. f_equal.
  enough (A : asum k = - rsum k (fun i => / INR (i + 1))) by (rewrite A; ring).
  induction k as [|k IH]; [cbn; ring|]. cbn [asum rsum]. rewrite IH. cbn [ssub sdiv sone sofnat ScalarR].
  unfold Rdiv. ring.
Qed.

(** ** C80 *)

(** A combination [w] of the equations of the system is linear: it reads
    [a . y + b . y' + f t = 0], and the Jacobian the user supplies agrees with it. *)
Definition linear_row (prob : problem R) (w a b : nat -> R) (f : R -> R) : Prop :=
  let n := model_size prob in
  (forall t y yp, rsum n (fun i => w i * p_res prob t y yp i) =
     rsum n (fun j => a j * nth j y 0) + rsum n (fun j => b j * nth j yp 0) + f t) /\
  (forall t cj y yp r j, (j < n)%nat -> rsum n (fun i => w i * p_jac prob t cj y yp r i j) = a j + cj * b j).

(** With exact arithmetic, the crate's Newton solver and any linear solver that
    solves the systems it has factored.  At every accepted step, [(yl, ypl)] the
    point of the latest residual evaluation, [c0] the coefficient of the latest
    Jacobian, [h] and [k] the step size and order of the attempt, [cj] its leading
    coefficient, [y] with the derivative [yp] the corrector attaches to it:
    - the ratio of the coefficients is in [3/5, 5/3]; it is 1 in the first step;
    - if it is 1, the step satisfies every linear equation exactly;
    - if not, an algebraic linear equation, and one between derivatives only, is
      satisfied up to a fixed fraction - at most a quarter - of its residual at
      the latest evaluation. *)
Theorem C80_linear_equations : forall (LSt : Type) (LS : LSolver R LSt) (prob : problem R) ewt_set fuel (okls : LSt -> Prop) w a b f g yy0 yp0
    (st : ida R LSt (newton R)),
  let n := model_size prob in
  (1 <= n)%nat -> exact_ls n okls -> linear_row prob w a b f -> config_ok g ->
  @reach R LSt (newton R) _ _ (NewtonNLS fuel) prob ewt_set g yy0 yp0 st ->
  forall new t y past, trace (lp (nlp st)) = new ++ CStep t y :: past ->
  exists (yl ypl : list R) (c0 ts h : R) k,
    last_res past = Some (t, yl, ypl) /\ last_jac past = Some c0 /\ last_try past = Some (ts, h, k) /\
    let cj := rsum k (fun i => / INR (i + 1)) / h in
    let rho := cj / c0 in
    let yp := corrected n cj yl ypl y in
    let eqn t y yp := rsum n (fun i => w i * p_res prob t y yp i) in
    3 / 5 <= rho <= 5 / 3 /\ (steps past = [] -> rho = 1) /\
    (rho = 1 -> eqn t y yp = 0) /\
    ((forall j, (j < n)%nat -> b j = 0) ->
       eqn t y yp = (rho - 1) / (rho + 1) * eqn t yl ypl /\ Rabs (eqn t y yp) <= Rabs (eqn t yl ypl) / 4) /\
    ((forall j, (j < n)%nat -> a j = 0) ->
       eqn t y yp = (1 - rho) / (1 + rho) * eqn t yl ypl /\ Rabs (eqn t y yp) <= Rabs (eqn t yl ypl) / 4).
Proof.
  intros LSt LS prob ewt_set fuel okls w a b f g yy0 yp0 st n Hn Hls (Hres & Hjac) Hg Hr new t y past E.
  pose proof (reach_RJ prob ewt_set fuel okls Hls Hn w a b f Hres Hjac g Hg yy0 yp0 st Hr) as (_ & [_ _ Ev]).
  destruct (Ev _ _ _ E) as (yl & ypl & c0 & ts & h & k & A1 & A2 & A3 & A4 & A5 & A6 & A7).
  exists yl, ypl, c0, ts, h, k. split; [exact A1|]. split; [exact A2|]. split; [exact A3|].
  rewrite lead_sum in *. cbv zeta. set (cj := rsum k (fun i => / INR (i + 1)) / h) in *.
  unfold form in A7. fold n in A7. set (rho := cj / c0) in *.
  set (X := rsum n (fun i => w i * p_res prob t y (corrected n cj yl ypl y) i)) in *.
  set (Y := rsum n (fun i => w i * p_res prob t yl ypl i)) in *.
  assert (B : forall kap, X = kap * Y -> - (1 / 4) <= kap <= 1 / 4 -> Rabs X <= Rabs Y / 4).
  { intros kap -> Hk. rewrite Rabs_mult. assert (Rabs kap <= 1 / 4) by (apply Rabs_le; lra).
    pose proof (Rabs_pos Y). nra. }
  assert (Q1 : - (1 / 4) <= (rho - 1) / (rho + 1) <= 1 / 4).
  { split; [apply (Rmult_le_reg_r (rho + 1)); [lra|]|apply (Rmult_le_reg_r (rho + 1)); [lra|]];
      unfold Rdiv at 2; rewrite ?Rmult_assoc, ?Rinv_l by lra; try lra;
      unfold Rdiv; rewrite Rmult_assoc, Rinv_l by lra; lra. }
  assert (Q2 : (1 - rho) / (1 + rho) = - ((rho - 1) / (rho + 1))) by (field; lra).
  split; [exact A6|]. split; [intros Hs; unfold rho; rewrite (A5 Hs); field; exact A4|].
  split; [intros H1; rewrite (A7 0) by (left; auto); ring|]. split.
  - intros Hb. assert (Z : X = (rho - 1) / (rho + 1) * Y) by (apply A7; right; left; auto).
    split; [exact Z|exact (B _ Z Q1)].
  - intros Ha. assert (Z : X = (1 - rho) / (1 + rho) * Y) by (apply A7; right; right; auto).
    split; [exact Z|]. apply (B _ Z). rewrite Q2. lra.
Qed.
Print Assumptions C80_linear_equations.

(** With the crate's dense solver, an algebraic linear equation [a . y + f t = 0]:
    its residual at an accepted step is at most a quarter of that at the latest
    evaluation, and zero at the first step. *)
Theorem C80_algebraic_dense : forall (prob : problem R) ewt_set fuel w a f g yy0 yp0 (st : ida R (list nat) (newton R)),
  let n := model_size prob in
  let dev t y := rsum n (fun j => a j * nth j y 0) + f t in
  (1 <= n)%nat -> linear_row prob w a (fun _ => 0) f -> config_ok g ->
  @reach R (list nat) (newton R) _ _ (NewtonNLS fuel) prob ewt_set g yy0 yp0 st ->
  forall new t y past, trace (lp (nlp st)) = new ++ CStep t y :: past ->
  (exists yl ypl, last_res past = Some (t, yl, ypl) /\ Rabs (dev t y) <= Rabs (dev t yl) / 4) /\
  (steps past = [] -> dev t y = 0).
Proof.
  intros prob ewt_set fuel w a f g yy0 yp0 st n dev Hn Hrow Hg Hr new t y past E.
  destruct (C80_linear_equations _ _ prob ewt_set fuel _ w a (fun _ => 0) f g yy0 yp0 st Hn (dense_exact n Hn) Hrow Hg Hr
    new t y past E) as (yl & ypl & c0 & ts & h & k & A1 & A2 & A3 & A4 & A5 & A6 & A7 & _).
  assert (D : forall t y yp, rsum n (fun i => w i * p_res prob t y yp i) = dev t y).
  { intros t' y' yp'. rewrite (proj1 Hrow). fold n. rewrite (rsum_0 n (fun j => 0 * nth j yp' 0)) by (intros; ring).
    unfold dev. ring. }
  cbv zeta in A6, A7. destruct (A7 (fun _ _ => eq_refl)) as (_ & B). fold n in A6, B. rewrite D in A6. rewrite !D in B.
  split; [exists yl, ypl; split; [exact A1|exact B]|]. intros Hs. exact (A6 (A5 Hs)).
Qed.
Print Assumptions C80_algebraic_dense.

(** Hypotheses met: a life with accepted steps, of a system with an algebraic
    linear equation (y2 - 2 y1 = 0) and one between derivatives (y1' - 1 = 0);
    and the crate's Roberts example, whose last equation is y1 + y2 + y3 = 1. *)
Example C80_hypotheses_met :
  linear_row lin2 (fun i => match i with 1%nat => 1 | _ => 0 end) (fun j => match j with O => - 2 | _ => 1 end) (fun _ => 0) (fun _ => 0) /\
  linear_row lin2 (fun i => match i with O => 1 | _ => 0 end) (fun _ => 0) (fun j => match j with O => 1 | _ => 0 end) (fun _ => - 1) /\
  exists st : ida R (list nat) (newton R),
  @reach R (list nat) (newton R) _ _ (NewtonNLS 1) lin2 (ewt_set_ss (/ 10000) (/ 1000000)) (default_config lin2)
    (affine 2 lin_a lin_b 0) (rates 2 lin_b) st /\ config_ok (default_config lin2) /\
  exists new t y past, trace (lp (nlp st)) = new ++ CStep t y :: past.
Proof.
  split; [|split].
  - split; [intros; cbn; unfold vget; cbn; ring|]. intros t cj y yp r j Hj. cbn in Hj. destruct j as [|[|j]]; [..|lia]; cbn; ring.
  - split; [intros; cbn; unfold vget; cbn; ring|]. intros t cj y yp r j Hj. cbn in Hj. destruct j as [|[|j]]; [..|lia]; cbn; ring.
  - destruct C75_hypotheses_met as (st & Hr & _ & _ & Hs & _). exists st. split; [exact Hr|].
    split; [unfold config_ok; cbn; lia|].
    destruct (steps (trace (lp (nlp st)))) as [|s l] eqn:Es; [congruence|].
    destruct (PropConserve.steps_in (trace (lp (nlp st))) s ltac:(rewrite Es; left; reflexivity)) as (t & Hin).
    apply in_split in Hin. destruct Hin as (new & past & Ht). exists new, t, (a_y s), past. exact Ht.
Qed.
Example C80_roberts c1 c2 c3 c4 c5 c6 :
  linear_row (roberts c1 c2 c3 c4 c5 c6) (fun i => match i with 2%nat => 1 | _ => 0 end) (fun _ => 1) (fun _ => 0) (fun _ => - 1).
Proof.
  split; [intros; cbn; unfold vget; cbn; ring|]. intros t cj y yp r j Hj. cbn in Hj. destruct j as [|[|[|j]]]; [..|lia]; cbn; ring.
Qed.
