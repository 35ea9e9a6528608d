(** * IdaShell: what everything in [solve] outside the step routines may change *)
Require Import List Arith Bool Lia.
Import ListNotations.
Require Import Verif.Base Verif.Scalar Verif.Norms Verif.Newton Verif.NewtonSpec Verif.IdaState
  Verif.IdaNls Verif.IdaCore Verif.IdaRoots Verif.IdaSolve Verif.BaseFacts Verif.NewtonFacts
  Verif.IdaFacts Verif.IdaLoops Verif.IdaStep Verif.IdaSpec.

Lemma count_app {A} (p : A -> bool) l1 l2 : count p (l1 ++ l2) = count p l1 + count p l2.
Proof. unfold count. rewrite filter_app, app_length. reflexivity. Qed.

Section Shell.
Context {T LSt NSt : Type} `{Scalar T} `{LSolver T LSt} `{NLSolver T NSt}.
Variable prob : problem T.
Variable ewt_set : list T -> list T.
Notation n := (model_size prob).
Notation nr := (num_roots prob).
Notation state := (ida T LSt NSt).

(** Everything but: output vectors, interpolation scratch, weights, stop time,
    last returned time, tolerance factor, root-finding data, performance
    counters and the ghost trace. *)
Definition core (st : state) :=
  (cfg st, (phi st, psi st, alpha st, beta st, sigma st, gamma st),
   (kk st, kused st, knew st, phase st, ns st),
   (hh st, hused st, rr st, cjlast st, ee st, delta st),
   (nst st, ncfn st, netf st, nls st), (h0u st, eps_newt st, setup_done st),
   (let s := nlp st in
    ((yypredict s, yppredict s, savres s, tn s), (ss s, oldnrm s, toldel s, nre s, nsetups s))),
   (let l := lp (nlp st) in
    ((lp_ls l, lp_matj l, lp_x l, lp_sqrtn l, lp_eplifac l), (nje l, nli l, ncfl l),
     (cj l, cjold l, cjratio l)))).

Definition perf0 (st : state) :=
  let l := lp (nlp st) in (nst0 l, nni0 l, ncfn0 l, ncfl0 l).
Definition perf_now (st : state) := (nst st, nni st, ncfn st, ncfl (lp (nlp st))).

Record shell (st st' : state) : Prop := mkshell {
  sh_core : core st' = core st;
  sh_tstop : tstop st' = tstop st \/ tstop st' = None;
  sh_cvals : length (cvals st') = length (cvals st);
  sh_dvals : length (dvals st') = length (dvals st);
  sh_glo : length (glo st) = nr -> length (glo st') = nr;
  sh_perf : perf0 st' = perf0 st \/ perf0 st' = perf_now st;
  sh_trace : exists evs, trace (lp (nlp st')) = evs ++ trace (lp (nlp st)) /\
    Forall (fun e => is_root e || is_warn e = true) evs /\ nge st' = nge st + count is_root evs;
  sh_warn : nni st = nni0 (lp (nlp st)) ->
    count is_warn (trace (lp (nlp st'))) = count is_warn (trace (lp (nlp st))) }.

Lemma shell_refl st : shell st st.
Proof. constructor; auto. exists []. cbn. auto. Qed.

Lemma core_now st st' : core st' = core st -> perf_now st' = perf_now st.
Proof. unfold core, perf_now, cfg. intros E. injection E. intros. congruence. Qed.

Lemma shell_trans a b c : shell a b -> shell b c -> shell a c.
Proof.
  intros [A1 A2 A3 A4 A5 A6 (ea & A7 & A8 & A9) A10] [B1 B2 B3 B4 B5 B6 (eb & B7 & B8 & B9) B10]. constructor.
  - congruence.
  - destruct B2 as [B2|B2]; rewrite B2; auto.
  - congruence.
  - congruence.
  - auto.
  - rewrite (core_now _ _ A1) in B6. destruct B6 as [B6|B6]; rewrite B6; auto.
  - exists (eb ++ ea). rewrite B7, A7, app_assoc. split; [reflexivity|].
    split; [apply Forall_app; auto|]. rewrite count_app. lia.
  - intros Hw. rewrite B10; [auto|].
    assert (En : nni b = nni a) by (unfold core, cfg in A1; congruence).
    unfold perf0, perf_now in A6. cbv zeta in A6. destruct A6 as [A6|A6]; injection A6; congruence.
Qed.

(** Changes that do not touch the trace. *)
Lemma shell_quiet st st' :
  core st' = core st -> tstop st' = tstop st \/ tstop st' = None ->
  length (cvals st') = length (cvals st) -> length (dvals st') = length (dvals st) ->
  (length (glo st) = nr -> length (glo st') = nr) ->
  perf0 st' = perf0 st -> trace (lp (nlp st')) = trace (lp (nlp st)) -> nge st' = nge st ->
  shell st st'.
Proof.
  intros A B C D G E1 E2 E3. constructor; auto.
  - exists []. rewrite E2, E3. cbn. auto.
  - rewrite E2. auto.
Qed.

Lemma shell_call st t y ypv st' g :
  call_root prob st t y ypv = (st', g) ->
  core st' = core st /\ tstop st' = tstop st /\ cvals st' = cvals st /\ dvals st' = dvals st /\
  rootst st' = rootst st /\ perf0 st' = perf0 st /\ outer st' = outer st /\
  trace (lp (nlp st')) = CRoot t y ypv :: trace (lp (nlp st)) /\ length g = nr.
Proof. unfold call_root. intros E. injection E as <- <-. rewrite vtab_length. repeat split. Qed.

Lemma shell_root_call st t y ypv st' g st'' :
  call_root prob st t y ypv = (st', g) -> core st'' = core st' ->
  tstop st'' = tstop st' -> cvals st'' = cvals st' -> dvals st'' = dvals st' ->
  (length (glo st) = nr -> length (glo st'') = nr) -> perf0 st'' = perf0 st' ->
  trace (lp (nlp st'')) = trace (lp (nlp st')) -> nge st'' = nge st + 1 -> shell st st''.
Proof.
  intros E A B C D F G I J. apply shell_call in E.
  destruct E as (E1 & E2 & E3 & E4 & E5 & E6 & E7 & E8 & E9). constructor; try congruence; auto.
  - left. congruence.
  - left. congruence.
  - exists [CRoot t y ypv]. rewrite I, E8. split; [reflexivity|]. split; [repeat constructor|].
    rewrite J. cbn. lia.
  - intros _. rewrite I, E8. reflexivity.
Qed.

(** [get_solution] writes scratch and output vectors only. *)
Lemma for_range_len {A S} (g : S -> list A) lo hi (f : nat -> S -> outcome S) s s' :
  (forall i s s', f i s = Ret s' -> length (g s') = length (g s)) ->
  for_range lo hi f s = Ret s' -> length (g s') = length (g s).
Proof. intros Hf E. unfold for_range in E. exact (foldm_pres (fun s => length (g s)) f _ s s' Hf E). Qed.

Lemma gs_loop_len (ps : list T) delt lo hi x x' :
  for_range lo hi (gs_body ps delt) x = Ret x' ->
  length (snd (fst x')) = length (snd (fst x)) /\ length (snd x') = length (snd x).
Proof.
  intros E. split.
  - apply (for_range_len (fun x => snd (fst x)) _ _ _ _ _) in E; [exact E|].
    intros i [[[[c d] g] cv] dv] y Ey. unfold gs_body in Ey. minv.
    repeat match goal with Hx : aset _ _ _ = Ret _ |- _ => apply aset_inv in Hx; destruct Hx as (_ & ->) end.
    cbn. apply upd_length.
  - apply (for_range_len (fun x => snd x) _ _ _ _ _) in E; [exact E|].
    intros i [[[[c d] g] cv] dv] y Ey. unfold gs_body in Ey. minv.
    repeat match goal with Hx : aset _ _ _ = Ret _ |- _ => apply aset_inv in Hx; destruct Hx as (_ & ->) end.
    cbn. apply upd_length.
Qed.

Lemma get_solution_shell st t st' r : get_solution prob st t = Ret (st', r) -> shell st st'.
Proof.
  intros E.
  assert (Hlen : length (cvals st') = length (cvals st) /\ length (dvals st') = length (dvals st)).
  { unfold get_solution in E. destruct (time_check st t); [injection E as <- <-; auto|].
    cbv zeta in E.
    apply bind_ret_inv in E. destruct E as (p0 & _ & E). cbv beta in E.
    apply bind_ret_inv in E. destruct E as (cv & Ea & E). cbv beta in E.
    apply bind_ret_inv in E. destruct E as (x & Ef & E). cbv beta in E.
    apply gs_loop_len in Ef. destruct x as ((((c & d) & g) & cv') & dv').
    apply aset_inv in Ea. destruct Ea as (_ & ->). cbn in Ef. rewrite upd_length in Ef.
    apply bind_ret_inv in E. destruct E as (yv & _ & E). cbv beta in E.
    apply bind_ret_inv in E. destruct E as (ypv & _ & E). cbv beta in E.
    injection E as <- <-. exact Ef. }
  apply get_solution_frame in E. destruct E as (E1 & E2 & E3 & E4 & E5).
  unfold outer, rootst, stepst, nlprest in *. pose proof (eq_refl (cfg st)).
  injection E2; injection E3; injection E4; injection E5; intros.
  destruct Hlen. apply shell_quiet; try congruence.
  - unfold core. cbv zeta. congruence.
  - left; assumption.
  - unfold perf0. cbv zeta. congruence.
Qed.

Ltac quiet := apply shell_quiet; [reflexivity|left; reflexivity|reflexivity|reflexivity|auto|reflexivity|reflexivity|reflexivity].

(** Root function evaluation with its counter, results stored in glo/ghi/grout. *)
Lemma root_glo_shell st t y ypv st' g :
  call_root prob st t y ypv = (st', g) -> shell st (set_nge (nge st' + 1) (set_glo g st')).
Proof.
  intros E. pose proof (shell_call _ _ _ _ _ _ E) as (_ & _ & _ & _ & E5 & _ & _ & _ & E9).
  eapply shell_root_call; [exact E| | | | |intros _; exact E9| | |]; try reflexivity.
  apply rootst_fields in E5. cbn. f_equal. apply E5.
Qed.
Lemma root_ghi_shell st t y ypv st' g :
  call_root prob st t y ypv = (st', g) -> shell st (set_nge (nge st' + 1) (set_ghi g st')).
Proof.
  intros E. pose proof (shell_call _ _ _ _ _ _ E) as (_ & _ & _ & _ & E5 & _ & _ & _ & E9).
  apply rootst_fields in E5. destruct E5 as (_ & _ & _ & _ & Eg & _ & _ & _ & _ & _ & _ & En & _).
  eapply shell_root_call; [exact E| | | | |cbn; rewrite Eg; auto| | |]; try reflexivity.
  cbn. f_equal. exact En.
Qed.
Lemma root_grout_shell st t y ypv st' g :
  call_root prob st t y ypv = (st', g) -> shell st (set_nge (nge st' + 1) (set_grout g st')).
Proof.
  intros E. pose proof (shell_call _ _ _ _ _ _ E) as (_ & _ & _ & _ & E5 & _ & _ & _ & E9).
  apply rootst_fields in E5. destruct E5 as (_ & _ & _ & _ & Eg & _ & _ & _ & _ & _ & _ & En & _).
  eapply shell_root_call; [exact E| | | | |cbn; rewrite Eg; auto| | |]; try reflexivity.
  cbn. f_equal. exact En.
Qed.

Lemma close_scan_len is : forall ga gh ir gl z ir' gl' c z',
  close_scan is ga gh ir gl z = (ir', gl', c, z') -> length gl' = length gl.
Proof.
  induction is as [|i tl IH]; intros ga gh ir gl z ir' gl' c z' E; cbn [close_scan] in E.
  - congruence.
  - destruct (bget ga i); [|eauto].
    destruct (_ =? _)%sc.
    + destruct (_ <? _)%sc; [congruence|eauto].
    + destruct (_ <? _)%sc; [|eauto]. apply IH in E. rewrite upd_length in E. exact E.
Qed.

Lemma r_check2_shell st st' r : r_check2 prob st = Ret (st', r) -> shell st st'.
Proof.
  unfold r_check2. destruct (negb (irfnd st)); intros E.
  { injection E as <- <-. apply shell_refl. }
  apply bind_ret_inv in E. destruct E as ((st1 & r1) & E1 & E). cbv beta iota in E.
  apply get_solution_shell in E1.
  destruct (call_root prob st1 (tlo st1) _ _) as (st2 & g) eqn:E2.
  pose proof (root_glo_shell _ _ _ _ _ _ E2) as S2. cbv zeta in E.
  set (st3 := set_nge _ _) in *. clearbody st3.
  set (irs := vtab nr _) in E. clearbody irs.
  assert (S4 : shell st3 (set_iroots irs st3)) by quiet.
  assert (S5 : shell st (set_iroots irs st3)) by (eapply shell_trans; [exact E1|]; eapply shell_trans; eassumption).
  clear E1 E2 S2 S4. set (st4 := set_iroots irs st3) in *.
  match type of E with context [if existsb ?f ?l then _ else _] => destruct (existsb f l) end.
  2: { injection E as <- <-. exact S5. }
  clearbody st4.
  set (tt' := root_ttol st4) in E. assert (S6 : shell st4 (set_ttol tt' st4)) by quiet.
  clearbody tt'. set (st5 := set_ttol tt' st4) in *. clearbody st5.
  apply bind_ret_inv in E. destruct E as (st6 & E6 & E). cbv beta in E.
  assert (S7 : shell st5 st6).
  { match type of E6 with (if ?b then _ else _) = _ => destruct b end.
    - apply bind_ret_inv in E6. destruct E6 as (p1 & _ & E6). injection E6 as <-. quiet.
    - apply bind_ret_inv in E6. destruct E6 as ((s & ?) & E6 & E7). cbv beta iota in E7.
      injection E7 as <-. eapply get_solution_shell; exact E6. }
  clear E6.
  destruct (call_root prob st6 _ _ _) as (st7 & g') eqn:E7.
  pose proof (root_ghi_shell _ _ _ _ _ _ E7) as S8. set (st8 := set_nge _ _) in *. clearbody st8.
  destruct (close_scan _ _ _ _ _ _) as (((ir & gl) & cl) & zr) eqn:Ec.
  apply close_scan_len in Ec.
  assert (S9 : shell st8 (set_glo gl (set_iroots ir st8))).
  { apply shell_quiet; try reflexivity; [left; reflexivity|]. cbn. congruence. }
  set (st9 := set_glo gl _) in *. clearbody st9.
  assert (S : shell st st9) by exact (shell_trans _ _ _ S5 (shell_trans _ _ _ S6 (shell_trans _ _ _ S7 (shell_trans _ _ _ S8 S9)))).
  destruct cl; [|destruct zr]; injection E as <- <-; exact S.
Qed.

Lemma root_loop_shell fuel : forall (st : state) alph sp side imax (st' : state),
  root_loop prob fuel st alph sp side imax = Ret st' -> shell st st'.
Proof.
  induction fuel as [|fuel IH]; intros st alph sp side imax st' E; [discriminate|].
  cbn [root_loop] in E.
  match type of E with (if ?b then _ else _) = _ => destruct b end.
  { injection E as <-. apply shell_refl. }
  cbv zeta in E.
  apply bind_ret_inv in E. destruct E as (ghm & _ & E). cbv beta in E.
  apply bind_ret_inv in E. destruct E as (glm & _ & E). cbv beta in E.
  set (tmid := next_tmid _ _ _ _ _ _) in E. clearbody tmid.
  apply bind_ret_inv in E. destruct E as ((st1 & r1) & E1 & E). cbv beta iota in E.
  apply get_solution_shell in E1.
  destruct (call_root prob st1 _ _ _) as (st2 & g) eqn:E2.
  pose proof (shell_call _ _ _ _ _ _ E2) as (_ & _ & _ & _ & _ & _ & _ & _ & Lg).
  pose proof (root_grout_shell _ _ _ _ _ _ E2) as S2.
  assert (Lo : length (grout (set_nge (nge st2 + 1) (set_grout g st2))) = nr) by exact Lg.
  set (st3 := set_nge _ _) in *. clearbody st3.
  assert (S3 : shell st st3) by (eapply shell_trans; eassumption).
  destruct (scan2 prob _ _ _ _ _) as (((zr & sg) & mf) & im).
  assert (S4 : shell st3 (set_ghi (grout st3) (set_thi tmid st3))) by quiet.
  assert (S5 : shell st3 (set_glo (grout st3) (set_tlo tmid st3))).
  { apply shell_quiet; try reflexivity; [left; reflexivity|]. intros _. exact Lo. }
  set (st4 := set_ghi _ _) in *. set (st5 := set_glo _ _) in *. clearbody st4 st5.
  assert (S6 : shell st st4) by exact (shell_trans _ _ _ S3 S4).
  assert (S7 : shell st st5) by exact (shell_trans _ _ _ S3 S5).
  destruct sg.
  - match type of E with (if ?b then _ else _) = _ => destruct b end.
    + injection E as <-. assumption.
    + apply IH in E. exact (shell_trans _ _ _ S6 E).
  - destruct zr.
    + injection E as <-. assumption.
    + match type of E with (if ?b then _ else _) = _ => destruct b end.
      * injection E as <-. assumption.
      * apply IH in E. exact (shell_trans _ _ _ S7 E).
Qed.

Lemma root_find_shell fuel st st' r : root_find prob fuel st = Ret (st', r) -> shell st st'.
Proof.
  unfold root_find. destruct (scan1 prob _ _ _ _) as (((zr & sg) & mf) & im). cbv zeta. intros E.
  assert (Hq : forall s, shell s (set_grout (ghi s) (set_trout (thi s) s))) by (intros s; quiet).
  assert (Hi : forall s v, shell s (set_iroots v s)) by (intros s v; quiet).
  destruct (negb sg).
  - specialize (Hq st). set (st1 := set_grout _ _) in *. clearbody st1.
    destruct (negb zr).
    + injection E as <- <-. exact Hq.
    + injection E as <- <-. eapply shell_trans; [exact Hq|apply Hi].
  - apply bind_ret_inv in E. destruct E as (st0 & E0 & E). cbv beta zeta in E.
    apply root_loop_shell in E0. specialize (Hq st0). set (st1 := set_grout _ _) in *. clearbody st1.
    injection E as <- <-. eapply shell_trans; [exact E0|]. eapply shell_trans; [exact Hq|apply Hi].
Qed.

(** [grout] has the right length after [root_find]. *)
Lemma root_loop_ghi fuel : forall (st : state) alph sp side imax (st' : state),
  length (ghi st) = nr ->
  root_loop prob fuel st alph sp side imax = Ret st' -> length (ghi st') = nr.
Proof.
  induction fuel as [|fuel IH]; intros st alph sp side imax st' Hl E; [discriminate|].
  cbn [root_loop] in E.
  match type of E with (if ?b then _ else _) = _ => destruct b end.
  { injection E as <-. exact Hl. }
  cbv zeta in E.
  apply bind_ret_inv in E. destruct E as (ghm & _ & E). cbv beta in E.
  apply bind_ret_inv in E. destruct E as (glm & _ & E). cbv beta in E.
  set (tmid := next_tmid _ _ _ _ _ _) in E. clearbody tmid.
  apply bind_ret_inv in E. destruct E as ((st1 & r1) & E1 & E). cbv beta iota in E.
  apply get_solution_frame in E1. destruct E1 as (_ & _ & E1 & _). apply rootst_fields in E1.
  destruct (call_root prob st1 _ _ _) as (st2 & g) eqn:E2.
  pose proof (shell_call _ _ _ _ _ _ E2) as (_ & _ & _ & _ & R2 & _ & _ & _ & Lg).
  apply rootst_fields in R2.
  assert (Lo : length (grout (set_nge (nge st2 + 1) (set_grout g st2))) = nr) by exact Lg.
  assert (Lh : length (ghi (set_nge (nge st2 + 1) (set_grout g st2))) = nr).
  { cbn. replace (ghi st2) with (ghi st); [exact Hl|]. symmetry. etransitivity; [apply R2|apply E1]. }
  set (st3 := set_nge _ _) in *. clearbody st3.
  destruct (scan2 prob _ _ _ _ _) as (((zr & sg) & mf) & im).
  destruct sg.
  - match type of E with (if ?b then _ else _) = _ => destruct b end.
    + injection E as <-. exact Lo.
    + apply IH in E; [exact E|exact Lo].
  - destruct zr.
    + injection E as <-. exact Lo.
    + match type of E with (if ?b then _ else _) = _ => destruct b end.
      * injection E as <-. exact Lh.
      * apply IH in E; [exact E|exact Lh].
Qed.

Lemma root_find_grout fuel (st st' : state) r :
  length (ghi st) = nr -> root_find prob fuel st = Ret (st', r) -> length (grout st') = nr.
Proof.
  intros Hl. unfold root_find. destruct (scan1 prob _ _ _ _) as (((zr & sg) & mf) & im). cbv zeta.
  destruct (negb sg).
  - destruct (negb zr); intros E; injection E as <- <-; exact Hl.
  - intros E. apply bind_ret_inv in E. destruct E as (st0 & E0 & E). cbv beta zeta in E.
    apply root_loop_ghi in E0; [|exact Hl]. injection E as <- <-. exact E0.
Qed.

Lemma r_check3_shell fuel st st' r : r_check3 prob fuel st = Ret (st', r) -> shell st st'.
Proof.
  unfold r_check3. cbv zeta. set (hi := match taskc st with Normal => _ | OneStep => _ end). clearbody hi.
  assert (S1 : shell st (set_thi hi st)) by quiet. set (st1 := set_thi hi st) in *. clearbody st1.
  intros E. apply bind_ret_inv in E. destruct E as ((st2 & r2) & E2 & E). cbv beta iota in E.
  apply get_solution_shell in E2.
  destruct (call_root prob st2 _ _ _) as (st3 & g) eqn:E3.
  pose proof (shell_call _ _ _ _ _ _ E3) as (_ & _ & _ & _ & _ & _ & _ & _ & Lg).
  pose proof (root_ghi_shell _ _ _ _ _ _ E3) as S3.
  assert (Lh : length (ghi (set_nge (nge st3 + 1) (set_ghi g st3))) = nr) by exact Lg.
  set (st4 := set_nge _ _) in *. clearbody st4.
  set (tt' := root_ttol st4) in E. assert (S5 : shell st4 (set_ttol tt' st4)) by quiet.
  change (ghi st4) with (ghi (set_ttol tt' st4)) in Lh.
  set (st5 := set_ttol tt' st4) in *. clearbody st5.
  apply bind_ret_inv in E. destruct E as ((st6 & ier) & E6 & E). cbv beta iota zeta in E.
  pose proof (root_find_grout _ _ _ _ Lh E6) as Lo. apply root_find_shell in E6.
  set (ga := vtab nr _) in E. clearbody ga.
  assert (S7 : shell st6 (set_gactive ga st6)) by quiet.
  change (grout st6) with (grout (set_gactive ga st6)) in Lo.
  set (st7 := set_gactive ga st6) in *. clearbody st7.
  assert (S8 : shell st7 (set_glo (grout st7) (set_tlo (trout st7) st7))).
  { apply shell_quiet; try reflexivity; [left; reflexivity|]. intros _. exact Lo. }
  set (st8 := set_glo _ _) in *. clearbody st8.
  assert (S : shell st st8) by exact (shell_trans _ _ _ S1 (shell_trans _ _ _ E2 (shell_trans _ _ _ S3 (shell_trans _ _ _ S5 (shell_trans _ _ _ E6 (shell_trans _ _ _ S7 S8)))))).
  destruct ier.
  - apply bind_ret_inv in E. destruct E as ((st9 & r9) & E9 & E). cbv beta iota in E.
    injection E as <- <-. apply get_solution_shell in E9. eapply shell_trans; eassumption.
  - injection E as <- <-. exact S.
Qed.

(** Performance monitor. *)
Lemma ls_perf_false_shell st l :
  ls_perf (lp (nlp st)) (nst st) (nni st) (ncfn st) false = Ret l -> shell st (on_lp (fun _ => l) st).
Proof.
  unfold ls_perf. cbn [negb]. intros E. injection E as <-. constructor; try reflexivity.
  - left; reflexivity.
  - auto.
  - right. reflexivity.
  - exists []. cbn. auto.
Qed.

Lemma ls_perf_true_shell st l :
  ls_perf (lp (nlp st)) (nst st) (nni st) (ncfn st) true = Ret l -> shell st (on_lp (fun _ => l) st).
Proof.
  unfold ls_perf. cbn [negb]. intros E.
  assert (Hs : exists w evs, l = set_trace (evs ++ trace (lp (nlp st))) (set_nwarn w (lp (nlp st))) /\
     Forall (fun e => is_root e || is_warn e = true) evs /\ count is_root evs = 0 /\
     (nni st = nni0 (lp (nlp st)) -> evs = [])).
  { apply bind_ret_inv in E. destruct E as (a & _ & E). cbv beta in E.
    apply bind_ret_inv in E. destruct E as (b & Eb & E). cbv beta in E.
    assert (Hb : nni st = nni0 (lp (nlp st)) -> b = 0).
    { intros Hw. rewrite Hw in Eb. unfold usub in Eb. rewrite Nat.leb_refl in Eb. injection Eb as <-. lia. }
    destruct ((a =? 0) || (b =? 0)) eqn:Eab.
    { injection E as <-. exists (nwarn (lp (nlp st))), []. split; [destruct (lp (nlp st)); reflexivity|]. auto. }
    assert (Hno : nni st <> nni0 (lp (nlp st))).
    { intros Hw. rewrite (Hb Hw), orb_true_r in Eab. discriminate. }
    apply bind_ret_inv in E. destruct E as (c & _ & E). cbv beta in E.
    apply bind_ret_inv in E. destruct E as (d & _ & E). cbv beta zeta in E.
    destruct (negb _).
    { injection E as <-. exists (nwarn (lp (nlp st))), []. split; [destruct (lp (nlp st)); reflexivity|]. auto. }
    destruct (10 <? _).
    { injection E as <-. exists (nwarn (lp (nlp st)) + 1), []. split; [destruct (lp (nlp st)); reflexivity|]. auto. }
    destruct (spt9 <? sofnat c / _)%sc, (spt9 <? sofnat d / _)%sc; injection E as <-.
    - exists (nwarn (lp (nlp st)) + 1), [CWarn; CWarn]. split; [destruct (lp (nlp st)); reflexivity|]. split; [repeat constructor|]. split; [reflexivity|tauto].
    - exists (nwarn (lp (nlp st)) + 1), [CWarn]. split; [destruct (lp (nlp st)); reflexivity|]. split; [repeat constructor|]. split; [reflexivity|tauto].
    - exists (nwarn (lp (nlp st)) + 1), [CWarn]. split; [destruct (lp (nlp st)); reflexivity|]. split; [repeat constructor|]. split; [reflexivity|tauto].
    - exists (nwarn (lp (nlp st)) + 1), []. split; [destruct (lp (nlp st)); reflexivity|]. split; [repeat constructor|]. split; [reflexivity|tauto]. }
  destruct Hs as (w & evs & -> & Hf & Hc & Hw). constructor; try reflexivity.
  - left; reflexivity.
  - auto.
  - left; reflexivity.
  - exists evs. rewrite Hc. cbn. auto.
  - intros Hx. rewrite (Hw Hx). reflexivity.
Qed.

(** Reduction of the step in front of a stop time. *)
Definition lims (st st' : state) : Prop :=
  tstop st = None /\ st' = st \/
  exists ts, tstop st = Some ts /\ at_tstop st ts = false /\ st' = limit_to_tstop st ts.

Definition past_tstop (st : state) : bool :=
  match tstop st with
  | Some ts => (szero <? (tn (nlp st) - ts) * hh st)%sc
  | None => false
  end.

Lemma tretlast_shell (st : state) t : shell st (set_tretlast t st).
Proof. quiet. Qed.
Lemma tstop_none_shell (st : state) t : shell st (set_tstop None (set_tretlast t st)).
Proof. apply shell_quiet; try reflexivity; [right; reflexivity|auto]. Qed.

Lemma stop_test1_shell st tout tret itask st' tret' r :
  stop_test1 prob st tout tret itask = Ret (st', tret', r) ->
  (r = Ok ContinueSteps /\ lims st st' /\ tret' = tret /\ past_tstop st = false /\
    (itask = Normal -> (szero <=? (tn (nlp st) - tout) * hh st)%sc = false)) \/
  (r <> Ok ContinueSteps /\ shell st st').
Proof.
  unfold stop_test1, past_tstop. intros E.
  set (past := match tstop st with Some ts => _ | None => false end) in *.
  assert (Hp : past = true -> exists ts, tstop st = Some ts).
  { unfold past. destruct (tstop st); [eauto|discriminate]. }
  destruct past eqn:Ep.
  { destruct (Hp eq_refl) as (ts & Hts). rewrite Hts in E. injection E as <- <- <-. right.
    split; [discriminate|apply shell_refl]. }
  clear Hp.
  destruct itask.
  - destruct (_ =? _)%sc.
    { injection E as <- <- <-. right. split; [discriminate|apply tretlast_shell]. }
    destruct (szero <=? _)%sc eqn:Et.
    { apply bind_ret_inv in E. destruct E as ((s & rs) & E1 & E). cbv beta iota in E.
      apply get_solution_shell in E1. destruct rs; injection E as <- <- <-; right.
      - split; [discriminate|]. eapply shell_trans; [exact E1|apply tretlast_shell].
      - split; [discriminate|exact E1]. }
    destruct (tstop st) as [ts|] eqn:Ets.
    + destruct (at_tstop st ts) eqn:Ea.
      * apply bind_ret_inv in E. destruct E as ((s & rs) & E1 & E). cbv beta iota in E.
        apply get_solution_shell in E1. destruct rs; injection E as <- <- <-; right.
        -- split; [discriminate|]. eapply shell_trans; [exact E1|apply tstop_none_shell].
        -- split; [discriminate|exact E1].
      * injection E as <- <- <-. left. split; [reflexivity|]. split; [right; eauto|auto].
    + injection E as <- <- <-. left. split; [reflexivity|]. split; [left; auto|auto].
  - destruct (_ <? _)%sc.
    { apply bind_ret_inv in E. destruct E as ((s & rs) & E1 & E). cbv beta iota in E.
      apply get_solution_shell in E1. injection E as <- <- <-. right.
      split; [discriminate|]. eapply shell_trans; [exact E1|apply tretlast_shell]. }
    destruct (tstop st) as [ts|] eqn:Ets.
    + destruct (at_tstop st ts) eqn:Ea.
      * apply bind_ret_inv in E. destruct E as ((s & rs) & E1 & E). cbv beta iota in E.
        apply get_solution_shell in E1. destruct rs; injection E as <- <- <-; right.
        -- split; [discriminate|]. eapply shell_trans; [exact E1|apply tretlast_shell].
        -- split; [discriminate|exact E1].
      * injection E as <- <- <-. left. split; [reflexivity|]. split; [right; eauto|].
        split; [reflexivity|]. split; [reflexivity|discriminate].
    + injection E as <- <- <-. left. split; [reflexivity|]. split; [left; auto|].
      split; [reflexivity|]. split; [reflexivity|discriminate].
Qed.

Lemma stop2_tstop_shell st x :
  stop2_tstop prob st = Ret x ->
  match x with
  | inl (st', tret', r) => shell st st' /\ r = Ok TStop
  | inr st' => lims st st'
  end.
Proof.
  unfold stop2_tstop. intros E. destruct (tstop st) as [ts|] eqn:Ets.
  - destruct (at_tstop st ts) eqn:Ea.
    + apply bind_ret_inv in E. destruct E as ((s & rs) & E1 & E). cbv beta iota in E.
      apply get_solution_shell in E1. injection E as <-. split; [|reflexivity].
      eapply shell_trans; [exact E1|apply tstop_none_shell].
    + injection E as <-. right. eauto.
  - injection E as <-. left. auto.
Qed.

Lemma stop_test2_shell st tout tret itask st' tret' r :
  stop_test2 prob st tout tret itask = Ret (st', tret', r) ->
  (r = Ok ContinueSteps /\ lims st st' /\ tret' = tret /\ itask = Normal /\
     (szero <=? (tn (nlp st) - tout) * hh st)%sc = false) \/
  (r <> Ok ContinueSteps /\ (shell st st' \/ exists st1, lims st st1 /\ shell st1 st')).
Proof.
  unfold stop_test2. intros E. destruct itask.
  - destruct (szero <=? _)%sc eqn:Et.
    { apply bind_ret_inv in E. destruct E as ((s & rs) & E1 & E). cbv beta iota in E.
      apply get_solution_shell in E1. injection E as <- <- <-. right. split; [discriminate|].
      left. eapply shell_trans; [apply tretlast_shell|exact E1]. }
    apply bind_ret_inv in E. destruct E as (x & E1 & E). cbv beta in E.
    apply stop2_tstop_shell in E1. destruct x as [((s & t) & rs)|s].
    + destruct E1 as (E1 & ->). injection E as <- <- <-. right. split; [discriminate|].
      left. exact E1.
    + injection E as <- <- <-. left. auto.
  - apply bind_ret_inv in E. destruct E as (x & E1 & E). cbv beta in E.
    apply stop2_tstop_shell in E1. destruct x as [((s & t) & rs)|s].
    + destruct E1 as (E1 & ->). injection E as <- <- <-. right. split; [discriminate|].
      left. exact E1.
    + injection E as <- <- <-. right. split; [discriminate|]. right. exists s. split; [exact E1|apply tretlast_shell].
Qed.

Lemma ewt_shell (st : state) w : shell st (on_nlp (set_ewt w) st).
Proof. quiet. Qed.
Lemma tolsf_shell (st : state) w : shell st (set_tolsf w st).
Proof. quiet. Qed.
Lemma irfnd_shell (st : state) w : shell st (set_irfnd w st).
Proof. quiet. Qed.

Lemma core_fields (a b : state) : core a = core b ->
  cfg a = cfg b /\ phi a = phi b /\ psi a = psi b /\ alpha a = alpha b /\ beta a = beta b /\
  sigma a = sigma b /\ gamma a = gamma b /\ kk a = kk b /\ kused a = kused b /\ knew a = knew b /\
  phase a = phase b /\ ns a = ns b /\ hh a = hh b /\ hused a = hused b /\ rr a = rr b /\
  nst a = nst b /\ ncfn a = ncfn b /\ netf a = netf b /\ tn (nlp a) = tn (nlp b) /\
  eps_newt a = eps_newt b /\ ee a = ee b.
Proof.
  intros E. split; [exact (f_equal (fun x => fst (fst (fst (fst (fst (fst (fst x))))))) E)|].
  unfold core in E. cbv zeta in E. injection E. intros. repeat split; assumption.
Qed.

Lemma pre_step_shell st tret nl x :
  pre_step prob ewt_set st tret nl = Ret x ->
  match x with
  | inl (st', tret', r) => shell st st' /\ tret' = tn (nlp st) /\
      (r = Err (EIda (IllegalIn TooMuchWork)) /\ 0 < mxstep st <= nl \/
       (mxstep st = 0 \/ nl < mxstep st) /\
       (r = Err (EIda (IllegalIn EwtBad)) \/ r = Err (EIda (TooMuchAccuracy (tn (nlp st))))))
  | inr st' => shell st st' /\ (mxstep st = 0 \/ nl < mxstep st) /\
      (nst st <> 0 -> ewt (nlp st') = ewt_set (row (phi st) 0) /\
                      existsb (fun x => (x <=? szero)%sc) (ewt (nlp st')) = false) /\
      (nst st = 0 -> ewt (nlp st') = ewt (nlp st)) /\
      (sone <? seps * wrms_norm (idv st) (row (phi st) 0) (ewt (nlp st')) (suppressalg st))%sc = false
  end.
Proof.
  unfold pre_step. intros E.
  destruct (Nat.ltb_spec 0 (mxstep st)) as [Hm|Hm]; cbn [andb] in E;
    [destruct (Nat.leb_spec (mxstep st) nl) as [Hn|Hn]|].
  { injection E as <-. split; [apply tretlast_shell|]. auto. }
  all: apply bind_ret_inv in E; destruct E as (l & El & E); cbv beta in E.
  all: apply ls_perf_true_shell in El.
  all: assert (Ew : ewt (nlp (on_lp (fun _ => l) st)) = ewt (nlp st)) by reflexivity.
  all: set (st1 := on_lp _ st) in *; clearbody st1.
  all: pose proof (core_fields _ _ (sh_core _ _ El)) as
    (C1 & C2 & C3 & _ & _ & _ & _ & C4 & C5 & _ & _ & _ & C6 & C7 & _ & C8 & _ & _ & C9 & _).
  all: apply cfg_fields in C1; destruct C1 as (_ & C10 & C11 & _).
  all: assert (Hms : mxstep st = 0 \/ nl < mxstep st) by lia.
  all: apply bind_ret_inv in E; destruct E as (y & Ey & E); cbv beta in E.
  all: rewrite C8 in Ey.
  all: assert (Hy : match y with
     | inl (st', tret', r) => shell st1 st' /\ tret' = tn (nlp st) /\ r = Err (EIda (IllegalIn EwtBad))
     | inr st' => shell st1 st' /\ (nst st <> 0 -> ewt (nlp st') = ewt_set (row (phi st) 0) /\
                      existsb (fun x => (x <=? szero)%sc) (ewt (nlp st')) = false) /\
                  (nst st = 0 -> ewt (nlp st') = ewt (nlp st))
     end) by (
    destruct (Nat.ltb_spec 0 (nst st)) as [Hz|Hz];
    [ apply bind_ret_inv in Ey; destruct Ey as (p0 & Ep & Ey); cbv beta zeta in Ey;
      apply aget_inv in Ep; destruct Ep as (_ & Ep); specialize (Ep []); rewrite C2 in Ep;
      fold (row (phi st) 0) in Ep; rewrite Ep; clear Ep;
      pose proof (ewt_shell st1 (ewt_set p0)) as S1;
      assert (Ew1 : ewt (nlp (on_nlp (set_ewt (ewt_set p0)) st1)) = ewt_set p0) by reflexivity;
      set (st2 := on_nlp _ st1) in *; clearbody st2;
      destruct (existsb _ _) eqn:Ex;
      [ apply bind_ret_inv in Ey; destruct Ey as ((s & rs) & E1 & Ey); cbv beta iota in Ey;
        apply get_solution_shell in E1; injection Ey as <-;
        pose proof (shell_trans _ _ _ S1 E1) as S2;
        split; [eapply shell_trans; [exact S2|apply tretlast_shell]|]; split; [|reflexivity];
        pose proof (core_fields _ _ (sh_core _ _ S2)) as D; destruct D as
          (_ & _ & _ & _ & _ & _ & _ & _ & _ & _ & _ & _ & _ & _ & _ & _ & _ & _ & D & _);
        cbn; congruence
      | injection Ey as <-; split; [exact S1|]; split; [intros _; auto|lia] ]
    | injection Ey as <-; split; [apply shell_refl|]; split; [lia|auto] ]).
  all: clear Ey; destruct y as [((s & t) & r)|st2].
  1,3: destruct Hy as (S1 & -> & ->); injection E as <-;
       split; [eapply shell_trans; eassumption|]; split; [reflexivity|right; auto].
  all: destruct Hy as (S1 & W1 & W2).
  all: pose proof (core_fields _ _ (sh_core _ _ S1)) as
    (B1 & B2 & _ & _ & _ & _ & _ & _ & _ & _ & _ & _ & _ & _ & _ & B8 & _ & _ & B9 & _).
  all: apply cfg_fields in B1; destruct B1 as (_ & B10 & B11 & _).
  all: apply bind_ret_inv in E; destruct E as (p0 & Ep & E); cbv beta zeta in E.
  all: apply aget_inv in Ep; destruct Ep as (_ & Ep); specialize (Ep []).
  all: assert (Ep' : p0 = row (phi st) 0) by (unfold row; congruence); subst p0.
  all: set (nrm := wrms_norm _ _ _ _) in E; pose proof (tolsf_shell st2 (seps * nrm)%sc) as S2.
  all: change (tolsf (set_tolsf ?a st2)) with a in E.
  all: destruct (sone <? seps * nrm)%sc eqn:Et.
  1,3: pose proof (shell_trans _ _ _ (shell_trans _ _ _ El S1)
         (shell_trans _ _ _ S2 (tolsf_shell (set_tolsf (seps * nrm)%sc st2) (seps * nrm * sten)%sc))) as S3;
       set (st3 := set_tolsf (seps * nrm * sten)%sc _) in *; clearbody st3;
       pose proof (shell_trans _ _ _ S3 (tretlast_shell st3 (tn (nlp st3)))) as S4;
       set (st4 := set_tretlast _ st3) in *; clearbody st4;
       apply bind_ret_inv in E; destruct E as (st5 & E5 & E); cbv beta in E; injection E as <-;
       assert (S5 : shell st4 st5) by (
         destruct (0 <? nst st4);
         [apply bind_ret_inv in E5; destruct E5 as ((s & rs) & E1 & E5); cbv beta iota in E5;
          injection E5 as <-; eapply get_solution_shell; exact E1
         |injection E5 as <-; apply shell_refl]);
       pose proof (shell_trans _ _ _ S4 S5) as S6;
       pose proof (core_fields _ _ (sh_core _ _ S6)) as
        (_ & _ & _ & _ & _ & _ & _ & _ & _ & _ & _ & _ & _ & _ & _ & _ & _ & _ & D & _);
       rewrite D; split; [exact S6|]; split; [reflexivity|right; auto].
  all: injection E as <-; split; [exact (shell_trans _ _ _ El (shell_trans _ _ _ S1 S2))|].
  all: split; [exact Hms|]; split; [exact W1|]; split; [exact W2|].
  all: unfold nrm in Et; rewrite B11, C11, B10, C10, B2, C2 in Et; exact Et.
Qed.

Lemma step_failed_shell st tret e st' tret' r :
  step_failed prob st tret e = Ret (st', tret', r) ->
  shell st st' /\ r = Err e /\ (tret' = tn (nlp st) \/ tret' = tret).
Proof.
  unfold step_failed. intros E. apply bind_ret_inv in E. destruct E as ((s & rs) & E1 & E).
  cbv beta iota in E. apply get_solution_shell in E1.
  pose proof (core_fields _ _ (sh_core _ _ E1)) as
        (_ & _ & _ & _ & _ & _ & _ & _ & _ & _ & _ & _ & _ & _ & _ & _ & _ & _ & D & _).
  destruct rs; injection E as <- <- <-.
  - split; [eapply shell_trans; [exact E1|apply tretlast_shell]|]. auto.
  - auto.
Qed.

Lemma post_step_shell fuel st tout tret itask st' tret' r :
  post_step prob fuel st tout tret itask = Ret (st', tret', r) ->
  exists st1, shell st st1 /\
  ((r = Ok ContinueSteps /\ lims st1 st' /\ tret' = tret /\ itask = Normal /\
     (szero <=? (tn (nlp st1) - tout) * hh st1)%sc = false) \/
   (r <> Ok ContinueSteps /\ (shell st1 st' \/ exists st2, lims st1 st2 /\ shell st2 st'))).
Proof.
  unfold post_step. intros E. apply bind_ret_inv in E. destruct E as (x & Ex & E). cbv beta in E.
  assert (Hx : match x with
    | inl (s, t, rs) => shell st s /\ rs = Ok RootReturn
    | inr s => shell st s end).
  { destruct (0 <? nrtfn st).
    - apply bind_ret_inv in Ex. destruct Ex as ((s & ier) & E1 & Ex). cbv beta iota in Ex.
      apply r_check3_shell in E1. destruct ier; injection Ex as <-.
      + split; [|reflexivity]. eapply shell_trans; [exact E1|].
        eapply shell_trans; [apply irfnd_shell|apply tretlast_shell].
      + exact E1.
    - injection Ex as <-. apply shell_refl. }
  destruct x as [((s & t) & rs)|s].
  - destruct Hx as (Hx & ->). injection E as <- <- <-. exists st. split; [apply shell_refl|].
    right. split; [discriminate|]. left. exact Hx.
  - exists s. split; [exact Hx|]. apply stop_test2_shell in E. exact E.
Qed.

Lemma later_call_shell fuel st tout tret itask x :
  later_call prob fuel st tout tret itask = Ret x ->
  match x with
  | inl (st', tret', r) => r <> Ok ContinueSteps /\ shell st st'
  | inr (st', tret') => tret' = tret /\ exists st1, shell st st1 /\ past_tstop st1 = false /\ lims st1 st' /\
      (itask = Normal -> (szero <=? (tn (nlp st1) - tout) * hh st1)%sc = false)
  end.
Proof.
  unfold later_call. intros E. apply bind_ret_inv in E. destruct E as (y & Ey & E). cbv beta in E.
  assert (Hy : match y with
    | inl (s, t, rs) => rs <> Ok ContinueSteps /\ shell st s
    | inr s => shell st s end).
  { destruct (0 <? nrtfn st).
    - apply bind_ret_inv in Ey. destruct Ey as ((s & ier) & E1 & Ey). cbv beta iota in Ey.
      apply r_check2_shell in E1. destruct ier as [[|]|e].
      + injection Ey as <-. split; [discriminate|]. eapply shell_trans; [exact E1|apply tretlast_shell].
      + cbv zeta in Ey. destruct (_ <? _)%sc.
        * apply bind_ret_inv in Ey. destruct Ey as ((s2 & ier) & E2 & Ey). cbv beta iota in Ey.
          apply r_check3_shell in E2. pose proof (shell_trans _ _ _ E1 E2) as S2.
          destruct ier.
          -- injection Ey as <-. split; [discriminate|]. eapply shell_trans; [exact S2|].
             eapply shell_trans; [apply irfnd_shell|apply tretlast_shell].
          -- pose proof (shell_trans _ _ _ S2 (irfnd_shell s2 false)) as S3.
             set (s3 := set_irfnd false s2) in *. clearbody s3.
             destruct itask; [|destruct (irfnd st)]; try (injection Ey as <-; exact S3).
             pose proof (shell_trans _ _ _ S3 (tretlast_shell s3 (tn (nlp s3)))) as S4.
             set (s4 := set_tretlast _ s3) in *. clearbody s4.
             apply bind_ret_inv in Ey. destruct Ey as ((s5 & r5) & E5 & Ey). cbv beta iota in Ey.
             injection Ey as <-. apply get_solution_shell in E5. split; [discriminate|].
             exact (shell_trans _ _ _ S4 E5).
        * injection Ey as <-. exact E1.
      + injection Ey as <-. split; [discriminate|exact E1].
    - injection Ey as <-. apply shell_refl. }
  destruct y as [((s & t) & rs)|s].
  - injection E as <-. exact Hy.
  - apply bind_ret_inv in E. destruct E as (((s1 & t1) & r1) & E1 & E). cbv beta iota in E.
    apply stop_test1_shell in E1.
    destruct E1 as [(-> & L & -> & P & Q)|(Hne & S1)].
    + injection E as <-. split; [reflexivity|]. exists s. auto.
    + assert (Ex : x = inl (s1, t1, r1)).
      { destruct r1 as [[]|]; try congruence. }
      subst x. split; [exact Hne|]. exact (shell_trans _ _ _ Hy S1).
Qed.

End Shell.
