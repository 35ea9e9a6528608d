(** * IdaCall: one call of [solve], for every scalar *)
Require Import List Arith Bool Lia.
Import ListNotations.
Require Import Verif.Base Verif.Scalar Verif.Dense Verif.Norms Verif.Newton Verif.NewtonSpec Verif.IdaState
  Verif.IdaNls Verif.IdaCore Verif.IdaRoots Verif.IdaSolve Verif.BaseFacts Verif.NewtonFacts
  Verif.IdaFacts Verif.IdaLoops Verif.IdaStep Verif.IdaSpec Verif.IdaShell Verif.IdaReach Verif.IdaInv
  Verif.IdaCount Verif.IdaLife Verif.IdaTrace.
Open Scope nat_scope.

Section Call.
Context {T LSt NSt : Type} `{Scalar T} `{LSolver T LSt} `{NLSolver T NSt}.
Variable prob : problem T.
Variable ewt_set : list T -> list T.
Notation n := (model_size prob).
Notation nr := (num_roots prob).
Notation state := (ida T LSt NSt).
Notation answer := (state * T * result solve_status (err T))%type.
Notation tr st := (trace (lp (nlp st))).

(** ** The step loop as a relation *)
Section Loop.
Variables (rfuel : nat) (tout : T) (itask : task) (tret : T).

(** From loop head to loop head; the numbers count steps. *)
Inductive loops (st : state) : state -> nat -> Prop :=
| loops_0 : loops st st 0
| loops_S s nl s1 s2 u s' :
    loops st s nl ->
    pre_step prob ewt_set s tret nl = Ret (inr s1) ->
    step prob rfuel s1 = Ret (s2, Ok u) ->
    post_step prob rfuel s2 tout tret itask = Ret (s', tret, Ok ContinueSteps) ->
    loops st s' (nl + 1).

(** The last pass: [m] is the number of steps it completes. *)
Inductive ends (s : state) (nl : nat) : nat -> state -> T -> result solve_status (err T) -> Prop :=
| e_pre st' t r : pre_step prob ewt_set s tret nl = Ret (inl (st', t, r)) -> ends s nl 0 st' t r
| e_fail s1 s2 e st' t r :
    pre_step prob ewt_set s tret nl = Ret (inr s1) -> step prob rfuel s1 = Ret (s2, Err e) ->
    step_failed prob s2 tret e = Ret (st', t, r) -> ends s nl 0 st' t r
| e_done s1 s2 u st' t r :
    pre_step prob ewt_set s tret nl = Ret (inr s1) -> step prob rfuel s1 = Ret (s2, Ok u) ->
    post_step prob rfuel s2 tout tret itask = Ret (st', t, r) -> r <> Ok ContinueSteps ->
    ends s nl 1 st' t r.

Lemma solve_loop_run fuel (st : state) st' t r :
  solve_loop prob ewt_set fuel rfuel st tout tret itask 0 = Ret (st', t, r) ->
  exists s nl m, loops st s nl /\ ends s nl m st' t r.
Proof.
  intros E.
  refine (solve_loop_ind prob ewt_set (fun s nl t => t = tret /\ loops st s nl)
            (fun st' t r => exists s nl m, loops st s nl /\ ends s nl m st' t r)
            rfuel tout itask _ _ _ fuel st tret 0 st' t r (conj eq_refl (loops_0 st)) E).
  - intros s nl t0 s' t' r' (-> & L) Ep. exists s, nl, 0. split; [exact L|]. apply e_pre. exact Ep.
  - intros s nl t0 s1 s2 e s' t' r' (-> & L) Ep Es Ef. exists s, nl, 0. split; [exact L|].
    eapply e_fail; eassumption.
  - intros s nl t0 s1 s2 u s' t' r' (-> & L) Ep Es Ef. split.
    + intros ->. pose proof (post_step_shell _ _ _ _ _ _ _ _ _ Ef) as (s3 & _ & [(_ & _ & -> & _)|(A & _)]); [|congruence].
      split; [reflexivity|]. eapply loops_S; eassumption.
    + intros Hr. exists s, nl, 1. split; [exact L|]. eapply e_done; eassumption.
Qed.
End Loop.

(** What a call starts with. *)
Definition task_set (st : state) (tout : T) (itask : task) : state :=
  set_taskc itask (match itask with Normal => set_toutc tout st | OneStep => st end).

(** A call that reaches the step loop starts it in [s0]. *)
Definition enters (rfuel : nat) (st : state) (tout tret : T) (itask : task) (s0 : state) : Prop :=
  solve_start prob ewt_set rfuel (task_set st tout itask) tout tret itask = Ret (inr (s0, tret)).
Definition answers (rfuel : nat) (st : state) (tout tret : T) (itask : task) (a : answer) : Prop :=
  solve_start prob ewt_set rfuel (task_set st tout itask) tout tret itask = Ret (inl a).

Lemma solve_run fuel rfuel (st : state) tout tret itask st' t r :
  solve prob ewt_set fuel rfuel st tout tret itask = Ret (st', t, r) ->
  answers rfuel st tout tret itask (st', t, r) \/
  exists s0 s nl m, enters rfuel st tout tret itask s0 /\
    loops rfuel tout itask tret s0 s nl /\ ends rfuel tout itask tret s nl m st' t r.
Proof.
  rewrite solve_unfold. intros E. apply bind_ret_inv in E. destruct E as (x & Ex & E). cbv beta in E.
  fold (task_set st tout itask) in Ex. pose proof (solve_start_pieces _ _ _ _ _ _ _ _ Ex) as P.
  destruct x as [a|(s0 & t0)].
  - left. injection E as ->. exact Ex.
  - right. destruct P as (_ & _ & _ & ->). destruct (solve_loop_run _ _ _ _ _ _ _ _ _ E) as (s & nl & m & L & F).
    exists s0, s, nl, m. split; [exact Ex|]. split; assumption.
Qed.

(** ** The states at the loop head *)
(** The output time lies ahead, or the call is a first call that was accepted. *)
Definition ahead (st : state) (tout : T) (itask : task) (s : state) : Prop :=
  (nst s <> 0 /\ exists s1, pieces prob ewt_set st s1 /\ lims s1 s /\
     (itask = Normal -> (szero <=? (tn (nlp s1) - tout) * hh s1)%sc = false)) \/
  (nst s = 0 /\ exists a s1, pieces prob ewt_set st a /\ first_call prob ewt_set a tout = Ret (inr s1) /\ shell prob s1 s /\ nst a = 0).

Record head (tout : T) (itask : task) (st s : state) : Prop := mkhead {
  hd_pieces : pieces prob ewt_set st s;
  hd_lim : limited s;
  hd_fresh : fresh prob ewt_set s;
  hd_ahead : ahead st tout itask s }.

Lemma task_set_shell (st : state) tout itask : shell prob st (task_set st tout itask).
Proof. apply task_shell. Qed.

Lemma enters_head rfuel (st : state) tout tret itask s0 :
  enters rfuel st tout tret itask s0 -> head tout itask st s0.
Proof.
  unfold enters. intros E. pose proof (solve_start_pieces _ _ _ _ _ _ _ _ E) as (P & L & F & _).
  constructor; [|exact L|exact F|].
  - eapply pieces_trans; [|exact P]. apply piece1. apply p_shell. apply task_set_shell.
  - destruct (solve_start_cases _ _ _ _ _ _ _ _ E) as [(Hz & s & m & _ & Q)|[(Hz & s & l & E1 & E2 & E3 & E4 & Q)|(Hz & l & E1 & S1 & Q)]].
    + discriminate.
    + injection Q as ->. right. split; [exact E2|]. exists (task_set st tout itask), s.
      split; [apply piece1; apply p_shell; apply task_set_shell|]. auto.
    + apply later_call_shell in Q. destruct Q as (_ & s1 & S2 & _ & L1 & A). left. split.
      * rewrite (lims_nst _ _ L1), (shell_nst _ _ _ S2), (shell_nst _ _ _ S1). exact Hz.
      * exists s1. split; [|split; [exact L1|exact A]].
        apply piece1, p_shell. eapply shell_trans; [apply task_set_shell|]. eapply shell_trans; eassumption.
Qed.

Lemma head_step rfuel (st s s1 s2 : state) tout itask tret nl r :
  head tout itask st s -> pre_step prob ewt_set s tret nl = Ret (inr s1) ->
  step prob rfuel s1 = Ret (s2, r) -> pieces prob ewt_set st s2.
Proof.
  intros [P L F _] Ep Es. apply pre_step_shell in Ep. destruct Ep as (S1 & _).
  eapply pieces_snoc; [exact (pieces_shell _ _ _ _ _ P S1)|].
  eapply p_step; [| |exact Es]; [exact (shell_limited _ _ _ S1 L)|exact (shell_fresh _ _ _ _ S1 F)].
Qed.

Lemma head_loop rfuel (st s0 s : state) tout itask tret nl :
  head tout itask st s0 -> loops rfuel tout itask tret s0 s nl ->
  head tout itask st s /\ (nl <> 0 -> itask = Normal).
Proof.
  intros H0'. induction 1 as [|s nl s1 s2 u s' L (IH & _) Ep Es Ef]; [split; [exact H0'|congruence]|].
  pose proof (step_ok_nst _ _ _ _ _ Es) as Hz.
  pose proof (head_step _ _ _ _ _ _ _ _ _ _ IH Ep Es) as P.
  apply post_step_shell in Ef. destruct Ef as (s3 & S3 & [(_ & L3 & _ & A1 & A2)|(A & _)]); [|congruence].
  assert (Hz3 : nst s3 <> 0) by (rewrite (shell_nst _ _ _ S3); exact Hz).
  assert (Hz4 : nst s' <> 0) by (rewrite (lims_nst _ _ L3); exact Hz3).
  split; [|auto]. constructor.
  - eapply pieces_snoc; [exact (pieces_shell _ _ _ _ _ P S3)|]. apply p_lims; assumption.
  - exact (lims_limited _ _ L3).
  - left. exact Hz4.
  - left. split; [exact Hz4|]. exists s3.
    split; [exact (pieces_shell _ _ _ _ _ P S3)|]. auto.
Qed.

Lemma run_head rfuel (st s0 s : state) tout itask tret nl :
  enters rfuel st tout tret itask s0 -> loops rfuel tout itask tret s0 s nl -> head tout itask st s.
Proof. intros E L. eapply head_loop; [|exact L]. eapply enters_head. exact E. Qed.

(** ** Step counts *)
Hypothesis Hl : @nls_lawful T NSt _.

Lemma step_nst fuel (st st' : state) r : ordok st -> step prob fuel st = Ret (st', r) ->
  nst st' = nst st + (if r then 1 else 0) /\ cfg st' = cfg st.
Proof.
  intros O E. apply (step_spec prob Hl) in E; [|exact O].
  destruct (stepped_ord prob _ _ _ O E) as (_ & C & _ & _ & N). auto.
Qed.

Lemma pieces_ord (a b : state) : ordok a -> pieces prob ewt_set a b -> ordok b.
Proof. intros O P. eapply pieces_inv; [|exact P|exact O]. intros x y. apply piece_ord. exact Hl. Qed.

Lemma pieces_tlink c (st s : state) : config_ok c -> ordok st -> tlink prob c None st ->
  pieces prob ewt_set st s -> tlink prob c None s.
Proof.
  intros Hc O TL P. refine (proj2 (pieces_life prob ewt_set Hl (tlink prob c) st s _ _ _ _ P O TL)).
  - apply tlink_shell.
  - apply tlink_lims.
  - apply tlink_first.
  - apply tlink_in; assumption.
Qed.

Lemma shell_cfg (a b : state) : shell prob a b -> cfg b = cfg a.
Proof. intros S. pose proof (core_fields _ _ (sh_core _ _ _ S)) as (C & _). exact C. Qed.

Lemma lims_cfg (a b : state) : lims a b -> cfg b = cfg a.
Proof. intros L. apply lims_fields in L. destruct L as (h & ->). reflexivity. Qed.

Lemma mx_cfg (a b : state) : cfg b = cfg a -> mxstep b = mxstep a.
Proof. unfold cfg. congruence. Qed.

Lemma start_nst rfuel (st : state) tout tret itask s0 :
  enters rfuel st tout tret itask s0 -> nst s0 = nst st /\ cfg s0 = cfg st.
Proof.
  unfold enters. intros E.
  pose proof (task_set_shell st tout itask) as S0.
  assert (A : nst s0 = nst (task_set st tout itask) /\ cfg s0 = cfg (task_set st tout itask)).
  { destruct (solve_start_cases _ _ _ _ _ _ _ _ E) as [(Hz & s & m & _ & Q)|[(Hz & s & l & E1 & E2 & E3 & E4 & Q)|(Hz & l & E1 & S1 & Q)]].
    + discriminate.
    + injection Q as ->. split; [rewrite Hz; exact E2|].
      pose proof (first_call_frame _ _ _ _ _ E1) as (Hk & _). apply fkeep_fields in Hk.
      destruct Hk as (C & _). exact C.
    + apply later_call_shell in Q. destruct Q as (_ & s1 & S2 & _ & L1 & A).
      split; [rewrite (lims_nst _ _ L1), (shell_nst _ _ _ S2), (shell_nst _ _ _ S1); reflexivity|].
      rewrite (lims_cfg _ _ L1), (shell_cfg _ _ S2), (shell_cfg _ _ S1). reflexivity. }
  rewrite (shell_nst _ _ _ S0), (shell_cfg _ _ S0) in A. exact A.
Qed.

Lemma loops_nst rfuel (st s0 s : state) tout itask tret nl : ordok st ->
  head tout itask st s0 -> loops rfuel tout itask tret s0 s nl ->
  nst s = nst s0 + nl /\ cfg s = cfg s0 /\ (mxstep s0 = 0 \/ nl <= mxstep s0).
Proof.
  intros O H0'. induction 1 as [|s nl s1 s2 u s' L IH Ep Es Ef]; [split; [lia|split; [reflexivity|lia]]|].
  destruct IH as (I1 & I2 & I3).
  destruct (head_loop _ _ _ _ _ _ _ _ H0' L) as (Hd & _).
  pose proof (pieces_ord _ _ O (hd_pieces _ _ _ _ Hd)) as Os.
  apply pre_step_shell in Ep. destruct Ep as (S1 & M & _).
  pose proof (shell_ord _ _ _ S1 Os) as O1.
  destruct (step_nst _ _ _ _ O1 Es) as (N1 & C1).
  apply post_step_shell in Ef. destruct Ef as (s3 & S3 & [(_ & L3 & _ & A1 & A2)|(A & _)]); [|congruence].
  split; [|split].
  - rewrite (lims_nst _ _ L3), (shell_nst _ _ _ S3), N1, (shell_nst _ _ _ S1), I1. lia.
  - rewrite (lims_cfg _ _ L3), (shell_cfg _ _ S3), C1, (shell_cfg _ _ S1). exact I2.
  - rewrite (mx_cfg _ _ I2) in M. lia.
Qed.

Lemma ends_nst rfuel (st s0 s st' : state) tout itask tret nl m t r : ordok st ->
  head tout itask st s0 -> loops rfuel tout itask tret s0 s nl -> ends rfuel tout itask tret s nl m st' t r ->
  nst st' = nst s0 + nl + m /\ m <= 1 /\ (mxstep s0 = 0 \/ nl + m <= mxstep s0).
Proof.
  intros O H0' L E. destruct (loops_nst _ _ _ _ _ _ _ _ O H0' L) as (I1 & I2 & I3).
  destruct (head_loop _ _ _ _ _ _ _ _ H0' L) as (Hd & _).
  pose proof (pieces_ord _ _ O (hd_pieces _ _ _ _ Hd)) as Os.
  destruct E as [st' t r Ep|s1 s2 e st' t r Ep Es Ef|s1 s2 u st' t r Ep Es Ef Hr];
    pose proof (pre_step_shell _ _ _ _ _ _ Ep) as P1; cbn in P1.
  - destruct P1 as (S1 & _). rewrite (shell_nst _ _ _ S1). lia.
  - destruct P1 as (S1 & _). pose proof (shell_ord _ _ _ S1 Os) as O1.
    destruct (step_nst _ _ _ _ O1 Es) as (N1 & C1). apply step_failed_shell in Ef. destruct Ef as (S2 & _).
    rewrite (shell_nst _ _ _ S2), N1, (shell_nst _ _ _ S1). lia.
  - destruct P1 as (S1 & M & _). pose proof (shell_ord _ _ _ S1 Os) as O1.
    destruct (step_nst _ _ _ _ O1 Es) as (N1 & C1). rewrite (mx_cfg _ _ I2) in M.
    apply post_step_shell in Ef. destruct Ef as (s3 & S3 & [(A & _)|(_ & F)]); [congruence|].
    assert (N : nst st' = nst s3).
    { destruct F as [S4|(s4 & L4 & S4)]; rewrite (shell_nst _ _ _ S4); [|rewrite (lims_nst _ _ L4)]; reflexivity. }
    rewrite N, (shell_nst _ _ _ S3), N1, (shell_nst _ _ _ S1). lia.
Qed.

(** A call answered before any step leaves the step count alone. *)
Lemma answers_nst rfuel (st st' : state) tout tret itask t r :
  answers rfuel st tout tret itask (st', t, r) -> nst st' = nst st.
Proof.
  unfold answers. intros E. pose proof (task_set_shell st tout itask) as S0. rewrite <- (shell_nst _ _ _ S0).
  destruct (solve_start_cases _ _ _ _ _ _ _ _ E) as [(Hz & s & m & F & Q)|[(Hz & s & l & E1 & E2 & E3 & E4 & Q)|(Hz & l & E1 & S1 & Q)]].
  - injection Q as -> _ _. pose proof (first_call_frame _ _ _ _ _ F) as (Hk & _). apply fkeep_fields in Hk.
    destruct Hk as (_ & _ & _ & _ & _ & _ & Hn & _). exact Hn.
  - discriminate.
  - apply later_call_shell in Q. destruct Q as (_ & S2). rewrite (shell_nst _ _ _ S2), (shell_nst _ _ _ S1). reflexivity.
Qed.

(** ** What rootfinding leaves alone *)
Definition kept (st : state) := (outer st, (toutc st, taskc st), irfnd st).

Lemma get_solution_kept (st st' : state) t r : get_solution prob st t = Ret (st', r) -> kept st' = kept st.
Proof.
  intros E. apply get_solution_frame in E. destruct E as (_ & O & R & _). unfold kept. rewrite O.
  unfold rootst in R. congruence.
Qed.

Lemma call_root_kept (st st' : state) t y ypv g : call_root prob st t y ypv = (st', g) -> kept st' = kept st.
Proof. unfold call_root. intros E. injection E as <- _. reflexivity. Qed.

Lemma r_check2_kept (st st' : state) r : r_check2 prob st = Ret (st', r) -> kept st' = kept st.
Proof.
  unfold r_check2. destruct (negb (irfnd st)); intros E.
  { injection E as <- <-. reflexivity. }
  apply bind_ret_inv in E. destruct E as ((st1 & r1) & E1 & E). cbv beta iota in E.
  apply get_solution_kept in E1.
  destruct (call_root prob st1 (tlo st1) _ _) as (st2 & g) eqn:E2. apply call_root_kept in E2. cbv zeta in E.
  assert (K3 : kept (set_nge (nge st2 + 1) (set_glo g st2)) = kept st) by (rewrite <- E1, <- E2; reflexivity).
  set (st3 := set_nge _ _) in *. clearbody st3.
  set (irs := vtab nr _) in E. clearbody irs.
  assert (K4 : kept (set_iroots irs st3) = kept st) by exact K3.
  set (st4 := set_iroots irs st3) in *.
  match type of E with context [if existsb ?f ?l then _ else _] => destruct (existsb f l) end.
  2: { injection E as <- <-. exact K4. }
  clearbody st4.
  set (tt' := root_ttol st4) in E. assert (K5 : kept (set_ttol tt' st4) = kept st) by exact K4.
  clearbody tt'. set (st5 := set_ttol tt' st4) in *. clearbody st5.
  apply bind_ret_inv in E. destruct E as (st6 & E6 & E). cbv beta in E.
  assert (K6 : kept st6 = kept st).
  { match type of E6 with (if ?b then _ else _) = _ => destruct b end.
    - apply bind_ret_inv in E6. destruct E6 as (p1 & _ & E6). injection E6 as <-. exact K5.
    - apply bind_ret_inv in E6. destruct E6 as ((s & ?) & E6 & E7). cbv beta iota in E7.
      injection E7 as <-. apply get_solution_kept in E6. congruence. }
  destruct (call_root prob st6 _ _ _) as (st7 & g') eqn:E7. apply call_root_kept in E7.
  assert (K8 : kept (set_nge (nge st7 + 1) (set_ghi g' st7)) = kept st) by (rewrite <- K6, <- E7; reflexivity).
  set (st8 := set_nge _ _) in *. clearbody st8.
  destruct (close_scan _ _ _ _ _ _) as (((ir & gl) & cl) & zr) eqn:Ec.
  destruct cl; [|destruct zr]; injection E as <- <-; exact K8.
Qed.

Lemma root_loop_kept fuel : forall (st : state) alph sp side imax (st' : state),
  root_loop prob fuel st alph sp side imax = Ret st' -> kept st' = kept st.
Proof.
  induction fuel as [|fuel IH]; intros st alph sp side imax st' E; [discriminate|].
  cbn [root_loop] in E.
  match type of E with (if ?b then _ else _) = _ => destruct b end.
  { injection E as <-. reflexivity. }
  cbv zeta in E.
  apply bind_ret_inv in E. destruct E as (ghm & _ & E). cbv beta in E.
  apply bind_ret_inv in E. destruct E as (glm & _ & E). cbv beta in E.
  set (tmid := next_tmid _ _ _ _ _ _) in E. clearbody tmid.
  apply bind_ret_inv in E. destruct E as ((st1 & r1) & E1 & E). cbv beta iota in E.
  apply get_solution_kept in E1.
  destruct (call_root prob st1 _ _ _) as (st2 & g) eqn:E2. apply call_root_kept in E2.
  assert (K3 : kept (set_nge (nge st2 + 1) (set_grout g st2)) = kept st) by (rewrite <- E1, <- E2; reflexivity).
  set (st3 := set_nge _ _) in *. clearbody st3.
  destruct (scan2 prob _ _ _ _ _) as (((zr & sg) & mf) & im).
  assert (K4 : kept (set_ghi (grout st3) (set_thi tmid st3)) = kept st) by exact K3.
  assert (K5 : kept (set_glo (grout st3) (set_tlo tmid st3)) = kept st) by exact K3.
  set (st4 := set_ghi _ _) in *. set (st5 := set_glo _ _) in *. clearbody st4 st5.
  destruct sg.
  - match type of E with (if ?b then _ else _) = _ => destruct b end.
    + injection E as <-. assumption.
    + apply IH in E. congruence.
  - destruct zr.
    + injection E as <-. assumption.
    + match type of E with (if ?b then _ else _) = _ => destruct b end.
      * injection E as <-. assumption.
      * apply IH in E. congruence.
Qed.

Lemma root_find_kept fuel (st st' : state) r : root_find prob fuel st = Ret (st', r) -> kept st' = kept st.
Proof.
  unfold root_find. destruct (scan1 prob _ _ _ _) as (((zr & sg) & mf) & im). destruct (negb sg).
  - cbv zeta. destruct (negb zr); intros E; injection E as <- <-; reflexivity.
  - intros E. apply bind_ret_inv in E. destruct E as (s & E1 & E). apply root_loop_kept in E1.
    cbv zeta beta in E. injection E as <- <-. exact E1.
Qed.

Lemma r_check3_kept fuel (st st' : state) r : r_check3 prob fuel st = Ret (st', r) -> kept st' = kept st.
Proof.
  unfold r_check3. cbv zeta. set (hi := match taskc st with Normal => _ | OneStep => _ end). clearbody hi.
  assert (K1 : kept (set_thi hi st) = kept st) by reflexivity. set (st1 := set_thi hi st) in *. clearbody st1.
  intros E. apply bind_ret_inv in E. destruct E as ((st2 & r2) & E2 & E). cbv beta iota in E.
  apply get_solution_kept in E2.
  destruct (call_root prob st2 _ _ _) as (st3 & g) eqn:E3. apply call_root_kept in E3.
  assert (K4 : kept (set_nge (nge st3 + 1) (set_ghi g st3)) = kept st) by (rewrite <- K1, <- E2, <- E3; reflexivity).
  set (st4 := set_nge _ _) in *. clearbody st4.
  set (tt' := root_ttol st4) in E. assert (K5 : kept (set_ttol tt' st4) = kept st) by exact K4.
  set (st5 := set_ttol tt' st4) in *. clearbody st5.
  apply bind_ret_inv in E. destruct E as ((st6 & ier) & E6 & E). cbv beta iota zeta in E.
  apply root_find_kept in E6.
  set (ga := vtab nr _) in E. clearbody ga.
  assert (K8 : kept (set_glo (grout (set_gactive ga st6)) (set_tlo (trout (set_gactive ga st6)) (set_gactive ga st6))) = kept st)
    by (rewrite <- K5, <- E6; reflexivity).
  set (st8 := set_glo _ _) in *. clearbody st8.
  destruct ier.
  - apply bind_ret_inv in E. destruct E as ((st9 & r9) & E9 & E). cbv beta iota in E.
    injection E as <- <-. apply get_solution_kept in E9. congruence.
  - injection E as <- <-. exact K8.
Qed.

Lemma kept_outer (a b : state) : kept a = kept b -> outer a = outer b.
Proof. unfold kept. congruence. Qed.

Lemma outer_fields (a b : state) : outer a = outer b ->
  tstop a = tstop b /\ tretlast a = tretlast b /\ setup_done a = setup_done b.
Proof. unfold outer. intros E. injection E; auto. Qed.

(** ** The two stages around a step *)
Definition on_stop (s' : state) (t : T) (r : result solve_status (err T)) : answer + state * T :=
  match r with Ok ContinueSteps => inr (s', t) | _ => inl (s', t, r) end.

Lemma later_call_cases rfuel (st : state) tout tret itask x :
  later_call prob rfuel st tout tret itask = Ret x ->
  (nrtfn st <> 0 /\ exists s e, r_check2 prob st = Ret (s, Err e) /\ x = inl (s, tret, Err e)) \/
  (nrtfn st <> 0 /\ exists s, shell prob st s /\ outer s = outer st /\
     x = inl (set_tretlast (tlo s) s, tlo s, Ok RootReturn)) \/
  (nrtfn st <> 0 /\ itask = OneStep /\ irfnd st = true /\
     (root_ttol st <? sabs (tn (nlp st) - tretlast st))%sc = true /\
     exists s s' r, shell prob st s /\ get_solution prob (set_tretlast (tn (nlp s)) s) (tn (nlp s)) = Ret (s', r) /\
     x = inl (s', tn (nlp s'), Ok Success)) \/
  (exists s s' t r, shell prob st s /\ outer s = outer st /\ (nrtfn st = 0 -> s = st) /\
     stop_test1 prob s tout tret itask = Ret (s', t, r) /\ x = on_stop s' t r).
Proof.
  unfold later_call. intros E. apply bind_ret_inv in E. destruct E as (y & Ey & E). cbv beta in E.
  assert (F : forall s, shell prob st s -> outer s = outer st -> (nrtfn st = 0 -> s = st) ->
     (let* (st0, tret0, istate) := stop_test1 prob s tout tret itask in
      match istate with Ok ContinueSteps => Ret (inr (st0, tret0)) | _ => Ret (inl (st0, tret0, istate)) end) = Ret x ->
     exists s s' t r, shell prob st s /\ outer s = outer st /\ (nrtfn st = 0 -> s = st) /\
     stop_test1 prob s tout tret itask = Ret (s', t, r) /\ x = on_stop s' t r).
  { intros s Ss Os Is G. apply bind_ret_inv in G. destruct G as (((s' & t) & r) & G1 & G). cbv beta iota in G.
    exists s, s', t, r. split; [exact Ss|]. split; [exact Os|]. split; [exact Is|]. split; [exact G1|].
    unfold on_stop. destruct r as [[]|]; injection G as <-; reflexivity. }
  destruct (Nat.ltb_spec 0 (nrtfn st)) as [Hn|Hn].
  2: { injection Ey as <-. right. right. right. apply (F st); auto. apply shell_refl. }
  assert (Hz : nrtfn st <> 0) by lia.
  apply bind_ret_inv in Ey. destruct Ey as ((s1 & r1) & E1 & Ey). cbv beta iota in Ey.
  pose proof (r_check2_shell prob st s1 r1 E1) as S1. pose proof (r_check2_kept _ _ _ E1) as K1.
  pose proof (kept_outer _ _ K1) as O1.
  destruct r1 as [[|]|e].
  - injection Ey as <-. injection E as <-. right. left. split; [exact Hz|]. exists s1. auto.
  - match type of Ey with (if ?b then _ else _) = _ => destruct b eqn:Eb end.
    2: { injection Ey as <-. right. right. right. apply (F s1); auto. intros; contradiction. }
    apply bind_ret_inv in Ey. destruct Ey as ((s2 & r2) & E2 & Ey). cbv beta iota in Ey.
    pose proof (r_check3_shell prob _ _ _ _ E2) as S2. pose proof (r_check3_kept _ _ _ _ E2) as K2.
    pose proof (kept_outer _ _ K2) as O2.
    assert (S3 : shell prob st (set_irfnd false s2)).
    { eapply shell_trans; [exact S1|]. eapply shell_trans; [exact S2|]. apply irfnd_shell. }
    assert (S4 : shell prob st (set_irfnd true s2)).
    { eapply shell_trans; [exact S1|]. eapply shell_trans; [exact S2|]. apply irfnd_shell. }
    assert (O3 : outer s2 = outer st) by congruence.
    destruct r2.
    + injection Ey as <-. injection E as <-. right. left. split; [exact Hz|].
      exists (set_irfnd true s2). split; [exact S4|]. split; [exact O3|]. reflexivity.
    + destruct itask; [|destruct (irfnd st) eqn:Ei].
      * injection Ey as <-. right. right. right. apply (F (set_irfnd false s2)); auto. intros; contradiction.
      * apply bind_ret_inv in Ey. destruct Ey as ((s3 & r3) & E3 & Ey). cbv beta iota in Ey.
        injection Ey as <-. injection E as <-. right. right. left. split; [exact Hz|]. split; [reflexivity|]. split; [reflexivity|].
        assert (Eb' : (root_ttol st <? sabs (tn (nlp st) - tretlast st))%sc = true).
        { rewrite <- Eb. pose proof (core_fields _ _ (sh_core _ _ _ S1)) as C.
          destruct C as (_ & _ & _ & _ & _ & _ & _ & _ & _ & _ & _ & _ & C1 & _ & _ & _ & _ & _ & C2 & _).
          destruct (outer_fields _ _ O1) as (_ & O5 & _). unfold root_ttol. rewrite C1, C2, O5. reflexivity. }
        split; [exact Eb'|]. exists (set_irfnd false s2), s3, r3. split; [exact S3|]. split; [exact E3|]. reflexivity.
      * injection Ey as <-. right. right. right. apply (F (set_irfnd false s2)); auto. intros; contradiction.
  - injection Ey as <-. injection E as <-. left. split; [exact Hz|]. exists s1, e. auto.
Qed.

Lemma post_step_cases rfuel (st : state) tout tret itask st' t r :
  post_step prob rfuel st tout tret itask = Ret (st', t, r) ->
  (nrtfn st <> 0 /\ exists s, shell prob st s /\ outer s = outer st /\
     st' = set_tretlast (tlo s) s /\ t = tlo s /\ r = Ok RootReturn) \/
  (exists s, shell prob st s /\ outer s = outer st /\ (nrtfn st = 0 -> s = st) /\
     stop_test2 prob s tout tret itask = Ret (st', t, r)).
Proof.
  unfold post_step. intros E. apply bind_ret_inv in E. destruct E as (y & Ey & E). cbv beta in E.
  destruct (Nat.ltb_spec 0 (nrtfn st)) as [Hn|Hn].
  2: { injection Ey as <-. right. exists st. split; [apply shell_refl|]. auto. }
  assert (Hz : nrtfn st <> 0) by lia.
  apply bind_ret_inv in Ey. destruct Ey as ((s2 & r2) & E2 & Ey). cbv beta iota in Ey.
  pose proof (r_check3_shell prob _ _ _ _ E2) as S2. pose proof (r_check3_kept _ _ _ _ E2) as K2.
  pose proof (kept_outer _ _ K2) as O2.
  destruct r2; injection Ey as <-.
  - injection E as <- <- <-. left. split; [exact Hz|]. exists (set_irfnd true s2).
    split; [eapply shell_trans; [exact S2|]; apply irfnd_shell|]. split; [exact O2|]. auto.
  - right. exists s2. split; [exact S2|]. split; [exact O2|]. split; [intros; contradiction|exact E].
Qed.

(** ** The stop tests *)
Lemma gs_tn (st st' : state) t r : get_solution prob st t = Ret (st', r) ->
  tn (nlp st') = tn (nlp st) /\ tretlast st' = tretlast st /\ tstop st' = tstop st.
Proof.
  intros E. apply get_solution_frame in E. destruct E as (_ & O & _ & _ & N).
  destruct (outer_fields _ _ O) as (A & B & _). split; [|auto]. unfold nlprest in N. injection N; auto.
Qed.

Lemma stop_test1_success (st : state) tout tret itask st' t :
  stop_test1 prob st tout tret itask = Ret (st', t, Ok Success) ->
  past_tstop st = false /\
  ((itask = Normal /\ t = tout /\ tretlast st' = tout /\
    (((tout =? tretlast st)%sc = true /\ st' = set_tretlast tout st) \/
     ((tout =? tretlast st)%sc = false /\ (szero <=? (tn (nlp st) - tout) * hh st)%sc = true /\
      exists s, get_solution prob st tout = Ret (s, Ok tt) /\ st' = set_tretlast tout s))) \/
   (itask = OneStep /\ t = tn (nlp st') /\ tretlast st' = tn (nlp st') /\
    (szero <? (tn (nlp st) - tretlast st) * hh st)%sc = true /\
    exists s r, get_solution prob st (tn (nlp st)) = Ret (s, r) /\ st' = set_tretlast (tn (nlp s)) s)).
Proof.
  unfold stop_test1. fold (past_tstop st). destruct (past_tstop st) eqn:Ep.
  { intros E. exfalso. unfold past_tstop in Ep. destruct (tstop st); discriminate. }
  intros E. split; [reflexivity|].
  assert (E' : match itask with
    | Normal =>
      if (tout =? tretlast st)%sc then Ret (set_tretlast tout st, tout, Ok Success)
      else if (szero <=? (tn (nlp st) - tout) * hh st)%sc then
        let* (st, r) := get_solution prob st tout in
        match r with Err e => Ret (st, tret, Err e) | Ok _ => Ret (set_tretlast tout st, tout, Ok Success) end
      else Ret (st, tret, Ok ContinueSteps)
    | OneStep =>
      if (szero <? (tn (nlp st) - tretlast st) * hh st)%sc then
        let* (st, _) := get_solution prob st (tn (nlp st)) in
        Ret (set_tretlast (tn (nlp st)) st, tn (nlp st), Ok Success)
      else Ret (st, tret, Ok ContinueSteps)
    end = Ret (st', t, Ok Success)).
  { destruct itask.
    - destruct (tout =? tretlast st)%sc; [exact E|]. destruct (szero <=? _)%sc; [exact E|].
      destruct (tstop st) as [ts|]; [|exact E]. destruct (at_tstop st ts); [|discriminate].
      minv; try discriminate.
    - destruct (szero <? _)%sc; [exact E|].
      destruct (tstop st) as [ts|]; [|exact E]. destruct (at_tstop st ts); [|discriminate].
      minv; try discriminate. }
  clear E. destruct itask.
  - left. split; [reflexivity|]. destruct (tout =? tretlast st)%sc eqn:Et.
    + injection E' as <- <-. auto.
    + destruct (szero <=? _)%sc eqn:Ez; [|discriminate].
      apply bind_ret_inv in E'. destruct E' as ((s & r) & E1 & E'). cbv beta iota in E'.
      destruct r as [[]|]; [|discriminate]. injection E' as <- <-. split; [reflexivity|]. split; [reflexivity|].
      right. split; [reflexivity|]. split; [reflexivity|]. exists s. auto.
  - right. split; [reflexivity|]. destruct (szero <? _)%sc eqn:Ez; [|discriminate].
    apply bind_ret_inv in E'. destruct E' as ((s & r) & E1 & E'). cbv beta iota in E'.
    injection E' as <- <-. split; [reflexivity|]. split; [reflexivity|]. split; [reflexivity|]. exists s, r. auto.
Qed.

Lemma stop_test2_success (st : state) tout tret itask st' t :
  stop_test2 prob st tout tret itask = Ret (st', t, Ok Success) ->
  (itask = Normal /\ t = tout /\ tretlast st' = tout /\
   (szero <=? (tn (nlp st) - tout) * hh st)%sc = true /\
   exists r, get_solution prob (set_tretlast tout st) tout = Ret (st', r)) \/
  (itask = OneStep /\ t = tn (nlp st') /\ tretlast st' = tn (nlp st') /\
   exists s, lims st s /\ st' = set_tretlast (tn (nlp s)) s).
Proof.
  unfold stop_test2. destruct itask; intros E.
  - left. split; [reflexivity|]. destruct (szero <=? _)%sc eqn:Ez.
    + cbv zeta in E. apply bind_ret_inv in E. destruct E as ((s & r) & E1 & E). cbv beta iota in E.
      injection E as <- <-. destruct (gs_tn _ _ _ _ E1) as (_ & A & _).
      split; [reflexivity|]. split; [exact A|]. split; [reflexivity|]. eauto.
    + apply bind_ret_inv in E. destruct E as (x & Ex & E). apply stop2_tstop_shell in Ex.
      destruct x as [((s & t') & r)|s]; [|discriminate]. destruct Ex as (_ & ->). discriminate.
  - right. split; [reflexivity|]. apply bind_ret_inv in E. destruct E as (x & Ex & E). apply stop2_tstop_shell in Ex.
    destruct x as [((s & t') & r)|s].
    + destruct Ex as (_ & ->). discriminate.
    + injection E as <- <-. split; [reflexivity|]. split; [reflexivity|]. eauto.
Qed.

Lemma stop_test1_tstop (st : state) tout tret itask st' t :
  stop_test1 prob st tout tret itask = Ret (st', t, Ok TStop) ->
  exists ts s, tstop st = Some ts /\ t = ts /\ past_tstop st = false /\ at_tstop st ts = true /\
    get_solution prob st ts = Ret (s, Ok tt) /\
    st' = match itask with Normal => set_tstop None (set_tretlast ts s) | OneStep => set_tretlast ts s end.
Proof.
  unfold stop_test1. fold (past_tstop st). destruct (past_tstop st) eqn:Ep.
  { intros E. exfalso. unfold past_tstop in Ep. destruct (tstop st); discriminate. }
  destruct (tstop st) as [ts|] eqn:Et.
  - intros E. exists ts.
    assert (E' : at_tstop st ts = true /\ exists s, get_solution prob st ts = Ret (s, Ok tt) /\
       (st', t) = (match itask with Normal => set_tstop None (set_tretlast ts s) | OneStep => set_tretlast ts s end, ts)).
    { destruct itask.
      - destruct (tout =? tretlast st)%sc; [discriminate|]. destruct (szero <=? _)%sc.
        { minv; discriminate. }
        destruct (at_tstop st ts); [|discriminate]. split; [reflexivity|].
        apply bind_ret_inv in E. destruct E as ((s & r) & E1 & E). cbv beta iota in E.
        destruct r as [[]|]; [|discriminate]. injection E as <- <-. eauto.
      - destruct (szero <? _)%sc.
        { minv; discriminate. }
        destruct (at_tstop st ts); [|discriminate]. split; [reflexivity|].
        apply bind_ret_inv in E. destruct E as ((s & r) & E1 & E). cbv beta iota in E.
        destruct r as [[]|]; [|discriminate]. injection E as <- <-. eauto. }
    destruct E' as (A & s & B & C). injection C as -> ->. exists s. auto 10.
  - intros E. exfalso. destruct itask.
    + destruct (tout =? tretlast st)%sc; [discriminate|]. destruct (szero <=? _)%sc; [|discriminate]. minv; discriminate.
    + destruct (szero <? _)%sc; [|discriminate]. minv; discriminate.
Qed.

Lemma stop2_tstop_cases (st : state) x : stop2_tstop prob st = Ret x ->
  match x with
  | inl (st', t, r) => r = Ok TStop /\ exists ts s r', tstop st = Some ts /\ t = ts /\ at_tstop st ts = true /\
      get_solution prob st ts = Ret (s, r') /\ st' = set_tstop None (set_tretlast ts s)
  | inr st' => lims st st'
  end.
Proof.
  intros E. pose proof (stop2_tstop_shell prob _ _ E) as S. revert E. unfold stop2_tstop.
  destruct (tstop st) as [ts|] eqn:Et; [|intros E; injection E as <-; exact S].
  destruct (at_tstop st ts) eqn:Ea; intros E; [|injection E as <-; exact S].
  apply bind_ret_inv in E. destruct E as ((s & r) & E1 & E). cbv beta iota in E. injection E as <-.
  split; [reflexivity|]. exists ts, s, r. auto 6.
Qed.

Lemma stop_test2_tstop (st : state) tout tret itask st' t :
  stop_test2 prob st tout tret itask = Ret (st', t, Ok TStop) ->
  exists ts s r, tstop st = Some ts /\ t = ts /\ at_tstop st ts = true /\
    get_solution prob st ts = Ret (s, r) /\ st' = set_tstop None (set_tretlast ts s).
Proof.
  unfold stop_test2. destruct itask; intros E.
  - destruct (szero <=? _)%sc eqn:Ez.
    + minv; discriminate.
    + apply bind_ret_inv in E. destruct E as (x & Ex & E). apply stop2_tstop_cases in Ex.
      destruct x as [((s & t') & r)|s]; [|discriminate]. injection E as -> -> ->. apply Ex.
  - apply bind_ret_inv in E. destruct E as (x & Ex & E). apply stop2_tstop_cases in Ex.
    destruct x as [((s & t') & r)|s]; [|discriminate]. injection E as -> -> ->. apply Ex.
Qed.

(** ** The checks before a step *)
(** The weights used by the next step, and the check on them. *)
Definition next_w (st : state) : list T := if nst st =? 0 then ewt (nlp st) else ewt_set (row (phi st) 0).
Definition next_norm (st : state) : T := wrms_norm (idv st) (row (phi st) 0) (next_w st) (suppressalg st).

Lemma pre_step_cases (st : state) tret nl x : pre_step prob ewt_set st tret nl = Ret x ->
  (0 < mxstep st <= nl /\
     x = inl (set_tretlast (tn (nlp st)) st, tn (nlp st), Err (EIda (IllegalIn TooMuchWork)))) \/
  ((mxstep st = 0 \/ nl < mxstep st) /\
   ((nst st <> 0 /\ existsb (fun x => (x <=? szero)%sc) (next_w st) = true /\
      exists s, shell prob st s /\ tretlast s = tn (nlp st) /\ x = inl (s, tn (nlp st), Err (EIda (IllegalIn EwtBad)))) \/
    ((nst st <> 0 -> existsb (fun x => (x <=? szero)%sc) (next_w st) = false) /\
     ((sone <? seps * next_norm st)%sc = true /\
       (exists s, shell prob st s /\ tolsf s = (seps * next_norm st * sten)%sc /\ tretlast s = tn (nlp st) /\
          x = inl (s, tn (nlp st), Err (EIda (TooMuchAccuracy (tn (nlp st)))))) \/
      (sone <? seps * next_norm st)%sc = false /\
       exists s, shell prob st s /\ ewt (nlp s) = next_w st /\ x = inr s)))).
Proof.
  intros E. pose proof (pre_step_shell _ _ _ _ _ _ E) as Sh. unfold pre_step in E.
  destruct ((0 <? mxstep st) && (mxstep st <=? nl)) eqn:Em.
  { left. injection E as <-. apply andb_true_iff in Em. destruct Em as (E1 & E2).
    apply Nat.ltb_lt in E1. apply Nat.leb_le in E2. auto. }
  right. split.
  { apply andb_false_iff in Em. destruct Em as [Em|Em]; [apply Nat.ltb_ge in Em|apply Nat.leb_gt in Em]; lia. }
  apply bind_ret_inv in E. destruct E as (l & El & E). cbv beta in E.
  apply bind_ret_inv in E. destruct E as (r & Er & E). cbv beta in E.
  change (nst (on_lp (fun _ => l) st)) with (nst st) in Er.
  unfold next_norm, next_w. destruct (Nat.ltb_spec 0 (nst st)) as [Hz|Hz].
  - replace (nst st =? 0) with false by (symmetry; apply Nat.eqb_neq; lia).
    apply bind_ret_inv in Er. destruct Er as (p0 & Ep & Er). cbv beta in Er.
    change (phi (on_lp (fun _ => l) st)) with (phi st) in Ep.
    apply aget_inv in Ep. destruct Ep as (Hlen & Ep). specialize (Ep []). fold (row (phi st) 0) in Ep.
    set (s1 := on_nlp (set_ewt (ewt_set p0)) (on_lp (fun _ => l) st)) in Er.
    assert (W : ewt (nlp s1) = ewt_set (row (phi st) 0)) by (rewrite Ep; reflexivity).
    assert (F : idv s1 = idv st /\ phi s1 = phi st /\ suppressalg s1 = suppressalg st /\ tn (nlp s1) = tn (nlp st) /\ nst s1 = nst st) by (repeat split).
    clearbody s1. rewrite W in Er.
    destruct (existsb _ _) eqn:Ex in Er.
    + left. split; [lia|]. split; [exact Ex|].
      apply bind_ret_inv in Er. destruct Er as ((s2 & r2) & E2 & Er). cbv beta iota in Er. injection Er as <-.
      injection E as <-. cbv iota in Sh. destruct Sh as (Sh & St & _).
      pose proof (gs_tn _ _ _ _ E2) as (Q & _).
      eexists. split; [exact Sh|]. split; [change (tn (nlp s2) = tn (nlp st)); destruct F as (_ & _ & _ & F & _); congruence|].
      rewrite <- St. reflexivity.
    + right. split; [intros _; exact Ex|]. injection Er as <-.
      apply bind_ret_inv in E. destruct E as (q0 & Eq & E). cbv beta in E.
      destruct F as (F1 & F2 & F3 & F4 & F5). rewrite F2 in Eq. apply aget_inv in Eq. destruct Eq as (_ & Eq). specialize (Eq []).
      fold (row (phi st) 0) in Eq. rewrite F1, F3, W, <- Eq in E. cbv zeta in E.
      set (nrm := wrms_norm (idv st) (row (phi st) 0) (ewt_set (row (phi st) 0)) (suppressalg st)) in *.
      change (tolsf (set_tolsf (seps * nrm)%sc s1)) with (seps * nrm)%sc in E.
      destruct (sone <? seps * nrm)%sc eqn:Et.
      * left. split; [reflexivity|]. apply bind_ret_inv in E. destruct E as (s3 & E3 & E). cbv beta in E. injection E as <-.
        cbv iota in Sh. destruct Sh as (Sh & St & _).
        assert (Hts : tolsf s3 = (seps * nrm * sten)%sc /\ tretlast s3 = tn (nlp st)).
        { destruct (0 <? _) in E3.
          - apply bind_ret_inv in E3. destruct E3 as ((s4 & r4) & E4 & E3). cbv beta iota in E3. injection E3 as <-.
            destruct (get_solution_frame _ _ _ _ _ E4) as (_ & O & _). unfold outer in O.
            split; [transitivity (tolsf (set_tretlast (tn (nlp (set_tolsf (seps * nrm * sten)%sc (set_tolsf (seps * nrm)%sc s1)))) (set_tolsf (seps * nrm * sten)%sc (set_tolsf (seps * nrm)%sc s1)))); [congruence|reflexivity]|].
            transitivity (tretlast (set_tretlast (tn (nlp (set_tolsf (seps * nrm * sten)%sc (set_tolsf (seps * nrm)%sc s1)))) (set_tolsf (seps * nrm * sten)%sc (set_tolsf (seps * nrm)%sc s1)))); [congruence|exact F4].
          - injection E3 as <-. split; [reflexivity|exact F4]. }
        exists s3. split; [exact Sh|]. split; [apply Hts|]. split; [apply Hts|]. rewrite St. reflexivity.
      * right. split; [reflexivity|]. injection E as <-. cbv iota in Sh. destruct Sh as (Sh & _).
        eexists. split; [exact Sh|]. split; [exact W|reflexivity].
  - replace (nst st =? 0) with true by (symmetry; apply Nat.eqb_eq; lia).
    right. split; [intros; lia|]. injection Er as <-.
    apply bind_ret_inv in E. destruct E as (q0 & Eq & E). cbv beta in E.
    change (phi (on_lp (fun _ => l) st)) with (phi st) in Eq.
    apply aget_inv in Eq. destruct Eq as (_ & Eq). specialize (Eq []).
    fold (row (phi st) 0) in Eq. rewrite <- Eq in E. cbv zeta in E.
    assert (F : idv (on_lp (fun _ => l) st) = idv st /\ suppressalg (on_lp (fun _ => l) st) = suppressalg st /\
       ewt (nlp (on_lp (fun _ => l) st)) = ewt (nlp st) /\ tn (nlp (on_lp (fun _ => l) st)) = tn (nlp st) /\
       nst (on_lp (fun _ => l) st) = nst st) by (repeat split).
    destruct F as (F1 & F2 & F3 & F4 & F5). rewrite F1, F2, F3 in E.
    set (s1 := on_lp (fun _ => l) st) in *. clearbody s1.
    set (nrm := wrms_norm (idv st) (row (phi st) 0) (ewt (nlp st)) (suppressalg st)) in *.
    change (tolsf (set_tolsf (seps * nrm)%sc s1)) with (seps * nrm)%sc in E.
    destruct (sone <? seps * nrm)%sc eqn:Et.
    + left. split; [reflexivity|]. apply bind_ret_inv in E. destruct E as (s3 & E3 & E). cbv beta in E. injection E as <-.
      cbv iota in Sh. destruct Sh as (Sh & St & _).
      match type of E3 with context [0 <? nst ?s] => change (nst s) with (nst s1) in E3 end.
      replace (0 <? nst s1) with false in E3 by (symmetry; apply Nat.ltb_ge; lia). injection E3 as <-.
      eexists. split; [exact Sh|]. split; [reflexivity|]. split; [exact F4|]. rewrite St. reflexivity.
    + right. split; [reflexivity|]. injection E as <-. cbv iota in Sh. destruct Sh as (Sh & _).
      eexists. split; [exact Sh|]. split; [exact F3|reflexivity].
Qed.

(** ** The first attempt of a call *)

Lemma tries_first t0 (st0 sta : state) nef :
  arrays st0 -> 1 <= kk st0 <= maxord st0 -> maxord st0 <= 5 -> tries prob t0 st0 sta nef ->
  sta = st0 \/ exists new, tr sta = new ++ CTry (tn (nlp st0)) (hh st0) (kk st0) :: tr st0.
Proof.
  intros Ha Hk Hm. induction 1 as [|st nef st1 ck ek ek1 st' Ht IH Et Htr Hn Hrt]; [left; reflexivity|]. right.
  destruct (tries_ord prob _ _ _ _ Ha Hk Ht) as (B1 & B2 & _).
  assert (Hat : attempted prob st st1 (Err (EIda TestFail))).
  { eapply (try_step_calls prob Hl); [exact B1|lia|exact Et]. }
  destruct Hat as (evs & E & _). rewrite (rt_nlp _ _ _ _ _ Hrt). cbn [lp set_tn]. rewrite E.
  destruct IH as [->|(new & ->)].
  - exists (fails (Err (EIda TestFail)) ++ evs). rewrite <- app_assoc. reflexivity.
  - exists (fails (Err (EIda TestFail)) ++ evs ++ CTry (tn (nlp st)) (hh st) (kk st) :: new).
    rewrite <- !app_assoc. cbn [app]. reflexivity.
Qed.

Lemma step_first fuel (st st' : state) r : ordok st -> step prob fuel st = Ret (st', r) ->
  exists new, tr st' = new ++ CTry (tn (nlp st)) (hh st) (kk (st_init st)) :: begin_ev st :: tr st.
Proof.
  intros Ho E. pose proof (step_spec prob Hl _ _ _ _ Ho E) as (sta & nef & st1 & ck & ek & ek1 & r1 & Ht & Et & Htr & Hc).
  destruct (tries_start prob _ _ _ Ho Ht) as (B1 & B2 & _).
  pose proof (init_kk st Ho) as Hk. pose proof (instep_init st Ho) as Hi. pose proof (is_max _ Hi) as Hm.
  pose proof (is_kk _ Hi) as Hk'.
  destruct (init_fields st) as (_ & _ & _ & _ & _ & _ & F7 & _ & _ & _ & F11 & _ & _ & F14 & _ & _ & _ & _ & F19 & _).
  pose proof (tries_first _ _ _ _ (is_arr _ Hi) Hk' Hm Ht) as Hf.
  rewrite F7, F14, F19 in Hf.
  assert (Hat : attempted prob sta st1 r1).
  { eapply (try_step_calls prob Hl); [exact B1|lia|exact Et]. }
  destruct Hat as (evs & Ea & _).
  assert (X : exists new, tr st1 = new ++ CTry (tn (nlp st)) (hh st) (kk (st_init st)) :: begin_ev st :: tr st).
  { rewrite Ea. destruct Hf as [->|(new & ->)].
    - rewrite F7, F14, F19. exists (fails r1 ++ evs). rewrite <- app_assoc. reflexivity.
    - exists (fails r1 ++ evs ++ CTry (tn (nlp sta)) (hh sta) (kk sta) :: new). rewrite <- !app_assoc. reflexivity. }
  destruct X as (new & X). destruct Hc as [(-> & -> & st2 & Hcp & ->)|(e & -> & Hg & _)].
  - exists (CStep (tn (nlp st2)) (yy (nlp st2)) :: new). change (tr (st_commit prob ck st2)) with
      (CStep (tn (nlp st2)) (yy (nlp st2)) :: tr st2). rewrite (cp_nlp _ _ _ Hcp), X. reflexivity.
  - exists new. rewrite (gu_nlp _ _ _ _ Hg). exact X.
Qed.

(** [x] is a later state of a call whose step loop was entered in [s0] before
    any step was completed. *)
Definition opened (s0 x : state) : Prop :=
  h0u x = h0u s0 /\ nst x <> 0 /\
  exists new mid, tr x = new ++ CTry (tn (nlp s0)) (hh s0) 1 :: mid ++ tr s0 /\ existsb is_try mid = false.

Lemma quiet_no_try (evs : list (event T)) : Forall (fun e => is_root e || is_warn e = true) evs -> existsb is_try evs = false.
Proof. induction 1 as [|e l He _ IH]; [reflexivity|]. cbn. rewrite IH. destruct e; cbn in *; congruence. Qed.

Lemma shell_trace (a b : state) : shell prob a b ->
  exists evs, tr b = evs ++ tr a /\ existsb is_try evs = false /\ h0u b = h0u a /\ nst b = nst a /\ hh b = hh a /\ tn (nlp b) = tn (nlp a).
Proof.
  intros Sh. destruct (shell_ext prob _ _ Sh) as (evs & (E & _) & Q & _).
  exists evs. split; [exact E|]. split; [apply quiet_no_try; exact Q|].
  pose proof (sh_core _ _ _ Sh) as C1. unfold core in C1. pinj. auto.
Qed.

Lemma step_h0u fuel (st st' : state) r : ordok st -> step prob fuel st = Ret (st', r) -> h0u st' = h0u st.
Proof.
  intros Ho E. pose proof (step_spec prob Hl _ _ _ _ Ho E) as Hs.
  destruct (stepped_ord prob _ _ _ Ho Hs) as (_ & _ & O1 & _). unfold outer in O1. congruence.
Qed.

(** A step from a state before any step. *)
Lemma step_opens fuel (s0 s1 s2 : state) r : ordok s1 -> shell prob s0 s1 -> nst s0 = 0 ->
  step prob fuel s1 = Ret (s2, r) ->
  h0u s2 = h0u s0 /\ exists new mid, tr s2 = new ++ CTry (tn (nlp s0)) (hh s0) 1 :: mid ++ tr s0 /\ existsb is_try mid = false.
Proof.
  intros Ho Sh Hz E. destruct (shell_trace _ _ Sh) as (evs & T1 & T2 & T3 & T4 & T5 & T6).
  split; [rewrite (step_h0u _ _ _ _ Ho E); exact T3|].
  destruct (step_first _ _ _ _ Ho E) as (new & Es). exists new, (begin_ev s1 :: evs).
  pose proof (is_zero _ (instep_init s1 Ho)) as Hk.
  destruct (init_fields s1) as (_ & _ & _ & _ & _ & _ & _ & F8 & _). rewrite F8 in Hk.
  destruct (Hk ltac:(congruence)) as (Hk1 & _).
  rewrite Es, T1, T5, T6, Hk1. split; [reflexivity|]. cbn. exact T2.
Qed.

Lemma opened_ext (s0 a b : state) evs : opened s0 a -> tr b = evs ++ tr a -> h0u b = h0u a -> nst b <> 0 -> opened s0 b.
Proof.
  intros (P1 & P2 & new & mid & P3 & P4) E1 E2 E3. split; [congruence|]. split; [exact E3|].
  exists (evs ++ new), mid. rewrite E1, P3, <- app_assoc. auto.
Qed.

Lemma post_opened rfuel (s0 s2 s' : state) tout tret itask t r : opened s0 s2 ->
  post_step prob rfuel s2 tout tret itask = Ret (s', t, r) -> opened s0 s'.
Proof.
  intros Op E. destruct (post_step_shell _ _ _ _ _ _ _ _ _ E) as (x & Sx & Q).
  assert (Ox : opened s0 x).
  { destruct (shell_trace _ _ Sx) as (evs & T1 & _ & T3 & T4 & _). eapply opened_ext; eauto. destruct Op as (_ & ? & _). congruence. }
  assert (Ol : forall y, lims x y -> opened s0 y).
  { intros y Ly. destruct (lims_fields _ _ Ly) as (h & ->). eapply (opened_ext _ x _ []); auto. apply Ox. }
  assert (Os : forall y z, opened s0 y -> shell prob y z -> opened s0 z).
  { intros y z Oy Sy. destruct (shell_trace _ _ Sy) as (evs & T1 & _ & T3 & T4 & _). eapply opened_ext; eauto. destruct Oy as (_ & ? & _). congruence. }
  destruct Q as [(_ & L & _)|(_ & [S2|(y & L & S2)])]; eauto.
Qed.

Lemma loops_opened rfuel (st s0 s : state) tout itask tret nl : ordok st ->
  head tout itask st s0 -> nst s0 = 0 -> loops rfuel tout itask tret s0 s nl -> s = s0 \/ opened s0 s.
Proof.
  intros Ho Hd Hz. induction 1 as [|s nl s1 s2 u s' Lo IH Ep Es Ef]; [left; reflexivity|]. right.
  pose proof (pre_step_shell _ _ _ _ _ _ Ep) as (S1 & _).
  destruct (head_loop _ _ _ _ _ _ _ _ Hd Lo) as (Hd2 & _).
  assert (O1 : ordok s1).
  { apply (shell_ord prob _ _ S1). exact (pieces_ord _ _ Ho (hd_pieces _ _ _ _ Hd2)). }
  assert (O2 : opened s0 s2).
  { pose proof (step_ok_nst _ _ _ _ _ Es) as Hz2. destruct IH as [->|Op].
    - destruct (step_opens _ _ _ _ _ O1 S1 Hz Es) as (A & B). split; [exact A|]. split; [exact Hz2|exact B].
    - destruct (shell_trace _ _ S1) as (evs & T1 & _ & T3 & T4 & _).
      destruct (step_first _ _ _ _ O1 Es) as (new & E2). pose proof (step_h0u _ _ _ _ O1 Es) as E3.
      eapply (opened_ext _ s _ (new ++ CTry (tn (nlp s1)) (hh s1) (kk (st_init s1)) :: begin_ev s1 :: evs)); [exact Op| |congruence|exact Hz2].
      rewrite E2, T1, <- app_assoc. reflexivity. }
  eapply post_opened; eassumption.
Qed.

(** Splitting a list at its last attempt. *)
Lemma try_split (l1 l2 p1 p2 : list (event T)) t h k t' h' k' :
  l1 ++ CTry t h k :: p1 = l2 ++ CTry t' h' k' :: p2 -> existsb is_try p1 = false -> existsb is_try p2 = false ->
  t = t' /\ h = h' /\ k = k' /\ p1 = p2.
Proof.
  revert l2. induction l1 as [|a l1 IH]; intros l2 E N1 N2; destruct l2 as [|b l2]; cbn in E.
  - injection E as -> -> -> ->. auto.
  - injection E as <- E. exfalso. rewrite E in N1. rewrite existsb_app in N1. cbn in N1. rewrite orb_true_r in N1. discriminate.
  - injection E as -> E. exfalso. rewrite <- E in N2. rewrite existsb_app in N2. cbn in N2. rewrite orb_true_r in N2. discriminate.
  - injection E as _ E. eauto.
Qed.

(** The first attempt of a call on an object without completed steps. *)
Lemma first_attempt fuel rfuel (st : state) tout tret itask st' t r new past t1 h1 k1 : ordok st -> nst st = 0 ->
  solve prob ewt_set fuel rfuel st tout tret itask = Ret (st', t, r) ->
  tr st' = new ++ CTry t1 h1 k1 :: past ++ tr st -> existsb is_try past = false -> existsb is_try (tr st) = false ->
  exists s, first_call prob ewt_set (task_set st tout itask) tout = Ret (inr s) /\
    t1 = tn (nlp s) /\ h1 = hh s /\ k1 = 1 /\ h0u st' = hh s.
Proof.
  intros Ho Hz E Etr Np Nst. 
  assert (Np' : existsb is_try (past ++ tr st) = false) by (rewrite existsb_app, Np; exact Nst).
  assert (Nt : existsb is_try (tr st') = true).
  { rewrite Etr, existsb_app. cbn. apply orb_true_r. }
  pose proof (task_set_shell st tout itask) as S0.
  assert (Hz0 : nst (task_set st tout itask) = 0) by (rewrite (shell_nst _ _ _ S0); exact Hz).
  assert (T0 : tr (task_set st tout itask) = tr st) by (destruct itask; reflexivity).
  destruct (solve_run _ _ _ _ _ _ _ _ _ E) as [A|(s0 & s & nl & m & En & Lo & F)].
  - exfalso. unfold answers in A.
    destruct (solve_start_cases _ _ _ _ _ _ _ _ A) as [(_ & s & m & X & Q)|[(_ & s & l & E1 & E2 & E3 & E4 & Q)|(Hn & _)]];
      [|discriminate|congruence].
    injection Q as <- _ _. apply first_ext in X. destruct X as (evs & (X & _) & Q).
    rewrite X, T0, existsb_app, Nst, orb_false_r in Nt. rewrite quiet_no_try in Nt; [discriminate|].
    eapply Forall_impl; [|exact Q]. cbn. intros a ->. reflexivity.
  - pose proof (enters_head _ _ _ _ _ _ En) as Hd. unfold enters in En.
    destruct (solve_start_cases _ _ _ _ _ _ _ _ En) as [(_ & x & m' & X & Q)|[(_ & x & l & E1 & E2 & E3 & E4 & Q)|(Hn & _)]];
      [discriminate| |congruence].
    exists x. split; [exact E1|]. injection Q as Q.
    destruct (shell_trace _ _ E4) as (evs & T1 & T2 & T3 & T4 & T5 & T6). rewrite <- Q in T1, T3, T4, T5, T6.
    pose proof (first_call_frame _ _ _ _ _ E1) as Fr. cbv zeta iota in Fr.
    destruct Fr as (_ & _ & _ & _ & _ & _ & _ & Fh & _ & _ & evs1 & Ft & Fq & _). 
    assert (N0 : existsb is_try (tr s0) = false).
    { rewrite T1, Ft, T0, !existsb_app, T2, Nst, orb_false_r. apply quiet_no_try.
      eapply Forall_impl; [|exact Fq]. cbn. intros a ->. reflexivity. }
    assert (Hz' : nst s0 = 0) by congruence.
    assert (K : h0u st' = h0u s0 /\ (tr st' = tr s0 \/ exists new mid, tr st' = new ++ CTry (tn (nlp s0)) (hh s0) 1 :: mid ++ tr s0 /\ existsb is_try mid = false)).
    { destruct (head_loop _ _ _ _ _ _ _ _ Hd Lo) as (Hd2 & _).
      pose proof (pieces_ord _ _ Ho (hd_pieces _ _ _ _ Hd2)) as Os.
      pose proof (loops_opened _ _ _ _ _ _ _ _ Ho Hd Hz' Lo) as Op.
      assert (Sx : forall z y : state, shell prob z y -> (h0u z = h0u s0 /\ exists new mid, tr z = new ++ CTry (tn (nlp s0)) (hh s0) 1 :: mid ++ tr s0 /\ existsb is_try mid = false) ->
        h0u y = h0u s0 /\ exists new mid, tr y = new ++ CTry (tn (nlp s0)) (hh s0) 1 :: mid ++ tr s0 /\ existsb is_try mid = false).
      { intros z y Sy (A & nw & md & B & D). destruct (shell_trace _ _ Sy) as (ev & U1 & _ & U3 & _). split; [congruence|].
        exists (ev ++ nw), md. rewrite U1, B, <- app_assoc. auto. }
      assert (Hstep : forall s1 s2 r2, shell prob s s1 -> step prob rfuel s1 = Ret (s2, r2) ->
         h0u s2 = h0u s0 /\ exists new mid, tr s2 = new ++ CTry (tn (nlp s0)) (hh s0) 1 :: mid ++ tr s0 /\ existsb is_try mid = false).
      { intros s1 s2 r2 S1 Ez. pose proof (shell_ord prob _ _ S1 Os) as O1. destruct Op as [->|Op].
        - exact (step_opens _ _ _ _ _ O1 S1 Hz' Ez).
        - destruct (Sx _ _ S1) as (A & nw & md & B & D); [destruct Op as (? & _ & ?); auto|].
          destruct (step_first _ _ _ _ O1 Ez) as (nw2 & Ey). pose proof (step_h0u _ _ _ _ O1 Ez) as E4'.
          split; [congruence|]. exists (nw2 ++ CTry (tn (nlp s1)) (hh s1) (kk (st_init s1)) :: begin_ev s1 :: nw), md.
          rewrite Ey, B, <- app_assoc. auto. }
      destruct F as [st' t r Ep|s1 s2 e st' t r Ep Es Ef|s1 s2 u st' t r Ep Es Ef Hr2].
      - apply pre_step_shell in Ep. destruct Ep as (S1 & _). destruct Op as [->|Op].
        + destruct (shell_trace _ _ S1) as (ev & U1 & U2 & U3 & _). exfalso. rewrite U1, existsb_app, U2, N0 in Nt. discriminate.
        + destruct (Sx _ _ S1) as (A & B); [destruct Op as (? & _ & ?); auto|]. auto.
      - apply pre_step_shell in Ep. destruct Ep as (S1 & _). apply step_failed_shell in Ef. destruct Ef as (S2 & _).
        destruct (Sx _ _ S2 (Hstep _ _ _ S1 Es)) as (A & B). auto.
      - apply pre_step_shell in Ep. destruct Ep as (S1 & _). destruct (Hstep _ _ _ S1 Es) as (A & B).
        assert (Op2 : opened s0 s2) by (split; [exact A|]; split; [exact (step_ok_nst _ _ _ _ _ Es)|exact B]).
        destruct (post_opened _ _ _ _ _ _ _ _ _ Op2 Ef) as (A' & _ & B'). auto. }
    destruct K as (Kh & [K|(nw & md & K & Nm)]); [rewrite K in Nt; congruence|].
    rewrite K in Etr. 
    assert (Nm' : existsb is_try (md ++ tr s0) = false) by (rewrite existsb_app, Nm; exact N0).
    destruct (try_split _ _ _ _ _ _ _ _ _ _ Etr Nm' Np') as (<- & <- & <- & _). repeat split; congruence.
Qed.

End Call.
