(** * NewtonFacts: executions of the Newton model follow the grammar *)
Require Import List Arith Bool Lia.
Import ListNotations.
Require Import Verif.Base Verif.Scalar Verif.Norms Verif.Newton Verif.BaseFacts Verif.NewtonSpec.

Section Facts.
Context {T : Type} `{Scalar T} {S : Type}.
Variable P : nlproblem T S.
Variable dim : nat.

Lemma vneg_is_neg (f : list T) : is_neg dim f (vneg dim f).
Proof.
  split; [apply vtab_length|]. intros i Hi. unfold vneg. rewrite nth_vtab by exact Hi. reflexivity.
Qed.
Lemma vadd_is_sum (a b : list T) : is_sum dim a b (vadd dim a b).
Proof.
  split; [apply vtab_length|]. intros i Hi. unfold vadd. rewrite nth_vtab by exact Hi. reflexivity.
Qed.
Hint Resolve vneg_is_neg vadd_is_sum : core.

Lemma inner_loop_run fuel : forall w tol n s tr y n' s' tr' y' r,
  inner_loop (traced P) dim fuel w tol n (s, tr) y = Ret (n', (s', tr'), y', r) ->
  exists es,
    tr' = tr ++ es /\
    iterating dim (nw_maxiters n) w tol (nw_curiter n) y (nw_delta n) es y' r /\
    nw_maxiters n' = nw_maxiters n /\
    nw_jcur n' = (is_err r && nw_jcur n) /\
    nw_niters n' = nw_niters n + count is_solve es /\
    nw_nconvfails n' = nw_nconvfails n /\
    (nw_curiter n' <= Nat.max (nw_curiter n + 1) (nw_maxiters n)).
Proof.
  induction fuel as [|fuel IH]; intros w tol n s tr y n' s' tr' y' r E; [discriminate|].
  cbn [inner_loop] in E. cbn in E.
  destruct (np_solve P s y (vneg dim (nw_delta n))) as [((s1 & d) & r1)| |] eqn:E1; try discriminate.
  cbn in E. destruct r1 as [[]|e1].
  2:{ injection E as <- <- <- <- <-. eexists; split; [reflexivity|]. cbn.
      repeat split; auto; try lia. constructor; auto. }
  destruct (np_ctest P s1 (nw_curiter n) (vadd dim y d) d tol w) as [(s2 & r2)| |] eqn:E2; try discriminate.
  cbn in E. destruct r2 as [[|]|e2].
  - injection E as <- <- <- <- <-. eexists; split; [rewrite <- app_assoc; reflexivity|]. cbn.
    repeat split; auto; try lia. constructor; auto.
  - destruct (nw_maxiters n <=? nw_curiter n + 1) eqn:El.
    + apply Nat.leb_le in El. injection E as <- <- <- <- <-.
      eexists; split; [rewrite <- app_assoc; reflexivity|]. cbn.
      repeat split; auto; try lia. constructor; auto.
    + apply Nat.leb_gt in El.
      destruct (np_sys P s2 (vadd dim y d)) as [((s3 & f3) & r3)| |] eqn:E3; try discriminate.
      cbn in E. destruct r3 as [[]|e3].
      * apply IH in E. cbn in E. destruct E as (es & -> & Hit & Hm & Hj & Hn & Hc & Hcur).
        eexists; split; [rewrite <- !app_assoc; reflexivity|]. cbn.
        split.
        -- destruct r as [u|e]; cbn in *; econstructor; eauto.
        -- repeat split; auto; try lia. unfold count in *. cbn. lia.
      * injection E as <- <- <- <- <-.
        eexists; split; [rewrite <- !app_assoc; reflexivity|]. cbn.
        repeat split; auto; try lia. constructor; auto.
  - injection E as <- <- <- <- <-. eexists; split; [rewrite <- app_assoc; reflexivity|]. cbn.
    repeat split; auto; try lia. constructor; auto.
Qed.

Lemma attempt_run y0 w tol call jbad n s tr y n' s' tr' y' r :
  attempt (traced P) dim y0 w tol call jbad n (s, tr) y = Ret (n', (s', tr'), y', r) ->
  exists es,
    tr' = tr ++ es /\
    one_attempt dim (nw_maxiters n) y0 w tol call jbad (nw_jcur n) y es (nw_jcur n') y' r /\
    nw_maxiters n' = nw_maxiters n /\
    nw_niters n' = nw_niters n + count is_solve es /\
    nw_nconvfails n' = nw_nconvfails n /\
    nw_curiter n' <= Nat.max (nw_curiter n) (Nat.max 1 (nw_maxiters n)).
Proof.
  unfold attempt. cbn -[inner_loop]. intros E.
  destruct (np_sys P s y0) as [((s1 & d) & r1)| |] eqn:E1; try discriminate.
  cbn -[inner_loop] in E. destruct r1 as [[]|e1].
  2:{ injection E as <- <- <- <- <-. eexists; split; [reflexivity|]. cbn.
      repeat split; auto; try lia. constructor. }
  destruct call.
  - cbn -[inner_loop] in E. destruct (np_setup P s1 y0 d jbad) as [(s2 & r2)| |] eqn:E2; try discriminate.
    cbn -[inner_loop] in E. destruct r2 as [j|e2].
    + apply inner_loop_run in E. cbn in E.
      destruct E as (es & -> & Hit & Hm & Hj & Hn & Hc & Hcur).
      exists (EvSys y0 d (Ok tt) :: [EvSetup y0 d jbad (Ok j)] ++ es). rewrite <- !app_assoc. split; [reflexivity|].
      split; [rewrite Hj; apply Att_iter; auto|]. cbn. unfold count in *. cbn.
      repeat split; auto; try lia.
    + injection E as <- <- <- <- <-. eexists; split; [rewrite <- app_assoc; reflexivity|]. cbn.
      repeat split; auto; try lia. constructor; auto.
  - cbn [bind] in E. apply inner_loop_run in E. cbn in E.
    destruct E as (es & -> & Hit & Hm & Hj & Hn & Hc & Hcur).
    exists (EvSys y0 d (Ok tt) :: [] ++ es). rewrite <- !app_assoc. split; [reflexivity|].
    split; [rewrite Hj; apply Att_iter; auto|]. cbn. unfold count in *. cbn.
    repeat split; auto; try lia.
Qed.

Lemma count_app {A} (p : A -> bool) l1 l2 : count p (l1 ++ l2) = count p l1 + count p l2.
Proof. unfold count. rewrite filter_app, app_length. reflexivity. Qed.

Lemma outer_loop_run fuel : forall y0 w tol call jbad n s tr y n' s' tr' y' r,
  outer_loop (traced P) dim fuel y0 w tol call jbad n (s, tr) y = Ret (n', (s', tr'), y', r) ->
  exists es k,
    tr' = tr ++ es /\
    newton_run dim (nw_maxiters n) y0 w tol call jbad (nw_jcur n) y es k (nw_jcur n') y' r /\
    nw_maxiters n' = nw_maxiters n /\
    nw_niters n' = nw_niters n + count is_solve es /\
    nw_nconvfails n' = nw_nconvfails n + k + (if is_err r then 1 else 0) /\
    nw_curiter n' <= Nat.max (nw_curiter n) (Nat.max 1 (nw_maxiters n)).
Proof.
  induction fuel as [|fuel IH]; intros y0 w tol call jbad n s tr y n' s' tr' y' r E; [discriminate|].
  cbn [outer_loop] in E.
  destruct (attempt (traced P) dim y0 w tol call jbad n (s, tr) y)
    as [(((n1 & (s1 & tr1)) & y1) & r1)| |] eqn:E1; try discriminate.
  cbn [bind] in E. apply attempt_run in E1. destruct E1 as (es1 & -> & Ha & Hm & Hn & Hc & Hcur).
  destruct r1 as [[]|e1].
  - injection E as <- <- <- <- <-. exists es1, 0. split; [reflexivity|].
    split; [apply Run_done; [exact Ha | discriminate]|]. cbn. repeat split; auto; lia.
  - destruct e1.
    1,3,4: injection E as <- <- <- <- <-; exists es1, 0; split; [reflexivity|];
      split; [apply Run_done; [exact Ha | congruence]|]; cbn; repeat split; auto; lia.
    destruct (nw_jcur n1) eqn:Ej; cbn [negb] in E.
    + apply IH in E. destruct E as (es2 & k & -> & Hr & Hm2 & Hn2 & Hc2 & Hcur2).
      exists (es1 ++ es2), k. rewrite app_assoc. split; [reflexivity|].
      rewrite Ej, Hm in Hr. split; [eapply Run_current; eauto|].
      rewrite count_app. rewrite Hm in *. repeat split; auto; try lia.
    + apply IH in E. cbn -[Nat.max] in E. destruct E as (es2 & k & -> & Hr & Hm2 & Hn2 & Hc2 & Hcur2).
      exists (es1 ++ es2), (Datatypes.S k). rewrite app_assoc. split; [reflexivity|].
      rewrite Ej, Hm in Hr. split; [eapply Run_stale; eauto|].
      rewrite count_app. rewrite Hm in *. repeat split; auto; try lia.
Qed.

(** ** The log is a ghost: traced and untraced executions agree *)
Definition untrace {A B C} (o : outcome (A * (S * list (nlevent T)) * B * C)) : outcome (A * S * B * C) :=
  match o with
  | Ret (a, (s, _), b, c) => Ret (a, s, b, c)
  | Panic => Panic
  | Diverge => Diverge
  end.

Lemma inner_loop_untrace fuel : forall w tol n s tr y,
  untrace (inner_loop (traced P) dim fuel w tol n (s, tr) y) = inner_loop P dim fuel w tol n s y.
Proof.
  induction fuel as [|fuel IH]; intros w tol n s tr y; [reflexivity|].
  cbn [inner_loop]. cbn.
  destruct (np_solve P s y (vneg dim (nw_delta n))) as [((s1 & d) & [[]|e1])| |]; cbn; auto.
  destruct (np_ctest P s1 (nw_curiter n) (vadd dim y d) d tol w) as [(s2 & [[|]|e2])| |]; cbn; auto.
  destruct (nw_maxiters n <=? nw_curiter n + 1); cbn; auto.
  destruct (np_sys P s2 (vadd dim y d)) as [((s3 & f3) & [[]|e3])| |]; cbn; auto.
Qed.

Lemma attempt_untrace y0 w tol call jbad n s tr y :
  untrace (attempt (traced P) dim y0 w tol call jbad n (s, tr) y)
  = attempt P dim y0 w tol call jbad n s y.
Proof.
  unfold attempt. cbn -[inner_loop].
  destruct (np_sys P s y0) as [((s1 & d) & [[]|e1])| |]; cbn -[inner_loop]; auto.
  destruct call; cbn -[inner_loop].
  - destruct (np_setup P s1 y0 d jbad) as [(s2 & [j|e2])| |]; cbn -[inner_loop]; auto using inner_loop_untrace.
  - apply inner_loop_untrace.
Qed.

Lemma outer_loop_untrace fuel : forall y0 w tol call jbad n s tr y,
  untrace (outer_loop (traced P) dim fuel y0 w tol call jbad n (s, tr) y)
  = outer_loop P dim fuel y0 w tol call jbad n s y.
Proof.
  induction fuel as [|fuel IH]; intros y0 w tol call jbad n s tr y; [reflexivity|].
  cbn [outer_loop]. rewrite <- (attempt_untrace y0 w tol call jbad n s tr y).
  destruct (attempt (traced P) dim y0 w tol call jbad n (s, tr) y)
    as [(((n1 & (s1 & tr1)) & y1) & [[]|e1])| |]; cbn; auto.
  destruct e1; cbn; auto. destruct (nw_jcur n1); cbn; apply IH.
Qed.

Lemma newton_untrace fuel n s tr y0 y w tol call :
  untrace (newton_solve (traced P) dim fuel n (s, tr) y0 y w tol call)
  = newton_solve P dim fuel n s y0 y w tol call.
Proof. apply outer_loop_untrace. Qed.

(** Every returning execution has a log that follows the grammar. *)
Lemma newton_solve_run fuel n s y0 y w tol call n' s' y' r :
  newton_solve P dim fuel n s y0 y w tol call = Ret (n', s', y', r) ->
  exists es k,
    newton_solve (traced P) dim fuel n (s, []) y0 y w tol call = Ret (n', (s', es), y', r) /\
    newton_run dim (nw_maxiters n) y0 w tol call false (nw_jcur n) y es k (nw_jcur n') y' r /\
    nw_maxiters n' = nw_maxiters n /\
    nw_niters n' = nw_niters n + count is_solve es /\
    nw_nconvfails n' = nw_nconvfails n + k + (if is_err r then 1 else 0) /\
    nw_curiter n' <= Nat.max (nw_curiter n) (Nat.max 1 (nw_maxiters n)).
Proof.
  intros E. rewrite <- (newton_untrace fuel n s [] y0 y w tol call) in E.
  destruct (newton_solve (traced P) dim fuel n (s, []) y0 y w tol call)
    as [(((n1 & (s1 & es)) & y1) & r1)| |] eqn:Et; try discriminate.
  cbn in E. injection E as -> -> -> ->.
  destruct (outer_loop_run fuel _ _ _ _ _ _ _ _ _ _ _ _ _ _ Et) as (es' & k & Ees & Hr & Hrest).
  cbn in Ees. subst es'. exists es, k. auto.
Qed.

(** ** Termination of a single attempt *)
Definition callbacks_return : Prop :=
  (forall s y, exists x, np_sys P s y = Ret x) /\
  (forall s y f j, exists x, np_setup P s y f j = Ret x) /\
  (forall s y b, exists x, np_solve P s y b = Ret x) /\
  (forall s i y d tol w, exists x, np_ctest P s i y d tol w = Ret x).

Lemma inner_loop_returns (Hcb : callbacks_return) fuel : forall w tol n s y,
  nw_maxiters n < fuel + nw_curiter n -> 0 < fuel ->
  exists x, inner_loop P dim fuel w tol n s y = Ret x.
Proof.
  destruct Hcb as (H1 & H2 & H3 & H4).
  induction fuel as [|fuel IH]; intros w tol n s y Hf Hf0; [lia|].
  cbn [inner_loop]. cbn.
  destruct (H3 s y (vneg dim (nw_delta n))) as (((s1 & d) & [[]|e1]) & ->); cbn; eauto.
  destruct (H4 s1 (nw_curiter n) (vadd dim y d) d tol w) as ((s2 & [[|]|e2]) & ->); cbn; eauto.
  destruct (nw_maxiters n <=? nw_curiter n + 1) eqn:El; cbn; eauto. apply Nat.leb_gt in El.
  destruct (H1 s2 (vadd dim y d)) as (((s3 & f3) & [[]|e3]) & ->); cbn; eauto.
  apply IH; cbn; lia.
Qed.

Lemma attempt_returns (Hcb : callbacks_return) y0 w tol call jbad n s y :
  exists x, attempt P dim y0 w tol call jbad n s y = Ret x.
Proof.
  assert (Hcb' := Hcb). destruct Hcb' as (H1 & H2 & H3 & H4). unfold attempt.
  destruct (H1 s y0) as (((s1 & d) & [[]|e1]) & ->); cbn [bind]; eauto.
  destruct call.
  - destruct (H2 s1 y0 d jbad) as ((s2 & [j|e2]) & E2).
    + cbn [nw_delta set_delta]. rewrite E2. cbn [bind]. apply inner_loop_returns; auto; cbn; lia.
    + cbn [nw_delta set_delta]. rewrite E2. cbn [bind]. eauto.
  - cbn [bind]. apply inner_loop_returns; auto; cbn; lia.
Qed.

End Facts.

(** ** Consequences of the grammar *)
Section Grammar.
Context {T : Type} `{Scalar T}.
Variables (dim maxit : nat) (y0 w : list T) (tol : T).

Lemma converging_solves c y f es y' :
  converging dim maxit w tol c y f es y' -> count is_solve es <= Nat.max 1 (maxit - c).
Proof. induction 1; unfold count in *; cbn -[Nat.max Nat.sub] in *; lia. Qed.
Lemma failing_solves c y f es y' e :
  failing dim maxit w tol c y f es y' e -> count is_solve es <= Nat.max 1 (maxit - c).
Proof. induction 1; unfold count in *; cbn -[Nat.max Nat.sub] in *; lia. Qed.

Lemma attempt_solves call jbad j0 yin es j1 y' r :
  one_attempt dim maxit y0 w tol call jbad j0 yin es j1 y' r ->
  count is_solve es <= Nat.max 1 maxit.
Proof.
  intros [f e | f e Hc | f su j es' y'' r' Hsu Hit]; [unfold count; cbn -[Nat.max]; lia | unfold count; cbn -[Nat.max]; lia |].
  assert (count is_solve es' <= Nat.max 1 (maxit - 0)).
  { destruct r'; cbn in Hit; [eapply converging_solves | eapply failing_solves]; eauto. }
  unfold count in *. destruct call; [subst su | destruct Hsu; subst su]; cbn -[Nat.max Nat.sub] in *; lia.
Qed.

Lemma attempt_starts call jbad j0 yin es j1 y' r :
  one_attempt dim maxit y0 w tol call jbad j0 yin es j1 y' r ->
  exists f r0 rest, es = EvSys y0 f r0 :: rest.
Proof. intros []; eauto. Qed.

(** Index given to the convergence test. *)
Definition test_index_lt (b : nat) (e : nlevent T) : Prop :=
  match e with EvCtest it _ _ _ _ _ => it < b | _ => True end.

Lemma iterating_test_index c y f es y' r :
  iterating dim maxit w tol c y f es y' r -> Forall (test_index_lt (Nat.max (c + 1) maxit)) es.
Proof.
  assert (Hmono : forall a b es, a <= b -> Forall (test_index_lt a) es -> Forall (test_index_lt b) es).
  { intros a b l Hab. apply Forall_impl. intros [] Ht; cbn in *; auto; lia. }
  destruct r; cbn; induction 1; repeat constructor; cbn; try lia;
    (eapply Hmono; [|eassumption]; lia).
Qed.

Lemma run_test_index call jbad j0 yin es k j1 y' r :
  newton_run dim maxit y0 w tol call jbad j0 yin es k j1 y' r ->
  Forall (test_index_lt (Nat.max 1 maxit)) es.
Proof.
  assert (Ha : forall call jbad j0 yin es j1 y' r,
     one_attempt dim maxit y0 w tol call jbad j0 yin es j1 y' r -> Forall (test_index_lt (Nat.max 1 maxit)) es).
  { intros call' jbad' j0' yin' es' j1' y'' r'.
    intros [f e | f e Hc | f su j es1 y1 r1 Hsu Hit]; repeat constructor.
    apply Forall_app. split; [destruct call'; [subst su | destruct Hsu; subst su]; repeat constructor|].
    apply iterating_test_index in Hit. exact Hit. }
  induction 1; [eauto | apply Forall_app; split; eauto | apply Forall_app; split; eauto].
Qed.

(** The log is a concatenation of attempts. *)
Lemma run_attempts call jbad j0 yin es k j1 y' r :
  newton_run dim maxit y0 w tol call jbad j0 yin es k j1 y' r ->
  exists atts, es = concat atts /\ k < length atts /\
    Forall (fun a => (exists f r0 rest, a = EvSys y0 f r0 :: rest) /\
                     count is_solve a <= Nat.max 1 maxit) atts.
Proof.
  induction 1 as [call jbad j0 yin es j1 y' r Ha Hne
                 |call jbad j0 yin es1 y1 es2 k j2 y' r Ha Hr (atts & -> & Hl & Hf)
                 |call jbad j0 yin es1 y1 es2 k j2 y' r Ha Hr (atts & -> & Hl & Hf)].
  - exists [es]. cbn. rewrite app_nil_r. split; [reflexivity|]. split; [lia|].
    repeat constructor; [eapply attempt_starts | eapply attempt_solves]; eauto.
  - exists (es1 :: atts). cbn. split; [reflexivity|]. split; [lia|].
    constructor; auto. split; [eapply attempt_starts | eapply attempt_solves]; eauto.
  - exists (es1 :: atts). cbn. split; [reflexivity|]. split; [lia|].
    constructor; auto. split; [eapply attempt_starts | eapply attempt_solves]; eauto.
Qed.

(** Success: the shape of the last attempt. *)
Lemma run_ok call jbad j0 yin es k j1 y' :
  newton_run dim maxit y0 w tol call jbad j0 yin es k j1 y' (Ok tt) ->
  exists pre f0 su last,
    es = pre ++ EvSys y0 f0 (Ok tt) :: su ++ last /\
    (su = [] \/ exists jb j, su = [EvSetup y0 f0 jb (Ok j)]) /\
    converging dim maxit w tol 0 y0 f0 last y'.
Proof.
  remember (Ok tt) as r eqn:Er. induction 1 as [call jbad j0 yin es j1 y' r Ha Hne
                 |call jbad j0 yin es1 y1 es2 k j2 y' r Ha Hr IH
                 |call jbad j0 yin es1 y1 es2 k j2 y' r Ha Hr IH]; subst r.
  - inversion Ha; subst. exists [], f, su, es0. split; [reflexivity|]. split; auto.
    destruct call; [right; eauto | left; tauto].
  - destruct IH as (pre & f0 & su & last & -> & Hrest); auto.
    exists (es1 ++ pre), f0, su, last. rewrite <- app_assoc. auto.
  - destruct IH as (pre & f0 & su & last & -> & Hrest); auto.
    exists (es1 ++ pre), f0, su, last. rewrite <- app_assoc. auto.
Qed.

(** A solve never ends in [ConvergenceRecover]. *)
Lemma run_not_recover call jbad j0 yin es k j1 y' r :
  newton_run dim maxit y0 w tol call jbad j0 yin es k j1 y' r -> r <> Err ConvergenceRecover.
Proof. induction 1; auto. Qed.

(** Set-up calls of one attempt. *)
Lemma attempt_setups call jbad j0 yin es j1 y' r :
  one_attempt dim maxit y0 w tol call jbad j0 yin es j1 y' r ->
  (call = false -> count is_setup es = 0) /\
  (call = true ->
     (exists f e, es = [EvSys y0 f (Err e)]) \/
     count is_setup es = 1 /\ exists f rs rest, es = EvSys y0 f (Ok tt) :: EvSetup y0 f jbad rs :: rest).
Proof.
  assert (Hc : forall c y f es y', converging dim maxit w tol c y f es y' -> count is_setup es = 0)
    by (induction 1; unfold count in *; cbn; auto).
  assert (Hf : forall c y f es y' e, failing dim maxit w tol c y f es y' e -> count is_setup es = 0)
    by (induction 1; unfold count in *; cbn; auto).
  intros [f e | f e -> | f su j es' y'' r' Hsu Hit].
  - split; [reflexivity|]. eauto.
  - split; [discriminate|]. intros _. right. split; [reflexivity|]. eauto.
  - assert (H0 : count is_setup es' = 0) by (destruct r'; cbn in Hit; eauto).
    unfold count in *. split; intros ->; cbn in Hsu.
    + destruct Hsu as (-> & _). exact H0.
    + subst su. right. cbn. rewrite H0. split; [reflexivity|]. eauto.
Qed.
End Grammar.

(** ** Invariants of the problem are preserved by the solver *)
Section Preserve.
Context {T : Type} `{Scalar T} {S : Type}.
Variable P : nlproblem T S.
Variable dim : nat.
Variable Q : S -> Prop.

Definition preserves : Prop :=
  (forall s y s' f r, Q s -> np_sys P s y = Ret (s', f, r) -> Q s') /\
  (forall s y f j s' r, Q s -> np_setup P s y f j = Ret (s', r) -> Q s') /\
  (forall s y b s' x r, Q s -> np_solve P s y b = Ret (s', x, r) -> Q s') /\
  (forall s i y d tol w s' r, Q s -> np_ctest P s i y d tol w = Ret (s', r) -> Q s').
Hypothesis HQ : preserves.

Lemma inner_loop_preserves fuel : forall w tol n s y n' s' y' r,
  Q s -> inner_loop P dim fuel w tol n s y = Ret (n', s', y', r) -> Q s'.
Proof.
  destruct HQ as (H1 & H2 & H3 & H4).
  induction fuel as [|fuel IH]; intros w tol n s y n' s' y' r Hs E; [discriminate|].
  cbn [inner_loop] in E. cbn in E.
  destruct (np_solve P s y (vneg dim (nw_delta n))) as [((s1 & d) & r1)| |] eqn:E1; try discriminate.
  apply (H3 _ _ _ _ _ _ Hs) in E1.
  cbn in E. destruct r1 as [[]|e1]; [|congruence].
  destruct (np_ctest P s1 (nw_curiter n) (vadd dim y d) d tol w) as [(s2 & r2)| |] eqn:E2; try discriminate.
  apply (H4 _ _ _ _ _ _ _ _ E1) in E2.
  cbn in E. destruct r2 as [[|]|e2]; [congruence| |congruence].
  destruct (nw_maxiters n <=? nw_curiter n + 1) eqn:El; [congruence|].
  destruct (np_sys P s2 (vadd dim y d)) as [((s3 & f3) & r3)| |] eqn:E3; try discriminate.
  apply (H1 _ _ _ _ _ E2) in E3.
  cbn in E. destruct r3 as [[]|e3]; [eauto|congruence].
Qed.

Lemma attempt_preserves y0 w tol call jbad n s y n' s' y' r :
  Q s -> attempt P dim y0 w tol call jbad n s y = Ret (n', s', y', r) -> Q s'.
Proof.
  assert (HQ' := HQ). destruct HQ' as (H1 & H2 & H3 & H4). unfold attempt. intros Hs E.
  destruct (np_sys P s y0) as [((s1 & d) & r1)| |] eqn:E1; try discriminate.
  apply (H1 _ _ _ _ _ Hs) in E1.
  cbn -[inner_loop] in E. destruct r1 as [[]|e1]; [|congruence].
  destruct call.
  - cbn -[inner_loop] in E. destruct (np_setup P s1 y0 d jbad) as [(s2 & r2)| |] eqn:E2; try discriminate.
    apply (H2 _ _ _ _ _ _ E1) in E2.
    cbn -[inner_loop] in E. destruct r2 as [j|e2]; [|cbn in E; congruence].
    eapply inner_loop_preserves; [|exact E]; exact E2.
  - eapply inner_loop_preserves; [|exact E]; exact E1.
Qed.

Lemma newton_preserves fuel : forall n s y0 y w tol call n' s' y' r,
  Q s -> newton_solve P dim fuel n s y0 y w tol call = Ret (n', s', y', r) -> Q s'.
Proof.
  unfold newton_solve.
  assert (Hg : forall n s y0 y w tol call jbad n' s' y' r,
    Q s -> outer_loop P dim fuel y0 w tol call jbad n s y = Ret (n', s', y', r) -> Q s').
  { induction fuel as [|fuel IH]; intros n s y0 y w tol call jbad n' s' y' r Hs E; [discriminate|].
    cbn [outer_loop] in E.
    destruct (attempt P dim y0 w tol call jbad n s y) as [(((n1 & s1) & y1) & r1)| |] eqn:E1; try discriminate.
    apply (attempt_preserves _ _ _ _ _ _ _ _ _ _ _ _ Hs) in E1. cbn [bind] in E.
    destruct r1 as [[]|[]]; try congruence. destruct (negb (nw_jcur n1)); eauto. }
  eauto.
Qed.
End Preserve.

(** Every logged call is one the problem answered that way. *)
Definition produced {T S} (P : nlproblem T S) (e : nlevent T) : Prop :=
  match e with
  | EvSys y f r => exists s s', np_sys P s y = Ret (s', f, r)
  | EvSetup y f j r => exists s s', np_setup P s y f j = Ret (s', r)
  | EvSolve y b x r => exists s s', np_solve P s y b = Ret (s', x, r)
  | EvCtest i y d tol w r => exists s s', np_ctest P s i y d tol w = Ret (s', r)
  end.

Lemma traced_produced {T S} `{Scalar T} (P : nlproblem T S) :
  preserves (traced P) (fun sl => Forall (produced P) (snd sl)).
Proof.
  split; [|split; [|split]]; cbn.
  - intros (s, tr) y (s', tr') f r Hs E. cbn in *.
    destruct (np_sys P s y) as [((s1 & x1) & r1)| |] eqn:E1; inversion E; subst.
    apply Forall_app; split; auto. repeat constructor. cbn. eauto.
  - intros (s, tr) y f j (s', tr') r Hs E. cbn in *.
    destruct (np_setup P s y f j) as [(s1 & r1)| |] eqn:E1; inversion E; subst.
    apply Forall_app; split; auto. repeat constructor. cbn. eauto.
  - intros (s, tr) y b (s', tr') x r Hs E. cbn in *.
    destruct (np_solve P s y b) as [((s1 & x1) & r1)| |] eqn:E1; inversion E; subst.
    apply Forall_app; split; auto. repeat constructor. cbn. eauto.
  - intros (s, tr) i y d tol w (s', tr') r Hs E. cbn in *.
    destruct (np_ctest P s i y d tol w) as [(s1 & r1)| |] eqn:E1; inversion E; subst.
    apply Forall_app; split; auto. repeat constructor. cbn. eauto.
Qed.

Section Main.
Context {T : Type} `{Scalar T} {S : Type}.
Variable P : nlproblem T S.
Variable dim : nat.

(** The log of a solve: the events appended by running the traced problem. *)
Definition log_of fuel n (s : S) y0 y w tol call (es : list (nlevent T)) : Prop :=
  exists n' s' y' r,
    newton_solve (traced P) dim fuel n (s, []) y0 y w tol call = Ret (n', (s', es), y', r).

Lemma newton_log fuel n s y0 y w tol call n' s' y' r :
  newton_solve P dim fuel n s y0 y w tol call = Ret (n', s', y', r) ->
  exists es k,
    log_of fuel n s y0 y w tol call es /\ Forall (produced P) es /\
    newton_run dim (nw_maxiters n) y0 w tol call false (nw_jcur n) y es k (nw_jcur n') y' r /\
    nw_maxiters n' = nw_maxiters n /\
    nw_niters n' = nw_niters n + count is_solve es /\
    nw_nconvfails n' = nw_nconvfails n + k + (if is_err r then 1 else 0) /\
    nw_curiter n' <= Nat.max (nw_curiter n) (Nat.max 1 (nw_maxiters n)).
Proof.
  intros E. apply newton_solve_run in E. destruct E as (es & k & Et & Hr & Hrest).
  exists es, k. split; [exists n', s', y', r; exact Et|]. split; [|auto].
  apply (newton_preserves (traced P) dim _ (traced_produced P) fuel n (s, []) y0 y w tol call n' (s', es) y' r);
    [constructor | exact Et].
Qed.

Lemma newton_ok fuel n s y0 y w tol call n' s' y' :
  newton_solve P dim fuel n s y0 y w tol call = Ret (n', s', y', Ok tt) ->
  exists es pre f0 su last,
    log_of fuel n s y0 y w tol call es /\ Forall (produced P) es /\
    es = pre ++ EvSys y0 f0 (Ok tt) :: su ++ last /\
    (su = [] \/ exists jb j, su = [EvSetup y0 f0 jb (Ok j)]) /\
    converging dim (nw_maxiters n) w tol 0 y0 f0 last y'.
Proof.
  intros E. apply newton_log in E. destruct E as (es & k & Hl & Hp & Hr & _).
  apply run_ok in Hr. destruct Hr as (pre & f0 & su & last & He & Hsu & Hc).
  exists es, pre, f0, su, last. auto.
Qed.

Lemma newton_solve_bound fuel n s y0 y w tol call n' s' y' r :
  newton_solve P dim fuel n s y0 y w tol call = Ret (n', s', y', r) ->
  nw_curiter n <= Nat.max 1 (nw_maxiters n) ->
  exists es atts,
    log_of fuel n s y0 y w tol call es /\ es = concat atts /\
    Forall (fun a => (exists f r0 rest, a = EvSys y0 f r0 :: rest) /\
                     count is_solve a <= Nat.max 1 (nw_maxiters n)) atts /\
    Forall (test_index_lt (Nat.max 1 (nw_maxiters n))) es /\
    nw_curiter n' <= Nat.max 1 (nw_maxiters n').
Proof.
  intros E Hc. apply newton_log in E.
  destruct E as (es & k & Hl & Hp & Hr & Hm & _ & _ & Hcur).
  destruct (run_attempts _ _ _ _ _ _ _ _ _ _ _ _ _ _ Hr) as (atts & He & _ & Hf).
  exists es, atts. split; [auto|]. split; [auto|]. split; [auto|].
  split; [eapply run_test_index; eauto | rewrite Hm; lia].
Qed.

Lemma newton_counters fuel n s y0 y w tol call n' s' y' r :
  newton_solve P dim fuel n s y0 y w tol call = Ret (n', s', y', r) ->
  exists es retries,
    log_of fuel n s y0 y w tol call es /\
    newton_run dim (nw_maxiters n) y0 w tol call false (nw_jcur n) y es retries (nw_jcur n') y' r /\
    nw_niters n' = nw_niters n + count is_solve es /\
    nw_nconvfails n' = nw_nconvfails n + retries + (if is_err r then 1 else 0).
Proof.
  intros E. apply newton_log in E.
  destruct E as (es & k & Hl & Hp & Hr & Hm & Hn & Hc & Hcur). exists es, k. auto.
Qed.

Lemma newton_never_recover fuel n s y0 y w tol call n' s' y' r :
  newton_solve P dim fuel n s y0 y w tol call = Ret (n', s', y', r) -> r <> Err ConvergenceRecover.
Proof.
  intros E. apply newton_log in E. destruct E as (es & k & _ & _ & Hr & _).
  eapply run_not_recover; eauto.
Qed.

(** Returning does not depend on the fuel. *)
Lemma outer_loop_fuel fuel : forall fuel' y0 w tol call jbad n s y x,
  fuel <= fuel' -> outer_loop P dim fuel y0 w tol call jbad n s y = Ret x ->
  outer_loop P dim fuel' y0 w tol call jbad n s y = Ret x.
Proof.
  induction fuel as [|fuel IH]; intros fuel' y0 w tol call jbad n s y x Hle E; [discriminate|].
  destruct fuel' as [|fuel']; [lia|]. cbn [outer_loop] in *.
  destruct (attempt P dim y0 w tol call jbad n s y) as [(((n1 & s1) & y1) & [[]|[]])| |]; cbn [bind] in *; auto.
  destruct (negb (nw_jcur n1)); apply IH; auto; lia.
Qed.

(** With a test that accepts in time and no recoverable errors, one attempt is
    enough. *)
Lemma inner_loop_accepts (Hcb : callbacks_return P) fuel : forall w tol n s y n' s' y' r,
  (forall s i y d tol w s', Nat.max 1 (nw_maxiters n) <= i + 1 -> np_ctest P s i y d tol w <> Ret (s', Ok false)) ->
  (forall e, produced P e -> match e with
      | EvSys _ _ r | EvSolve _ _ _ r => r <> Err ConvergenceRecover
      | EvSetup _ _ _ r | EvCtest _ _ _ _ _ r => r <> Err ConvergenceRecover end) ->
  inner_loop P dim fuel w tol n s y = Ret (n', s', y', r) -> r <> Err ConvergenceRecover.
Proof.
  induction fuel as [|fuel IH]; intros w tol n s y n' s' y' r Hacc Hne E; [discriminate|].
  cbn [inner_loop] in E. cbn in E.
  destruct (np_solve P s y (vneg dim (nw_delta n))) as [((s1 & d) & r1)| |] eqn:E1; try discriminate.
  assert (N1 := Hne (EvSolve y (vneg dim (nw_delta n)) d r1)). cbn in N1.
  specialize (N1 ltac:(eauto)).
  cbn in E. destruct r1 as [[]|e1]; [|congruence].
  destruct (np_ctest P s1 (nw_curiter n) (vadd dim y d) d tol w) as [(s2 & r2)| |] eqn:E2; try discriminate.
  assert (N2 := Hne (EvCtest (nw_curiter n) (vadd dim y d) d tol w r2)). cbn in N2.
  specialize (N2 ltac:(eauto)).
  cbn in E. destruct r2 as [[|]|e2]; [congruence| |congruence].
  destruct (nw_maxiters n <=? nw_curiter n + 1) eqn:El.
  - exfalso. apply Nat.leb_le in El. apply (Hacc s1 (nw_curiter n) (vadd dim y d) d tol w s2); [lia|exact E2].
  - destruct (np_sys P s2 (vadd dim y d)) as [((s3 & f3) & r3)| |] eqn:E3; try discriminate.
    assert (N3 := Hne (EvSys (vadd dim y d) f3 r3)). cbn in N3. specialize (N3 ltac:(eauto)).
    cbn in E. destruct r3 as [[]|e3]; [|congruence].
    eapply IH; [| exact Hne | exact E]. exact Hacc.
Qed.

Lemma newton_returns n s y0 y w tol call :
  callbacks_return P ->
  (forall s i y d tol w s', Nat.max 1 (nw_maxiters n) <= i + 1 -> np_ctest P s i y d tol w <> Ret (s', Ok false)) ->
  (forall e, produced P e -> match e with
      | EvSys _ _ r | EvSolve _ _ _ r => r <> Err ConvergenceRecover
      | EvSetup _ _ _ r | EvCtest _ _ _ _ _ r => r <> Err ConvergenceRecover end) ->
  exists x, forall fuel, 1 <= fuel -> newton_solve P dim fuel n s y0 y w tol call = Ret x.
Proof.
  intros Hcb Hacc Hne.
  assert (H1 : exists x, newton_solve P dim 1 n s y0 y w tol call = Ret x).
  { unfold newton_solve. cbn [outer_loop].
    destruct (attempt_returns P dim Hcb y0 w tol call false n s y) as ((((n1 & s1) & y1) & r1) & E1).
    rewrite E1. cbn [bind].
    assert (Hr : r1 <> Err ConvergenceRecover).
    { unfold attempt in E1.
      destruct (np_sys P s y0) as [((s2 & d) & r2)| |] eqn:E2; try discriminate.
      assert (N2 := Hne (EvSys y0 d r2)). cbn in N2. specialize (N2 ltac:(eauto)).
      cbn -[inner_loop] in E1. destruct r2 as [[]|e2]; [|congruence].
      destruct call.
      - cbn -[inner_loop] in E1. destruct (np_setup P s2 y0 d false) as [(s3 & r3)| |] eqn:E3; try discriminate.
        assert (N3 := Hne (EvSetup y0 d false r3)). cbn in N3. specialize (N3 ltac:(eauto)).
        cbn -[inner_loop] in E1. destruct r3 as [j|e3]; [|cbn in E1; congruence].
        eapply inner_loop_accepts; [exact Hcb | | exact Hne | exact E1]. exact Hacc.
      - eapply inner_loop_accepts; [exact Hcb | | exact Hne | exact E1]. exact Hacc. }
    destruct r1 as [[]|[]]; eauto. congruence. }
  destruct H1 as (x & E). exists x. intros fuel Hf. eapply outer_loop_fuel; eauto.
Qed.
End Main.

(** ** A problem on which the solver never returns *)
Section Never.
Context {T : Type} `{Scalar T}.
Variable dim : nat.

(** All callbacks answer at once: the set-up makes the Jacobian current, and
    the test always asks for another iteration. *)
Definition stubborn : nlproblem T unit :=
  mknlproblem (fun _ y => Ret (tt, y, Ok tt)) (fun _ _ _ _ => Ret (tt, Ok true))
              (fun _ _ b => Ret (tt, b, Ok tt)) (fun _ _ _ _ _ _ => Ret (tt, Ok false)).

Lemma stubborn_returns : callbacks_return stubborn.
Proof. unfold callbacks_return; cbn; repeat split; eauto. Qed.

Lemma stubborn_attempt y0 w tol call jbad n s y :
  exists n' y', attempt stubborn dim y0 w tol call jbad n s y = Ret (n', tt, y', Err ConvergenceRecover).
Proof.
  destruct (attempt_returns stubborn dim stubborn_returns y0 w tol call jbad n s y)
    as ((((n' & []) & y') & r) & E). exists n', y'. rewrite E. do 3 f_equal.
  assert (Hin : forall fuel n s y n' s' y' r,
    inner_loop stubborn dim fuel w tol n s y = Ret (n', s', y', r) -> r = Err ConvergenceRecover).
  { induction fuel as [|fuel IH]; intros n1 s1 y1 n2 s2 y2 r2 E1; [discriminate|].
    cbn [inner_loop] in E1. cbn in E1.
    destruct (nw_maxiters n1 <=? nw_curiter n1 + 1); [congruence|]. eapply IH; eauto. }
  unfold attempt in E. destruct call; cbn -[inner_loop] in E; eapply Hin; eauto.
Qed.

Lemma stubborn_diverges fuel n s y0 y w tol call :
  newton_solve stubborn dim fuel n s y0 y w tol call = Diverge.
Proof.
  unfold newton_solve. generalize false at 1 as jbad.
  revert n s y call; induction fuel as [|fuel IH]; intros n s y call jbad; [reflexivity|].
  cbn [outer_loop].
  destruct (stubborn_attempt y0 w tol call jbad n s y) as (n' & y' & ->). cbn [bind].
  destruct (negb (nw_jcur n')); apply IH.
Qed.
End Never.

(** A problem whose first convergence test asks for more and whose second one
    accepts; with [maxiters = 1] the first attempt fails with a current
    Jacobian. *)
Definition second_try {T} : nlproblem T bool :=
  mknlproblem (fun s y => Ret (s, y, Ok tt)) (fun s _ _ _ => Ret (s, Ok true))
              (fun s _ b => Ret (s, b, Ok tt)) (fun s _ _ _ _ _ => Ret (true, Ok s)).

Lemma second_try_log {T} `{Scalar T} (y w : list T) (tol : T) dim :
  exists f b y' n' s',
    newton_solve (traced second_try) dim 2 (newton_new dim 1) (false, []) y y w tol true =
    Ret (n', (s', [EvSys y f (Ok tt); EvSetup y f false (Ok true); EvSolve y b b (Ok tt);
                   EvCtest 0 y' b tol w (Ok false);
                   EvSys y f (Ok tt); EvSetup y f false (Ok true); EvSolve y b b (Ok tt);
                   EvCtest 0 y' b tol w (Ok true)]), y', Ok tt).
Proof. do 5 eexists. reflexivity. Qed.
