(** * PropRootsHang: C87, a search that never ends although all values are finite
    The search of [r_check3] stops when the bracket is at most 100 unit roundoffs
    of the current time and step wide.  Asked for an output time far behind the
    current time, it searches where neighbouring binary64 numbers are farther
    apart than that. *)
Require Import List Arith Bool Lia Floats.
Import ListNotations.
Require Import Verif.Base Verif.Scalar Verif.ScalarF Verif.Dense Verif.Norms Verif.Newton Verif.NewtonSpec Verif.IdaState
  Verif.IdaNls Verif.IdaCore Verif.IdaRoots Verif.IdaSolve Verif.IdaIo Verif.BaseFacts Verif.NewtonFacts
  Verif.IdaFacts Verif.IdaLoops Verif.IdaStep Verif.IdaSpec Verif.IdaShell Verif.IdaReach Verif.IdaInterp Verif.Witness
  Verif.PropRootsBad.
Set Warnings "-inexact-float".
Open Scope nat_scope.

(** ** The search as a finite machine, for root functions of time only *)
Section Orbit.
Context {T LSt NSt : Type} `{Scalar T} `{LSolver T LSt} `{NLSolver T NSt}.
Variable prob : problem T.
Notation nr := (num_roots prob).
Notation state := (ida T LSt NSt).
(** The values of the root functions. *)
Variable G : T -> list T.
Hypothesis HG : forall t y yp, vtab nr (p_root prob t y yp) = G t.
Variables (tol : T) (ga : list bool) (rd : list nat).

(** Both ends with their values, the weight, the two last sides and the component. *)
Definition spot := (T * T * list T * list T * (T * option nat * nat * nat))%type.

(** One pass, src/impl_r_check.rs 417-547, as [root_loop]; [None] when the search ends. *)
Definition pass (x : spot) : option spot :=
  let '(lo, hi, gl, gh, (alph, sp, side, im)) := x in
  if (sabs (hi - lo) <=? tol)%sc then None else
  let al := next_alph alph sp side in
  match aget gh im, aget gl im with
  | Ret ghm, Ret glm =>
      let tm := next_tmid lo hi tol al glm ghm in
      let '(z, sg, _, im') := scan2 prob ga rd gl (G tm) im in
      if sg then (if (sabs (tm - lo) <=? tol)%sc then None else Some (lo, tm, gl, G tm, (al, Some side, 1, im')))
      else if z then None
      else if (sabs (hi - tm) <=? tol)%sc then None else Some (tm, hi, G tm, gh, (al, Some side, 2, im'))
  | _, _ => None
  end.

Definition on_spot (st : state) (x : spot) : Prop :=
  let '(lo, hi, gl, gh, _) := x in seen st lo hi tol gl gh ga rd.

Lemma pass_loop fuel (st : state) lo hi gl gh alph sp side im lo' hi' gl' gh' alph' sp' side' im' :
  seen st lo hi tol gl gh ga rd ->
  pass (lo, hi, gl, gh, (alph, sp, side, im)) = Some (lo', hi', gl', gh', (alph', sp', side', im')) ->
  exists st', root_loop prob (S fuel) st alph sp side im = root_loop prob fuel st' alph' sp' side' im' /\
    seen st' lo' hi' tol gl' gh' ga rd.
Proof.
  intros [A K L1 L2 L3 L4 L5 L6 L7] P. unfold pass in P. cbn [root_loop].
  rewrite L1, L2, L3, L5, L4. destruct (sabs (hi - lo)%sc <=? tol)%sc; [discriminate|].
  destruct (aget gh im) as [ghm| |]; try discriminate. destruct (aget gl im) as [glm| |]; try discriminate.
  cbn [bind]. set (tm := next_tmid _ _ _ _ _ _) in *.
  destruct (gs_ret prob st tm A K) as (s & Es). rewrite Es. cbn [bind].
  pose proof (get_solution_shell prob _ _ _ _ Es) as Sh.
  pose proof (get_solution_frame _ _ _ _ _ Es) as (_ & _ & Fr & _).
  apply rootst_fields in Fr.
  destruct Fr as (F1 & F2 & F3 & F4 & F5 & F6 & F7 & F8 & F9 & F10 & F11 & F12 & F13).
  assert (Cs : arrays s /\ kused s = kused st /\ rootdir s = rootdir st).
  { pose proof (core_fields _ _ (sh_core _ _ _ Sh)) as C. pose proof (sh_cvals _ _ _ Sh). pose proof (sh_dvals _ _ _ Sh).
    destruct C as (C0 & D1 & D2 & D3 & D4 & D5 & D6 & _ & D7 & _). unfold cfg in C0. injection C0. intros. unfold arrays in *.
    rewrite D1, D2, D3, D4, D5, D6, D7. repeat split; try tauto; destruct A as (_ & _ & _ & _ & _ & _ & A7 & A8); congruence. }
  destruct Cs as (As & Ks & Rs). unfold call_root. cbv beta iota zeta.
  set (s1 := on_lp (push_ev (CRoot tm (yy (nlp s)) (yp (nlp s)))) s).
  rewrite HG. set (g := G tm) in *.
  change (gactive (set_nge (nge s1 + 1) (set_grout g s1))) with (gactive s).
  change (rootdir (set_nge (nge s1 + 1) (set_grout g s1))) with (rootdir s).
  change (glo (set_nge (nge s1 + 1) (set_grout g s1))) with (glo s).
  change (grout (set_nge (nge s1 + 1) (set_grout g s1))) with g.
  assert (Q1 : gactive s = ga) by congruence.
  assert (Q2 : glo s = gl) by congruence.
  assert (Q3 : thi s = hi) by congruence. assert (Q4 : ttol s = tol) by congruence. assert (Q5 : tlo s = lo) by congruence.
  rewrite Q1, Rs, L7, Q2. destruct (scan2 prob ga rd gl g im) as (((z & sg) & mf) & im2).
  destruct sg; [|destruct z; [discriminate|]].
  - set (s2 := set_ghi g (set_thi tm (set_nge (nge s1 + 1) (set_grout g s1)))).
    change (thi s2) with tm. change (tlo s2) with (tlo s). change (ttol s2) with (ttol s). rewrite Q4, Q5.
    destruct (sabs (tm - lo)%sc <=? tol)%sc; [discriminate|]. injection P as <- <- <- <- <- <- <- <-.
    exists s2. split; [reflexivity|]. split; try reflexivity; try assumption.
    + change (kused s2) with (kused s). lia.
    + change (rootdir s2) with (rootdir s). congruence.
  - set (s2 := set_glo g (set_tlo tm (set_nge (nge s1 + 1) (set_grout g s1)))).
    change (thi s2) with (thi s). change (tlo s2) with tm. change (ttol s2) with (ttol s). rewrite Q3, Q4.
    destruct (sabs (hi - tm)%sc <=? tol)%sc; [discriminate|]. injection P as <- <- <- <- <- <- <- <-.
    exists s2. split; [reflexivity|]. split; try reflexivity; try assumption.
    + change (kused s2) with (kused s). lia.
    + change (ghi s2) with (ghi s). congruence.
    + change (rootdir s2) with (rootdir s). congruence.
Qed.

(** [k] passes. *)
Fixpoint passes (k : nat) (x : spot) : option spot :=
  match k with O => Some x | S k => match pass x with Some y => passes k y | None => None end end.

Lemma passes_S k : forall x, passes (S k) x = match passes k x with Some y => pass y | None => None end.
Proof.
  induction k as [|k IH]; intros x.
  - cbn. destruct (pass x); reflexivity.
  - change (passes (S (S k)) x) with (match pass x with Some y => passes (S k) y | None => None end).
    cbn [passes] in *. destruct (pass x) as [y|]; [apply IH|reflexivity].
Qed.

(** A search that returns to a situation it has been in does not end. *)
Lemma orbit_diverges x y j k : passes j x = Some y -> passes (S k) y = Some y ->
  forall fuel (st : state), on_spot st x ->
  let '(_, _, _, _, (alph, sp, side, im)) := x in root_loop prob fuel st alph sp side im = Diverge.
Proof.
  intros Hj Hk fuel.
  (* from every situation met, there is a next one that is met *)
  assert (Main : forall fuel a n, passes n a = Some y ->
    forall st : state, on_spot st a -> let '(_, _, _, _, (alph, sp, side, im)) := a in root_loop prob fuel st alph sp side im = Diverge).
  { clear x j Hj fuel. induction fuel as [|fuel IH]; intros a m Hm st Ha.
    - destruct a as ((((? & ?) & ?) & ?) & (((? & ?) & ?) & ?)). reflexivity.
    - assert (Hp : exists m', match pass a with Some b => passes m' b = Some y | None => False end).
      { destruct m as [|m].
        - cbn in Hm. injection Hm as ->. exists k. cbn [passes] in Hk. destruct (pass y); [exact Hk|discriminate].
        - exists m. cbn [passes] in Hm. destruct (pass a); [exact Hm|discriminate]. }
      destruct Hp as (m' & Hp). destruct (pass a) as [b|] eqn:Eb; [|contradiction].
      destruct a as ((((lo & hi) & gl) & gh) & (((alph & sp) & side) & im)).
      destruct b as ((((lo' & hi') & gl') & gh') & (((alph' & sp') & side') & im')).
      destruct (pass_loop fuel st _ _ _ _ _ _ _ _ _ _ _ _ _ _ _ _ Ha Eb) as (st' & -> & Sn).
      exact (IH _ m' Hp st' Sn). }
  intros st Hs. exact (Main fuel x j Hj st Hs).
Qed.
End Orbit.

(** ** The execution on binary64 *)
Open Scope float_scope.

(** g = t^2 - 490000.3. *)
Definition parab (t : float) (_ _ : list float) (_ : nat) : float := t * t - 490000.3.
Definition back_g (t : float) : list float := [t * t - 490000.3].

Lemma parab_at t y yp : vtab (num_roots (decay parab)) (p_root (decay parab) t y yp) = back_g t.
Proof. reflexivity. Qed.

Definition back_values := ((1, [-490000.3 + 1], [true], [0%nat]), (gap_tn, gap_hh, 1, false), (1, 26, 4)%nat, (6, 6, 6, 6, 6, 6, 6, 5)%nat).
Lemma back_view : after (decay parab) decay_ewt (decay_conf (decay parab)) [1] [-1] [CallSolve 1 0 Normal] (fun st rs => (view st, rs)) =
  Some (back_values, [ReplySolve 1 (Ok Success)]).
Proof. vm_compute. reflexivity. Qed.

Definition back_start : spot := (1, -1000, back_g 1, back_g (-1000), (1, None, 0%nat, 0%nat)).
Definition back_pass := passes (decay parab) back_g gap_tol [true] [0%nat].
Definition back_loop : spot := match back_pass 12 back_start with Some x => x | None => back_start end.

Lemma back_enters : back_pass 12 back_start = Some back_loop.
Proof. vm_compute. reflexivity. Qed.
Lemma back_returns : back_pass 4 back_loop = Some back_loop.
Proof. vm_compute. reflexivity. Qed.

Lemma back_search fuel (st : fstate) : seen st 1 (-1000) gap_tol (back_g 1) (back_g (-1000)) [true] [0%nat] ->
  root_loop (decay parab) fuel st sone None 0 0 = Diverge.
Proof.
  intros Hs.
  exact (orbit_diverges (decay parab) back_g parab_at gap_tol [true] [0%nat] back_start back_loop 12 3 back_enters back_returns fuel st Hs).
Qed.

(** The first secant fraction. *)
Definition back_ratio : float := vget (back_g (-1000)) 0 / (vget (back_g (-1000)) 0 - vget (back_g 1) 0).

Lemma back_second (st : fstate) : view st = back_values -> forall fuel rfuel tret,
  solve (decay parab) decay_ewt fuel rfuel st (-1000) tret Normal = Diverge.
Proof.
  unfold view, back_values. intros V.
  injection V as V1 V2 V3 V4 V5 V6 V7 V8 V9 V10 V11 V12 V13 V14 V15 V16 V17 V18 V19.
  intros fuel rfuel tret. apply solve_diverges; [lia|lia|exact V8| |].
  + unfold root_ttol. rewrite V5, V6, V7. vm_compute. reflexivity.
  + intros l. set (a := on_lp _ _).
    apply (check3_diverges (decay parab) rfuel a 1 (-1000) gap_tol (back_g 1) (back_g (-1000)) [true] [0%nat] false (abs (back_ratio)) 0).
    * unfold a, arrays. cbn. tauto.
    * change (kused a) with (kused st). lia.
    * change (taskc a) with Normal. change (toutc a) with (-1000). change (tn (nlp a)) with (tn (nlp st)). change (hh a) with (hh st).
      rewrite V5, V6. vm_compute. reflexivity.
    * apply parab_at.
    * unfold root_ttol. change (tn (nlp a)) with (tn (nlp st)). change (hh a) with (hh st). rewrite V5, V6. reflexivity.
    * exact V1.
    * change (glo a) with (glo st). rewrite V2. vm_compute. reflexivity.
    * exact V3.
    * exact V4.
    * vm_compute. reflexivity.
    * intros s Hs. exact (back_search rfuel s Hs).
Qed.

(** C87 fails: the first call returns the solution at t = 1; the second call asks
    for t = -1000 and never returns, whatever number of passes it is given, though
    the root function is a polynomial of time with finite values. *)
Theorem C87_refuted : exists (prob : problem float) ewt_set c yy0 yp0 (st0 st : fstate),
  (forall t y yp i, p_root prob t y yp i = t * t - 490000.3) /\
  ida_new prob yy0 yp0 = Ret st0 /\
  solve prob ewt_set 600 100 (configure c st0) 1 0 Normal = Ret (st, 1, Ok Success) /\
  forall fuel rfuel tret, solve prob ewt_set fuel rfuel st (-1000) tret Normal = Diverge.
Proof.
  destruct (after_reach _ _ _ _ _ _ _ _ back_view) as (st0 & st & rs & E0 & Er & _ & Ers).
  apply pair_equal_spec in Ers. destruct Ers as (Hv & ->). apply run_one in Er.
  exists (decay parab), decay_ewt, (decay_conf (decay parab)), [1], [-1], st0, st.
  split; [reflexivity|]. split; [exact E0|]. split; [exact Er|]. intros. apply back_second. exact Hv.
Qed.
Print Assumptions C87_refuted.
