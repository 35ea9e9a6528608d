(** * PropInterpRnd: C85, interpolated output, prediction and accepted solution in
      arithmetic with rounding (src/lib.rs get_solution 1274-1343, predict 894-959,
      src/impl_complete_step.rs update of phi)
    The rounding model has no overflow and its division is total: where an
    interval length [lens st j], j < order, is zero the bounds of
    [C85_interpolation] say nothing about the code. *)
Require Import List Arith Bool Lia Reals Lra Psatz.
Import ListNotations.
Require Import Verif.Base Verif.Scalar Verif.ScalarR Verif.RoundR Verif.Norms Verif.Newton Verif.NewtonSpec Verif.IdaState
  Verif.IdaNls Verif.IdaCore Verif.IdaRoots Verif.IdaSolve Verif.IdaIo Verif.BaseFacts Verif.RSum Verif.NewtonFacts
  Verif.IdaFacts Verif.IdaLoops Verif.IdaStep Verif.IdaSpec Verif.IdaShell Verif.IdaReach Verif.IdaInv
  Verif.IdaCount Verif.IdaTrace Verif.IdaInterp Verif.InterpRnd.
Open Scope R_scope.

Section Rnd.
Variables (u : R) (rnd : R -> R).
Hypothesis Hr : rounding u rnd.
Local Instance SR : Scalar R := ScalarRnd rnd.
Context {LSt NSt : Type} `{LSolver R LSt} `{NLSolver R NSt}.
Hypothesis Hl : @nls_lawful R NSt _.
Variable prob : problem R.
Variable ewt_set : list R -> list R.
Notation n := (model_size prob).
Notation state := (ida R LSt NSt).

(** The stored history: row [j], component [i]; the interval lengths. *)
Definition hist (st : state) (j i : nat) : R := nth i (nth j (phi st) []) 0.
Definition lens (st : state) (j : nat) : R := nth j (psi st) 0.
Definition abslens (st : state) (j : nat) : R := Rabs (nth j (psi st) 0).
(** The order of the polynomial that [get_solution] evaluates. *)
Definition order (st : state) : nat := Nat.max 1 (get_last_order st).

(** ** C85: [get_solution] evaluates the interpolating polynomial of the stored
    history and its derivative up to [5 k + 2] and [6 k + 1] roundings *)
Theorem C85_interpolation c yy0 yp0 (st s : state) t :
  config_ok c -> reach prob ewt_set c yy0 yp0 st ->
  get_solution prob st t = Ret (s, Ok tt) ->
  let k := order st in let x := t - get_current_time st in
  forall i, (i < n)%nat ->
  Rabs (nth i (get_yy s) 0 - rsum (k + 1) (fun j => basis (lens st) x j * hist st j i)) <=
    ((1 + u) ^ (5 * k + 2) - 1) * rsum (k + 1) (fun j => basis (abslens st) (Rabs x) j * Rabs (hist st j i)) /\
  Rabs (nth i (get_yp s) 0 - rsum k (fun j => dbasis (lens st) x (j + 1) * hist st (j + 1) i)) <=
    ((1 + u) ^ (6 * k + 1) - 1) * rsum k (fun j => dbasis (abslens st) (Rabs x) (j + 1) * Rabs (hist st (j + 1) i)).
Proof.
  intros Hc Hre E k x i Hi.
  destruct (reach_ord prob ewt_set Hl c yy0 yp0 st Hc Hre) as (A & M & _ & K & _).
  pose proof (gs_eval prob st s t _ A ltac:(lia) E) as V. destruct (time_check st t); [destruct V; discriminate|].
  destruct V as (_ & Vy & Vp). unfold get_yy, get_yp. rewrite Vy, Vp.
  assert (kord st = k) as Ek.
  { unfold kord, k, order, get_last_order. destruct (Nat.eqb_spec (kused st) 0) as [->|]; [reflexivity|lia]. }
  assert (close u 1 (Rabs x) (t - tn (nlp st))%sc x) as Hx.
  { cbn [ssub SR ScalarRnd]. apply (close_rnd u rnd Hr). apply close_exact. }
  pose proof (cdg_close u rnd Hr (psi st) x _ Hx) as C. cbv zeta in C. unfold interp_y, interp_yp. rewrite Ek.
  split.
  - pose proof (rowcf_close u rnd Hr prob (cj_ (psi st) (t - tn (nlp st))%sc) (phi st) 0 (4 * k) (basis (lens st) x) (basis (abslens st) (Rabs x)) i Hi (k + 1)) as Q.
    destruct Q as (_ & Q).
    { intros j Hj. destruct (C j) as (C1 & _). eapply (close_le u rnd Hr); [| |exact C1]; [lia|right; reflexivity]. }
    replace (4 * k + 1 + (k + 1))%nat with (5 * k + 2)%nat in Q by lia. exact Q.
  - pose proof (rowcf_close u rnd Hr prob (fun j => dj_ (psi st) (t - tn (nlp st))%sc (S j)) (phi st) 1 (5 * k)
      (fun j => dbasis (lens st) x (j + 1)) (fun j => dbasis (abslens st) (Rabs x) (j + 1)) i Hi k) as Q.
    destruct Q as (_ & Q).
    { intros j Hj. destruct (C (S j)) as (_ & C1 & _). rewrite Nat.add_1_r. eapply (close_le u rnd Hr); [| |exact C1]; [lia|right; reflexivity]. }
    replace (5 * k + 1 + k)%nat with (6 * k + 1)%nat in Q by lia.
    match type of Q with Rabs (_ - rsum k ?f) <= _ * rsum k ?g =>
      replace (rsum k (fun j => dbasis (lens st) x (j + 1) * hist st (j + 1) i)) with (rsum k f);
      [replace (rsum k (fun j => dbasis (abslens st) (Rabs x) (j + 1) * Rabs (hist st (j + 1) i))) with (rsum k g); [exact Q|]|] end;
      apply rsum_ext; intros j _; cbv beta; rewrite (Nat.add_comm 1 j); reflexivity.
Qed.

(** [dbasis] is the derivative of [basis]. *)
Theorem C85_derivative ps x j : derivable_pt_lim (fun z => basis ps z j) x (dbasis ps x j).
Proof. apply dbasis_derive. Qed.

(** ** C85: the prediction is the sum of the history rows up to [k + 1] roundings *)
Theorem C85_prediction (st st' : state) : ordok st -> predict prob st = Ret st' -> forall i, (i < n)%nat ->
  Rabs (nth i (yypredict (nlp st')) 0 - rsum (kk st + 1) (fun j => hist st j i)) <=
    ((1 + u) ^ (kk st + 1) - 1) * rsum (kk st + 1) (fun j => Rabs (hist st j i)).
Proof.
  intros (A & M & K1 & K & _) E i Hi. rewrite predict_spec in E by (auto; lia). injection E as <-.
  exact (proj2 (rowsum_close u rnd Hr prob (phi st) i Hi (kk st + 1))).
Qed.

(** ** C85: the value stored as solution at the new time and the value that passed
    the tests of the step differ by rounding errors only *)
Lemma step_row0 fuel (a b : state) : ordok a -> step prob fuel a = Ret (b, Ok tt) ->
  exists e ph y past, trace (lp (nlp b)) = CStep (tn (nlp b)) y :: past /\
    y = vadd n (rowsum prob ph (kused b + 1)) e /\
    (forall j, (j <= kused b)%nat -> row (phi b) j = tailsum prob e ph j (kused b + 1 - j)) /\
    ((kused b < maxord b)%nat -> row (phi b) (kused b + 1) = e).
Proof.
  intros O E. pose proof (step_spec prob Hl fuel a b _ O E) as X.
  destruct X as (sta & nef & st1 & ck & ek & ek1 & r1 & Ht & Et & Htr & [(-> & _ & st2 & Hcp & ->)|(e & _ & _ & D)]).
  2: { destruct D as [(_ & _ & _ & D & _)|((m & ->) & D & _)]; discriminate. }
  pose proof (tr_res _ _ _ _ _ Htr) as (Ey & _). pose proof (tr_yyp _ _ _ _ _ Htr) as Eyp.
  pose proof (tr_ord _ _ _ _ _ Htr) as T1. injection T1 as T1 _ _. rewrite <- T1 in Eyp.
  pose proof (cp_used _ _ _ Hcp) as U. injection U as U _ _.
  pose proof (cp_nlp _ _ _ Hcp) as En. pose proof (cp_row _ _ _ Hcp) as Rw. pose proof (cp_row1 _ _ _ Hcp) as Rw1.
  pose proof (cfg_fields _ _ (cp_cfg _ _ _ Hcp)) as (_ & _ & _ & _ & _ & _ & _ & Em & _).
  exists (ee st1), (phi st1), (yy (nlp st2)), (trace (lp (nlp st2))).
  change (kused (st_commit prob ck st2)) with (kused st2). change (phi (st_commit prob ck st2)) with (phi st2).
  change (maxord (st_commit prob ck st2)) with (maxord st2). rewrite U, Em, En.
  split; [cbn; rewrite En; reflexivity|]. split; [rewrite Ey, Eyp; reflexivity|]. split; [exact Rw|exact Rw1].
Qed.

Theorem C85_accepted_value fuel (a b : state) : ordok a -> step prob fuel a = Ret (b, Ok tt) ->
  exists y e past, trace (lp (nlp b)) = CStep (get_current_time b) y :: past /\
    ((get_last_order b < maxord b)%nat -> nth (get_last_order b + 1) (phi b) [] = e) /\
    forall i, (i < n)%nat -> let k := get_last_order b in
    Rabs (hist b 0 i - nth i y 0) <=
      2 * ((1 + u) ^ (k + 2) - 1) * (2 / (1 - u)) * (rsum (k + 1) (fun j => Rabs (hist b j i)) + Rabs (nth i e 0)).
Proof.
  intros O E. destruct (step_row0 fuel a b O E) as (e & ph & y & past & Tr & Ey & Rw & Rw1).
  exists y, e, past. split; [exact Tr|]. split; [exact Rw1|]. intros i Hi k. change (get_last_order b) with (kused b) in *. fold k in Rw, Ey.
  pose proof (tailsum_close u rnd Hr prob e ph i Hi (k + 1) 0) as C1.
  pose proof (rowsum_close u rnd Hr prob ph i Hi (k + 1)) as C2.
  assert (close u (k + 2) (Rabs (vget e i) + rsum (k + 1) (fun l => Rabs (vget (row ph (0 + l)) i))) (nth i y 0)
    (vget e i + rsum (k + 1) (fun l => vget (row ph (0 + l)) i))) as C3.
  { rewrite Ey. unfold vadd. change (nth i ?v 0) with (@vget R SR v i). rewrite (vget_tab rnd) by exact Hi. cbn [sadd SR ScalarRnd].
    replace (k + 2)%nat with (S (k + 1)) by lia. apply (close_rnd u rnd Hr). rewrite Rplus_comm, (Rplus_comm (vget e i)).
    apply close_add; [exact C2|]. eapply (close_le u rnd Hr); [| |apply close_exact]; [lia|right; reflexivity]. }
  assert (hist b 0 i = vget (tailsum prob e ph 0 (k + 1)) i) as Eh.
  { unfold hist. change (nth 0 (phi b) []) with (row (phi b) 0). rewrite Rw by lia. rewrite Nat.sub_0_r. reflexivity. }
  eapply (close_le u rnd Hr _ (k + 2)) in C1; [|lia|right; reflexivity].
  set (X := Rabs (vget e i) + _) in *. destruct C1 as (_ & D1). destruct C3 as (_ & D3). 
  assert (Rabs (hist b 0 i - (vget e i + rsum (k + 1) (fun l => vget (row ph (0 + l)) i))) <= ((1 + u) ^ (k + 2) - 1) * X) as D1' by (rewrite Eh; exact D1).
  assert (X <= 2 / (1 - u) * (rsum (k + 1) (fun j => Rabs (hist b j i)) + Rabs (nth i e 0))) as B.
  { assert (rsum (k + 1) (fun l => Rabs (vget (tailsum prob e ph (0 + l) (k + 1 - l)) i)) = rsum (k + 1) (fun j => Rabs (hist b j i))) as Q.
    { apply rsum_ext. intros j Hj. unfold hist. change (nth j (phi b) []) with (row (phi b) j). rewrite Rw by lia. reflexivity. }
    rewrite <- Q. pose proof (tailsum_back u rnd Hr prob e ph i Hi (k + 1) 0) as B.
    eapply Rle_trans; [|eapply Rle_trans; [exact B|]].
    - right. apply Rplus_comm.
    - match goal with |- ?x - ?y <= ?z => apply Rle_trans with x; [pose proof (Rabs_pos (vget (tailsum prob e ph 0 (k + 1)) i)) as W;
        assert (0 <= y) by exact W; lra|right; reflexivity] end. }
  pose proof (pow1u u rnd Hr (k + 2)) as P.
  replace (hist b 0 i - nth i y 0) with ((hist b 0 i - (vget e i + rsum (k + 1) (fun l => vget (row ph (0 + l)) i))) +
    - (nth i y 0 - (vget e i + rsum (k + 1) (fun l => vget (row ph (0 + l)) i)))) by ring.
  eapply Rle_trans; [apply Rabs_triang|]. rewrite Rabs_Ropp. 
  apply Rle_trans with (2 * ((1 + u) ^ (k + 2) - 1) * X); [lra|].
  rewrite (Rmult_assoc (2 * _) (2 / (1 - u))). apply Rmult_le_compat_l; [lra|exact B].
Qed.

(** ** C85: asked for the current time right after a step, [get_solution] returns
    the stored solution exactly *)
Theorem C85_current_time fuel (a b s : state) : (forall x, rnd (rnd x) = rnd x) ->
  ordok a -> step prob fuel a = Ret (b, Ok tt) -> get_solution prob b (get_current_time b) = Ret (s, Ok tt) ->
  forall i, (i < n)%nat -> nth i (get_yy s) 0 = hist b 0 i.
Proof.
  intros Hi2 O E Eg i Hi. destruct (step_row0 fuel a b O E) as (e & ph & y & past & _ & _ & Rw & _).
  pose proof (step_spec prob Hl fuel a b _ O E) as X. destruct (stepped_ord prob _ _ _ O X) as ((A & M & _ & K & _) & _). clear X.
  pose proof (gs_eval prob b s _ _ A ltac:(lia) Eg) as V. destruct (time_check b _); [destruct V; discriminate|].
  destruct V as (_ & Vy & _). unfold get_yy. rewrite Vy. unfold interp_y, get_current_time.
  assert (rnd 0 = 0) as R0.
  { pose proof (proj2 Hr 0) as Q. rewrite Rabs_R0, Rmult_0_r, Rminus_0_r in Q. pose proof (Rabs_pos (rnd 0)) as Q'.
    destruct (Req_dec (rnd 0) 0) as [D|D]; [exact D|]. pose proof (Rabs_pos_lt _ D). lra. }
  assert ((tn (nlp b) - tn (nlp b))%sc = 0) as -> by (cbn [ssub SR ScalarRnd]; rewrite Rminus_diag_eq by reflexivity; exact R0).
  assert (forall j, fst (fst (cdg (psi b) 0 (S j))) = 0) as Cz.
  { induction j as [|j IH].
    - cbn [cdg fst snd smul sdiv sone SR ScalarRnd]. unfold Rdiv. rewrite Rmult_0_l, R0, Rmult_0_r. exact R0.
    - cbn [cdg]. cbn [cdg] in IH. destruct (cdg (psi b) 0 j) as ((c & d) & g). cbn [fst snd] in *.
      cbn [smul SR ScalarRnd] in *. rewrite IH, Rmult_0_l. exact R0. }
  assert (rnd (hist b 0 i) = hist b 0 i) as Rh.
  { unfold hist. change (nth 0 (phi b) []) with (row (phi b) 0). rewrite Rw by lia. rewrite Nat.sub_0_r, Nat.add_1_r. cbn [tailsum].
    unfold vadd. change (nth i ?v 0) with (@vget R SR v i). rewrite (vget_tab rnd) by exact Hi. apply Hi2. }
  assert (forall k, vget (rowcf prob (cj_ (psi b) 0) (phi b) 0 (S k)) i = hist b 0 i) as G.
  { induction k as [|k IH].
    - cbn [rowcf]. unfold vscaled_add. rewrite (vget_tab rnd) by exact Hi.
      replace (vget (vzero n) i) with 0 by (unfold vget, vzero; rewrite nth_repeat; reflexivity).
      unfold cj_. cbn [cdg fst sadd smul sone SR ScalarRnd]. change (vget (row (phi b) (0 + 0)) i) with (hist b 0 i).
      rewrite Rmult_1_l, Rplus_0_l, !Rh. reflexivity.
    - remember (S k) as k1. cbn [rowcf]. unfold vscaled_add. rewrite (vget_tab rnd) by exact Hi. rewrite IH. unfold cj_. subst k1. rewrite Cz.
      cbn [sadd smul SR ScalarRnd]. rewrite Rmult_0_l, R0, Rplus_0_r. exact Rh. }
  rewrite Nat.add_1_r. apply G.
Qed.

End Rnd.
Print Assumptions C85_interpolation.
Print Assumptions C85_derivative.
Print Assumptions C85_prediction.
Print Assumptions C85_accepted_value.
Print Assumptions C85_current_time.

(** ** Examples *)
Require Import Verif.VecR Verif.IdaAccept Verif.IdaStepR Verif.IdaSafe Verif.IdaCall Verif.IdaCallR Verif.Script Verif.PropSafe
  Verif.PropSolve Verif.ExampleR Verif.PropStepR Verif.PropStop Verif.PropRoots Verif.PropHist Verif.PropGrid Verif.PropDky.

Open Scope R_scope.
Lemma id_rounding u : 0 <= u < 1 -> rounding u (fun x => x).
Proof. intros Hu. split; [exact Hu|]. intros x. unfold Rminus. rewrite Rplus_opp_r, Rabs_R0. pose proof (Rabs_pos x). nra. Qed.

(** A life of three steps, and the output at its current time. *)
Example C85_interpolation_hypotheses_met : exists st s : ida R (list nat) (script R), let rnd := fun x : R => x in
  rounding (/ 2 ^ 53) rnd /\ @nls_lawful R (script R) NLSplain /\ config_ok (configR None 0) /\
  @reach R (list nat) (script R) (ScalarRnd rnd) _ NLSplain scalarR ewtR (configR None 0) [0] [1] st /\
  @get_solution R (list nat) (script R) (ScalarRnd rnd) scalarR st (get_current_time st) = Ret (s, Ok tt) /\
  length (steps (trace (lp (nlp st)))) = 3%nat.
Proof.
  destruct C26_C27_C28_hypotheses_met as (st & A & B & C & _ & D & _ & (s & E) & _). exists st, s. cbv zeta.
  split; [apply id_rounding; split; [apply Rlt_le, Rinv_0_lt_compat; lra|]|].
  { rewrite <- Rinv_1. apply Rinv_lt_contravar; lra. }
  split; [exact A|]. split; [exact B|]. split; [exact C|]. split; [exact E|exact D].
Qed.

(** The third step of such a life. *)
Example C85_step_hypotheses_met : exists fl (a b s : ida R (list nat) (script R)), let rnd := fun x : R => x in
  rounding (/ 2 ^ 53) rnd /\ @nls_lawful R (script R) NLSplain /\ ordok a /\ nst a = 2%nat /\
  @step R (list nat) (script R) (ScalarRnd rnd) _ NLSplain scalarR fl a = Ret (b, Ok tt) /\
  @get_solution R (list nat) (script R) (ScalarRnd rnd) scalarR b (get_current_time b) = Ret (s, Ok tt).
Proof.
  pose (Hl := script_lawful [] : @nls_lawful R (script R) NLSplain).
  destruct (lives [] None 0 ltac:(lra) ltac:(discriminate) 2%nat ltac:(left; reflexivity) eq_refl) as (st & Rd & Hn).
  destruct (one_call [] None 0 ltac:(lra) ltac:(discriminate) st Rd) as (st' & t & r & _ & _ & _ & _ & _ & _ & _ & _ & _ & X & _).
  destruct X as (fl & s1 & s2 & Pc & _ & _ & Es & _ & Hn1 & _ & _ & Kp & _).
  destruct (Kp ltac:(rewrite Hn; discriminate)) as (_ & Eh & _). destruct Rd as (Re & _).
  pose proof (reach_ord scalarR ewtR Hl (configR None 0) [0] [1] st (configR_ok None 0) Re) as O.
  pose proof (pieces_ord scalarR ewtR Hl _ _ O Pc) as Os.
  pose proof (hused_sign scalarR ewtR Hl (configR None 0) [0] [1] st (configR_ok None 0) Re ltac:(rewrite Hn; discriminate)) as Sg.
  assert (hh s1 <> 0) as Hz by (rewrite Eh; intros Z; rewrite Z in Sg; lra).
  pose proof (step_spec scalarR Hl _ _ _ _ Os Es) as Sp.
  destruct (stepped_ord scalarR _ _ _ Os Sp) as ((A & M & _ & K & _) & _).
  assert (0 < hh s2 * hused s2) as Sh.
  { destruct Sp as (sta & nef & sx & ck & ek & ek1 & r1 & Ht & Et & Htr & [(_ & _ & sb & Hcp & ->)|(e & _ & _ & [(_ & _ & _ & D & _)|(_ & D & _)])]); [|discriminate..].
    assert (hh (st_init s1) = hh s1) as E0 by apply (init_fields s1).
    pose proof (tries_sign _ _ _ _ _ Ht ltac:(rewrite E0; exact Hz)) as S1.
    pose proof (tr_h _ _ _ _ _ Htr) as Th. injection Th as E1 _ _.
    pose proof (cp_used _ _ _ Hcp) as U. injection U as _ U _.
    change (0 < hh sb * hused sb). rewrite U, Rmult_comm. eapply next_h_sign; [|apply (cp_hh _ _ _ Hcp)].
    rewrite E1. intros Z. rewrite Z in S1. lra. }
  pose proof (proj2 (accepted_check scalarR s2 (get_current_time s2) A ltac:(lia)) (time_tn s2 Sh)) as (s & Eg).
  exists fl, s1, s2, s. cbv zeta.
  split; [apply id_rounding; split; [apply Rlt_le, Rinv_0_lt_compat; lra|]|].
  { rewrite <- Rinv_1. apply Rinv_lt_contravar; lra. }
  split; [exact Hl|]. split; [exact Os|]. split; [rewrite Hn1; exact Hn|]. split; [exact Es|exact Eg].
Qed.
