(** * PropDky: interpolation requests of the user, [get_solution] and [get_dky]
      (C26-C30) *)
Require Import List Arith Bool Lia Floats Reals Lra Psatz.
Import ListNotations.
Require Import Verif.Base Verif.Scalar Verif.ScalarR Verif.ScalarF Verif.Dense Verif.Norms Verif.NormsR Verif.Newton Verif.NewtonSpec Verif.IdaState
  Verif.IdaNls Verif.IdaCore Verif.IdaRoots Verif.IdaSolve Verif.IdaIo Verif.BaseFacts Verif.NewtonFacts
  Verif.IdaFacts Verif.IdaLoops Verif.IdaStep Verif.IdaSpec Verif.IdaShell Verif.IdaReach Verif.IdaInv
  Verif.IdaCount Verif.IdaLife Verif.IdaTrace Verif.IdaAccept Verif.IdaStepR Verif.IdaSafe Verif.IdaInterp Verif.IdaCall Verif.IdaCallR
  Verif.Script Verif.Witness Verif.PropSafe Verif.PropSolve Verif.ExampleR Verif.PropStepR Verif.PropStop
  Verif.RSum Verif.VecR Verif.PolyR Verif.HistSpec Verif.IdaHist Verif.IdaHistLife Verif.InterpR Verif.IdaNoFail Verif.IdaRow0 Verif.PropHist
  Verif.IdaDky.
Set Warnings "-inexact-float".
Open Scope nat_scope.

(** ** For every scalar *)
Section Any.
Context {T LSt NSt : Type} `{Scalar T} `{LSolver T LSt} `{NLSolver T NSt}.
Variable prob : problem T.
Variable ewt_set : list T -> list T.
Hypothesis Hl : @nls_lawful T NSt _.
Notation state := (ida T LSt NSt).

Lemma reach_kused c yy0 yp0 (st : state) : config_ok c -> reach prob ewt_set c yy0 yp0 st -> arrays st /\ kused st <= 5.
Proof.
  intros Hc Hr. destruct (reach_ord prob ewt_set Hl c yy0 yp0 st Hc Hr) as (A & M & _ & K & _). split; [exact A|]. lia.
Qed.

(** C30, and its converse. *)
Theorem C30_bad_k (st : state) t k dky :
  (get_last_order st < k -> get_dky prob st t k dky = Ret (dky, Err (EIda BadK))) /\
  (forall d, get_dky prob st t k dky = Ret (d, Err (EIda BadK)) -> get_last_order st < k /\ d = dky).
Proof.
  unfold get_dky, get_last_order. destruct (Nat.ltb_spec (kused st) k) as [L|L]; split; intros X; try lia; auto.
  - intros E. injection E as <-. auto.
  - intros E. exfalso. destruct (time_check st t) as [e|] eqn:Et.
    + injection E as _ ->. unfold time_check in Et. destruct (_ <? _)%sc; discriminate.
    + apply bind_ret_inv in E. destruct E as (((c & c1) & p) & _ & E). apply bind_ret_inv in E. destruct E as (u & _ & E).
      apply bind_ret_inv in E. destruct E as (u2 & _ & E). apply bind_ret_inv in E. destruct E as (r & _ & E). discriminate.
Qed.

(** C29.  The only legal arguments that panic are k = 0 at order 5. *)
Theorem C29_no_panic_partial c yy0 yp0 (st : state) t k dky :
  config_ok c -> reach prob ewt_set c yy0 yp0 st -> k <> 0 \/ get_last_order st <> 5 ->
  exists d r, get_dky prob st t k dky = Ret (d, r).
Proof.
  intros Hc Hr Hk. destruct (reach_kused c yy0 yp0 st Hc Hr) as (A & K). unfold get_last_order in *.
  destruct (Nat.le_gt_cases k (kused st)) as [L|L].
  - rewrite (dky_spec prob st t k dky A K L). destruct (time_check st t) as [e|]; [eauto|].
    destruct (Nat.eqb_spec (kused st) 5), (Nat.eqb_spec k 0); cbn [andb]; try lia; eauto.
  - destruct (C30_bad_k st t k dky) as (E & _). rewrite (E L). eauto.
Qed.

Theorem C29_value_panics c yy0 yp0 (st : state) t dky s :
  config_ok c -> reach prob ewt_set c yy0 yp0 st -> get_last_order st = 5 ->
  get_solution prob st t = Ret (s, Ok tt) -> get_dky prob st t 0 dky = Panic.
Proof.
  intros Hc Hr Hk Hs. destruct (reach_kused c yy0 yp0 st Hc Hr) as (A & K). unfold get_last_order in *.
  rewrite (dky_spec prob st t 0 dky A K ltac:(lia)).
  pose proof (gs_eval prob st s t _ A K Hs) as G. destruct (time_check st t); [destruct G; discriminate|].
  rewrite Hk. reflexivity.
Qed.

(** C26: a rejected request has changed nothing, and there is one error. *)
Theorem C26_rejected_untouched (st s : state) t e : get_solution prob st t = Ret (s, Err e) ->
  s = st /\ e = EIda (BadTimeValue t (get_current_time st - get_last_step st)%sc (get_current_time st)).
Proof.
  unfold get_solution. destruct (time_check st t) as [e'|] eqn:E.
  - intros X. injection X as <- <-. split; [reflexivity|]. unfold time_check in E. destruct (_ <? _)%sc; [|discriminate].
    injection E as <-. reflexivity.
  - cbv zeta. intros X. exfalso. repeat (apply bind_ret_inv in X; destruct X as (? & _ & X); repeat match goal with p : (_ * _)%type |- _ => destruct p end). discriminate.
Qed.
End Any.
Print Assumptions C30_bad_k.
Print Assumptions C29_no_panic_partial.
Print Assumptions C29_value_panics.
Print Assumptions C26_rejected_untouched.

(** ** Over the reals *)
Open Scope R_scope.

(** [g] is the [k]-th derivative of [f]. *)
Fixpoint nth_derivative (k : nat) (f g : R -> R) : Prop :=
  match k with
  | O => forall t, f t = g t
  | S q => exists f', (forall t, derivable_pt_lim f t (f' t)) /\ nth_derivative q f' g
  end.

Lemma nth_der_ext k : forall f f' g g', (forall t, f t = f' t) -> (forall t, g t = g' t) -> nth_derivative k f g -> nth_derivative k f' g'.
Proof.
  induction k as [|k IH]; intros f f' g g' Hf Hg; cbn.
  - intros E t. rewrite <- Hf, <- Hg. apply E.
  - intros (h & Hh & Hd). exists h. split; [intros t; eapply derivable_ext; [exact Hf|apply Hh]|]. eapply IH; [| |exact Hd]; auto.
Qed.

(** c_j and its derivatives. *)
Fixpoint cder (ps : list R) (delt : R) (i j : nat) : R :=
  match j with
  | O => match i with O => 1 | _ => 0 end
  | S q => (INR i * (match i with O => 0 | S p => cder ps delt p q end) + cder ps delt i q * (delt + psv ps q)) / vget ps q
  end.

Lemma cder_low ps delt j : forall i, (j < i)%nat -> cder ps delt i j = 0.
Proof.
  induction j as [|j IH]; intros [|i] Hi; try lia; [reflexivity|]. cbn [cder].
  rewrite (IH i), (IH (S i)) by lia. unfold Rdiv. ring.
Qed.

Lemma dcf_cder ps delt j : forall i, (i <= j)%nat -> dcf ps delt i j = cder ps delt i j.
Proof.
  induction j as [|j IH]; intros i Hi.
  - replace i with 0%nat by lia. reflexivity.
  - cbn [dcf cder]. destruct (Nat.eqb_spec i (S j)) as [->|Hne].
    + rewrite (IH j) by lia. rewrite (cder_low _ _ j (S j)) by lia. cbn [sofnat smul sdiv ScalarR]. f_equal. ring.
    + rewrite (IH i) by lia. destruct i as [|i].
      * cbn [sofnat smul sdiv sadd szero ScalarR]. cbn [INR]. f_equal.
      * rewrite (IH i) by lia. reflexivity.
Qed.

Lemma cder_cj ps delt j : cder ps delt 0 j = cj_ ps delt j.
Proof.
  assert (G : forall m, snd (cdg ps delt m) = (delt + psv ps m) / vget ps m).
  { intros [|m]; cbn [cdg]; [cbn; f_equal; ring|]. destruct (cdg ps delt m) as ((c & d) & g). reflexivity. }
  induction j as [|j IH]; [reflexivity|]. cbn [cder]. unfold cj_ in *. cbn [cdg]. specialize (G j).
  destruct (cdg ps delt j) as ((c & d) & g). cbn [fst snd] in *. rewrite IH, G. cbn [INR smul ScalarR]. unfold Rdiv. ring.
Qed.

Lemma cder_der ps t0 j : forall i t, derivable_pt_lim (fun s => cder ps (s - t0) i j) t (cder ps (t - t0) (S i) j).
Proof.
  induction j as [|j IH]; intros i t.
  - cbn [cder]. apply derivable_pt_lim_const.
  - set (a := match i with O => fun _ => 0 | S p => fun s => cder ps (s - t0) p j end).
    assert (Ha : derivable_pt_lim (fun s => INR i * a s) t (INR i * cder ps (t - t0) i j)).
    { destruct i as [|p]; unfold a.
      - apply (derivable_ext (fun _ => 0)); [intros z; cbn; ring|]. replace (INR 0 * _) with 0 by (cbn; ring). apply derivable_pt_lim_const.
      - apply derivable_pt_lim_scal. apply IH. }
    assert (Hb : derivable_pt_lim (fun s => s - t0 + psv ps j) t 1).
    { apply (derivable_ext (fun s => s + (- t0 + psv ps j))); [intros z; ring|].
      replace 1 with (1 + 0) by ring. apply derivable_pt_lim_plus; [apply derivable_pt_lim_id|apply derivable_pt_lim_const]. }
    pose proof (derivable_pt_lim_plus _ _ _ _ _ Ha (derivable_pt_lim_mult _ _ _ _ _ (IH i t) Hb)) as D.
    apply (derivable_pt_lim_scal _ (/ vget ps j)) in D.
    replace (cder ps (t - t0) (S i) (S j)) with
      (/ vget ps j * (INR i * cder ps (t - t0) i j + (cder ps (t - t0) (S i) j * (t - t0 + psv ps j) + cder ps (t - t0) i j * 1))).
    2:{ cbn [cder]. rewrite S_INR. unfold Rdiv. ring. }
    eapply derivable_ext; [|exact D]. intros z. unfold mult_real_fct, plus_fct, mult_fct, a. cbn [cder].
    destruct i; unfold Rdiv; ring.
Qed.

Lemma csum_der ps t0 (v : nat -> R) m k : forall i, nth_derivative k
  (fun t => rsum m (fun j => cder ps (t - t0) i j * v j)) (fun t => rsum m (fun j => cder ps (t - t0) (k + i) j * v j)).
Proof.
  induction k as [|k IH]; intros i; cbn [nth_derivative]; [reflexivity|].
  exists (fun t => rsum m (fun j => cder ps (t - t0) (S i) j * v j)). split.
  - intros t. apply (rsum_der m (fun j s => cder ps (s - t0) i j * v j)). intros j _.
    apply (derivable_ext (fun s => v j * cder ps (s - t0) i j)); [intros z; ring|]. rewrite Rmult_comm.
    apply derivable_pt_lim_scal. apply cder_der.
  - eapply nth_der_ext; [reflexivity| |apply IH]. intros t. cbn beta. replace (k + S i)%nat with (S k + i)%nat by lia. reflexivity.
Qed.

Section Reals.
Context {LSt NSt : Type} `{LSolver R LSt} `{NLSolver R NSt}.
Variable prob : problem R.
Variable ewt_set : list R -> list R.
Hypothesis Hl : @nls_lawful R NSt _.
Notation n := (model_size prob).
Notation state := (ida R LSt NSt).
Notation tr st := (trace (lp (nlp st))).

Lemma vget_dkysum (f : nat -> R) ph lo cnt x : (x < n)%nat ->
  vget (dkysum prob f ph lo cnt) x = rsum cnt (fun i => vget (row ph (lo + i)) x * f (lo + i)%nat).
Proof.
  intros Lx. induction cnt as [|c IH]; cbn [dkysum rsum].
  - rewrite vget_vzero. reflexivity.
  - rewrite vget_vtab by exact Lx. rewrite IH. reflexivity.
Qed.

(** The sum [get_dky] computes: the derivative of the polynomial cut after the
    term of degree max k (kused - k + 1). *)
Lemma dky_value (st : state) t k dky d x : arrays st -> (kused st <= 5)%nat -> (x < n)%nat ->
  get_dky prob st t k dky = Ret (d, Ok tt) ->
  (k <= kused st)%nat /\ nth x d 0 =
    rsum (S (Nat.min (kused st) (Nat.max k (kused st - k + 1)))) (fun j => cder (psi st) (t - tn (nlp st)) k j * vget (row (phi st) j) x).
Proof.
  intros A K Lx E.
  assert (Hk : (k <= kused st)%nat).
  { unfold get_dky in E. destruct (Nat.ltb_spec (kused st) k); [discriminate|lia]. }
  split; [exact Hk|]. rewrite (dky_spec prob st t k dky A K Hk) in E. destruct (time_check st t); [discriminate|].
  destruct (_ && _); [discriminate|]. injection E as <-.
  match goal with |- nth x ?v 0 = _ => change (nth x v 0) with (vget v x) end. rewrite vget_dkysum by exact Lx.
  set (M := Nat.min (kused st) (Nat.max k (kused st - k + 1))).
  assert (HM : (k <= M <= kused st)%nat) by lia.
  replace (S M) with (k + (S M - k))%nat by lia. rewrite rsum_split.
  rewrite (rsum_0 k) by (intros i Hi; rewrite cder_low by exact Hi; ring). rewrite Rplus_0_l.
  replace (kused st + 1 - k)%nat with ((S M - k) + (kused st - M))%nat by lia. rewrite rsum_split.
  rewrite (rsum_0 (kused st - M)), Rplus_0_r.
  - apply rsum_ext. intros i Hi. unfold dky_coef. destruct (Nat.leb_spec (k + i) (Nat.max k (kused st - k + 1))); [|lia].
    rewrite dcf_cder by lia. cbn [ssub ScalarR]. ring.
  - intros i Hi. unfold dky_coef. destruct (Nat.leb_spec (k + (S M - k + i)) (Nat.max k (kused st - k + 1))); [lia|].
    cbn [szero ScalarR]. ring.
Qed.

Lemma interp_csum (st : state) x t : (x < n)%nat -> vget (interp_y prob st t) x =
  rsum (S (kord st)) (fun j => cder (psi st) (t - tn (nlp st)) 0 j * vget (row (phi st) j) x).
Proof.
  intros Lx. unfold interp_y. rewrite vget_rowcf by exact Lx. rewrite Nat.add_1_r. apply rsum_ext. intros j _.
  rewrite cder_cj. reflexivity.
Qed.

(** ** C28 *)
(** For k up to 1 and for k the last order, [get_dky] gives the derivatives of
    the polynomial whose values [get_solution] gives. *)
Theorem C28_derivatives_partial c yy0 yp0 (st : state) :
  config_ok c -> reach prob ewt_set c yy0 yp0 st -> steps (tr st) <> [] -> forall x, (x < n)%nat -> exists p,
    (length p <= get_last_order st + 1)%nat /\
    (forall t s, get_solution prob st t = Ret (s, Ok tt) -> nth x (get_yy s) 0 = peval p t) /\
    forall k, (k <= 1)%nat \/ k = get_last_order st ->
      exists g, nth_derivative k (peval p) g /\
        forall t dky d, get_dky prob st t k dky = Ret (d, Ok tt) -> nth x d 0 = g t.
Proof.
  intros Hc Hr Hs x Lx. destruct (reach_kused prob ewt_set Hl c yy0 yp0 st Hc Hr) as (A & K).
  assert (Hz : nst st <> 0%nat) by (apply (nst_steps prob ewt_set Hl c yy0 yp0 st Hc Hr); exact Hs).
  destruct (reach_ord prob ewt_set Hl c yy0 yp0 st Hc Hr) as (_ & _ & _ & _ & Hpos). destruct (Hpos Hz) as (Hku & _).
  assert (Ek : kord st = kused st) by (unfold kord; destruct (Nat.eqb_spec (kused st) 0); lia).
  destruct (interp_pol prob st x Lx) as (p & P1 & P2). exists p. unfold get_last_order. rewrite Ek in P1. split; [exact P1|]. split.
  - intros t s E. pose proof (gs_eval prob st s t _ A K E) as G.
    destruct (time_check st t) as [e|]; [destruct G as (_ & G); discriminate|]. destruct G as (_ & G1 & _).
    unfold get_yy. rewrite G1. apply P2.
  - intros k Hk. set (v := fun j => vget (row (phi st) j) x).
    exists (fun t => rsum (S (kused st)) (fun j => cder (psi st) (t - tn (nlp st)) k j * v j)). split.
    + eapply nth_der_ext; [| |apply (csum_der (psi st) (tn (nlp st)) v (S (kused st)) k 0)].
      * intros t. rewrite <- (proj1 (P2 t)), interp_csum by exact Lx. rewrite Ek. reflexivity.
      * intros t. cbn beta. replace (k + 0)%nat with k by lia. reflexivity.
    + intros t dky d E. destruct (dky_value st t k dky d x A K Lx E) as (Hle & V). rewrite V.
      replace (Nat.min (kused st) (Nat.max k (kused st - k + 1))) with (kused st) by lia. reflexivity.
Qed.

(** What it gives in general: the derivative of the polynomial through the last
    max k (kused - k + 1) + 1 points instead of the last kused + 1. *)
Theorem C28_truncated c yy0 yp0 (st : state) k :
  config_ok c -> reach prob ewt_set c yy0 yp0 st -> get_num_nonlin_solv_conv_fails st = 0%nat ->
  steps (tr st) <> [] -> tries_since (tr st) = 0%nat \/ (get_last_order st <= get_current_order st)%nat ->
  let deg := Nat.min (get_last_order st) (Nat.max k (get_last_order st - k + 1)) in
  forall x, (x < n)%nat -> exists p g,
    interpolates (g_t0 c) yy0 (tr st) deg x p /\ nth_derivative k (peval p) g /\
    forall t dky d, get_dky prob st t k dky = Ret (d, Ok tt) -> nth x d 0 = g t.
Proof.
  intros Hc Hr Hn Hs Hor deg x Lx. destruct (reach_kused prob ewt_set Hl c yy0 yp0 st Hc Hr) as (A5 & K).
  destruct (reach_HJ prob ewt_set Hl c Hc yy0 yp0 st Hr) as (Jst & L).
  destruct (L Hn) as (_ & _ & _ & A). pose proof (tl_n _ _ _ _ (proj1 Jst)) as Ln.
  assert (Hz : nst st <> 0%nat) by (intros X; rewrite X in Ln; destruct (steps (tr st)); [congruence|discriminate]).
  destruct (A (or_introl Hz)) as (b0 & b1 & B1 & B2 & B3 & B4 & B5).
  set (hs := map apt (steps (tr st)) ++ [b0; b1]) in *.
  destruct (rl_h _ _ _ (proj2 Jst) (or_introl Hz)) as (Hh & _).
  destruct (h_ord _ _ _ B3 Hz) as (Hk1 & Hk2).
  pose proof (reach_ord prob ewt_set Hl c yy0 yp0 st Hc Hr) as HO.
  destruct HO as (Harr & Hm & Hm2 & Hm3 & Hpos). destruct (Hpos Hz) as (Hku & Hkk & _).
  unfold get_last_order, get_current_order in *.
  assert (Hps : forall i, (i < kused st)%nat -> vget (psi st) i = tm hs 0 - tm hs (S i)).
  { intros i Li. destruct Hor as [Hor|Hor]; [apply (B5 Hor); lia|apply (h_psi _ _ _ B3); lia]. }
  assert (Hd : distinct deg (tm hs)).
  { pose proof (hist_distinct prob hs st B3 Hh) as D. intros i j Li Lj. apply D; lia. }
  destruct (npoly_through (tm hs) (yv hs x) deg Hd) as (p & (Pl & Pn) & Pe). exists p.
  set (v := fun j => vget (row (phi st) j) x).
  exists (fun t => rsum (S deg) (fun j => cder (psi st) (t - tn (nlp st)) k j * v j)).
  split; [|split].
  - split; [exact Pl|]. intros i ti yi Li Ei Hor2.
    destruct (points_hs c yy0 st b0 b1 i ti yi B1 B2 Ei Hor2) as (X1 & X2). fold hs in X1, X2.
    rewrite X1, (X2 x). apply Pn. exact Li.
  - eapply nth_der_ext; [| |apply (csum_der (psi st) (tn (nlp st)) v (S deg) k 0)].
    + intros t. rewrite Pe. unfold npoly. apply rsum_ext. intros j Lj. unfold v.
      rewrite (h_phi _ _ _ B3) by lia.
      assert (Hdj : forall l, (l < j)%nat -> tm hs 0 - tm hs (S l) <> 0).
      { intros l Ll. apply (old_psi prob hs st B3 Hh). lia. }
      assert (G : forall m, (m <= kused st)%nat ->
        cder (psi st) (t - tn (nlp st)) 0 m = rprod m (fun l => (t - tm hs l) / (tm hs 0 - tm hs (S l)))).
      { induction m as [|m IH]; intros Lm; [reflexivity|]. cbn [cder rprod]. rewrite <- IH by lia. rewrite Hps by lia.
        cbn [INR]. rewrite Rmult_0_l, Rplus_0_l. unfold Rdiv. rewrite Rmult_assoc. f_equal. f_equal.
        destruct m as [|m]; cbn [psv]; [|rewrite Hps by lia]; rewrite (h_now _ _ _ B3); cbn; ring. }
      rewrite (G j) by lia. rewrite rprod_div by exact Hdj. field. apply rprod_neq_0. exact Hdj.
    + intros t. cbn beta. replace (k + 0)%nat with k by lia. reflexivity.
  - intros t dky d E. destruct (dky_value st t k dky d x A5 K Lx E) as (Hle & V). exact V.
Qed.

(** ** C26 *)
Theorem C26_window_partial c yy0 yp0 (st : state) t :
  config_ok c -> reach prob ewt_set c yy0 yp0 st -> steps (tr st) <> [] ->
  (before_last_step st t /\
     get_solution prob st t = Ret (st, Err (EIda (BadTimeValue t (get_current_time st - get_last_step st) (get_current_time st))))) \/
  (~ before_last_step st t /\ exists s, get_solution prob st t = Ret (s, Ok tt)).
Proof.
  intros Hc Hr Hs. destruct (reach_kused prob ewt_set Hl c yy0 yp0 st Hc Hr) as (A & K).
  destruct (Rlt_dec ((t - (get_current_time st - hused st)) * get_current_setp st)
    (- (100 * eps * (Rabs (get_current_time st) + Rabs (get_current_setp st))) * Rabs (get_current_setp st))) as [B|B].
  - left. split; [exact B|]. unfold get_solution. rewrite (before_check st t B). reflexivity.
  - right. split; [exact B|]. destruct (gs_ret prob st t A K) as (s & E). exists s. rewrite E.
    assert (Hz : nst st <> 0%nat) by (apply (nst_steps prob ewt_set Hl c yy0 yp0 st Hc Hr); exact Hs).
    destruct (reach_ordJ prob ewt_set Hl _ _ _ _ Hc Hr) as (_ & Jst).
    assert (Tc : time_check st t = None); [|rewrite Tc; reflexivity].
    apply time_ok; [|unfold get_current_time, get_current_setp in B; lra].
    exact (hused_sign prob ewt_set Hl c yy0 yp0 st Hc Hr Hz).
Qed.

(** The missing half: no time after the current one is rejected. *)
Theorem C26_late_accepted c yy0 yp0 (st : state) t :
  config_ok c -> reach prob ewt_set c yy0 yp0 st -> steps (tr st) <> [] ->
  0 <= (t - get_current_time st) * get_last_step st -> exists s, get_solution prob st t = Ret (s, Ok tt).
Proof.
  intros Hc Hr Hs Ht. destruct (C26_window_partial c yy0 yp0 st t Hc Hr Hs) as [(B & _)|(_ & E)]; [|exact E]. exfalso.
  assert (Hz : nst st <> 0%nat) by (apply (nst_steps prob ewt_set Hl c yy0 yp0 st Hc Hr); exact Hs).
  pose proof (hused_sign prob ewt_set Hl c yy0 yp0 st Hc Hr Hz) as Sg.
  unfold before_last_step, get_current_time, get_current_setp, get_last_step in *.
  assert (0 <= 100 * eps * (Rabs (tn (nlp st)) + Rabs (hh st)) * Rabs (hh st)).
  { pose proof eps_pos. pose proof (Rabs_pos (tn (nlp st))). pose proof (Rabs_pos (hh st)). apply Rmult_le_pos; [|lra]. apply Rmult_le_pos; lra. }
  assert (0 <= (t - tn (nlp st)) * hh st); [|nra].
  destruct (Rtotal_order (hused st) 0) as [Q|[Q|Q]]; [|rewrite Q in Sg; lra|].
  - assert (hh st < 0) by nra. assert (t - tn (nlp st) <= 0) by nra. nra.
  - assert (0 < hh st) by nra. assert (0 <= t - tn (nlp st)) by nra. nra.
Qed.

(** ** C27 *)
Lemma dj_now (ps : list R) m : (forall i, (i < m)%nat -> vget ps i <> 0) ->
  dj_ ps 0 (S m) = / vget ps m /\ cj_ ps 0 (S m) = 0.
Proof.
  assert (G : forall m, snd (cdg ps 0 m) = psv ps m / vget ps m).
  { intros [|q]; cbn [cdg]; [cbn; unfold Rdiv; ring|]. destruct (cdg ps 0 q) as ((c & d) & g). cbn. f_equal. ring. }
  induction m as [|m IH]; intros Hp; unfold dj_, cj_ in *.
  - cbn. split; unfold Rdiv; ring.
  - destruct IH as (I1 & I2); [intros; apply Hp; lia|]. specialize (G (S m)).
    cbn [cdg] in *. destruct (cdg ps 0 m) as ((c & d) & g). cbn [fst snd psv] in *. rewrite I1, I2, G.
    cbn [smul sadd sdiv ScalarR]. split; [|ring]. unfold Rdiv. rewrite Rmult_0_l, Rplus_0_r, <- Rmult_assoc, Rinv_l by (apply Hp; lia). ring.
Qed.

(** Up to order 1 the documented formula holds. *)
Theorem C27_first_order_partial c yy0 yp0 (st s : state) :
  config_ok c -> reach prob ewt_set c yy0 yp0 st -> get_solution prob st (get_current_time st) = Ret (s, Ok tt) ->
  forall x, (x < n)%nat ->
    nth x (get_yy s) 0 = nth x (nth 0 (phi st) []) 0 /\
    ((get_last_order st <= 1)%nat -> nth x (get_yp s) 0 = nth x (nth 1 (phi st) []) 0 / nth 0 (psi st) 0).
Proof.
  intros Hc Hr E x Lx. destruct (reach_kused prob ewt_set Hl c yy0 yp0 st Hc Hr) as (A & K). unfold get_current_time, get_last_order in *.
  pose proof (gs_eval prob st s _ _ A K E) as G. destruct (time_check st (tn (nlp st))) as [e|]; [destruct G as (_ & G); discriminate|].
  destruct G as (_ & G1 & G2). unfold get_yy, get_yp. rewrite G1, G2. split; [exact (interp_now prob st x Lx)|].
  intros Hk. assert (Ek : kord st = 1%nat) by (unfold kord; destruct (Nat.eqb_spec (kused st) 0); lia).
  unfold interp_yp. rewrite Ek.
  match goal with |- nth x ?v 0 = _ => change (nth x v 0) with (vget v x) end. rewrite vget_rowcf by exact Lx. cbn [rsum].
  change ((tn (nlp st) - tn (nlp st))%sc) with (tn (nlp st) - tn (nlp st)). rewrite Rminus_diag_eq by reflexivity.
  rewrite (proj1 (dj_now (psi st) 0 ltac:(intros; lia))). unfold vget, row. cbn [Nat.add]. unfold Rdiv. cbn [szero ScalarR]. ring.
Qed.

(** At any order every row of the history contributes. *)
Theorem C27_formula c yy0 yp0 (st s : state) :
  config_ok c -> reach prob ewt_set c yy0 yp0 st -> get_num_nonlin_solv_conv_fails st = 0%nat ->
  steps (tr st) <> [] -> tries_since (tr st) = 0%nat \/ (get_last_order st <= get_current_order st)%nat ->
  get_solution prob st (get_current_time st) = Ret (s, Ok tt) ->
  forall x, (x < n)%nat ->
    nth x (get_yp s) 0 = rsum (get_last_order st) (fun j => nth x (nth (S j) (phi st) []) 0 / nth j (psi st) 0).
Proof.
  intros Hc Hr Hn Hs Hor E x Lx. destruct (reach_kused prob ewt_set Hl c yy0 yp0 st Hc Hr) as (A5 & K).
  destruct (reach_HJ prob ewt_set Hl c Hc yy0 yp0 st Hr) as (Jst & L).
  destruct (L Hn) as (_ & _ & _ & A). pose proof (tl_n _ _ _ _ (proj1 Jst)) as Ln.
  assert (Hz : nst st <> 0%nat) by (intros X; rewrite X in Ln; destruct (steps (tr st)); [congruence|discriminate]).
  destruct (A (or_introl Hz)) as (b0 & b1 & B1 & B2 & B3 & B4 & B5).
  set (hs := map apt (steps (tr st)) ++ [b0; b1]) in *.
  destruct (rl_h _ _ _ (proj2 Jst) (or_introl Hz)) as (Hh & _).
  destruct (h_ord _ _ _ B3 Hz) as (Hk1 & Hk2).
  pose proof (reach_ord prob ewt_set Hl c yy0 yp0 st Hc Hr) as HO.
  destruct HO as (Harr & Hm & Hm2 & Hm3 & Hpos). destruct (Hpos Hz) as (Hku & Hkk & _).
  unfold get_last_order, get_current_order, get_current_time in *.
  assert (Hps : forall i, (i < kused st)%nat -> vget (psi st) i = tm hs 0 - tm hs (S i)).
  { intros i Li. destruct Hor as [Hor|Hor]; [apply (B5 Hor); lia|apply (h_psi _ _ _ B3); lia]. }
  assert (Hnz : forall i, (i < kused st)%nat -> vget (psi st) i <> 0).
  { intros i Li. rewrite Hps by exact Li. apply (old_psi prob hs st B3 Hh). lia. }
  pose proof (gs_eval prob st s _ _ A5 K E) as G. destruct (time_check st (tn (nlp st))) as [e|]; [destruct G as (_ & G); discriminate|].
  destruct G as (_ & _ & G2). unfold get_yp. rewrite G2. unfold interp_yp.
  assert (Ek : kord st = kused st) by (unfold kord; destruct (Nat.eqb_spec (kused st) 0); lia). rewrite Ek.
  match goal with |- nth x ?v 0 = _ => change (nth x v 0) with (vget v x) end. rewrite vget_rowcf by exact Lx.
  apply rsum_ext. intros j Lj. change ((tn (nlp st) - tn (nlp st))%sc) with (tn (nlp st) - tn (nlp st)).
  rewrite Rminus_diag_eq by reflexivity. rewrite (proj1 (dj_now (psi st) j ltac:(intros; apply Hnz; lia))).
  unfold vget, row. cbn [Nat.add szero ScalarR]. unfold Rdiv. ring.
Qed.
End Reals.
Print Assumptions C28_derivatives_partial.
Print Assumptions C28_truncated.
Print Assumptions C26_window_partial.
Print Assumptions C26_late_accepted.
Print Assumptions C27_first_order_partial.
Print Assumptions C27_formula.

(** ** Examples *)
(** A life over the reals for C26-C28, with the calls spoken of. *)
Example C26_C27_C28_hypotheses_met : exists (st : ida R (list nat) (script R)),
  @nls_lawful R (script R) NLSplain /\ config_ok (configR None 0) /\
  @reach R (list nat) (script R) _ _ NLSplain scalarR ewtR (configR None 0) [0] [1] st /\
  get_num_nonlin_solv_conv_fails st = 0%nat /\ length (steps (trace (lp (nlp st)))) = 3%nat /\ tries_since (trace (lp (nlp st))) = 0%nat /\
  (exists s, get_solution scalarR st (get_current_time st) = Ret (s, Ok tt)) /\
  (exists t, 0 <= (t - get_current_time st) * get_last_step st /\ t <> get_current_time st) /\
  (exists t, before_last_step st t) /\
  exists d, get_dky scalarR st (get_current_time st) 1 [0] = Ret (d, Ok tt).
Proof.
  destruct C23_hypotheses_met as (st & A & B & C & D & E & F & s & G). exists st.
  do 6 (split; [assumption|]). split; [exists s; exact G|].
  assert (Hs : steps (trace (lp (nlp st))) <> []) by (intros X; rewrite X in E; discriminate).
  assert (Hz : nst st <> 0%nat) by (apply (@nst_steps (list nat) (script R) _ NLSplain scalarR ewtR A _ _ _ st B C); exact Hs).
  pose proof (@hused_sign (list nat) (script R) _ NLSplain scalarR ewtR A _ _ _ st B C Hz) as Sg.
  split.
  { exists (get_current_time st + get_last_step st). unfold get_last_step, get_current_time in *.
    assert (hused st <> 0) by nra. split; [|lra]. replace (_ - _) with (hused st) by ring. nra. }
  split.
  { exists (tn (nlp st) - hused st - (100 * eps * (Rabs (tn (nlp st)) + Rabs (hh st)) + 1) * Rsignum (hh st)).
    unfold before_last_step, get_current_time, get_current_setp.
    assert (Hg : Rsignum (hh st) * hh st = Rabs (hh st)).
    { unfold Rsignum. destruct (Rlt_dec (hh st) 0); unfold Rabs; destruct (Rcase_abs (hh st)); lra. }
    assert (Hh : hh st <> 0) by nra. pose proof (Rabs_pos_lt _ Hh).
    set (F0 := 100 * eps * (Rabs (tn (nlp st)) + Rabs (hh st))).
    replace ((tn (nlp st) - hused st - (F0 + 1) * Rsignum (hh st) - (tn (nlp st) - hused st)) * hh st)
      with (- (F0 + 1) * (Rsignum (hh st) * hh st)) by ring. rewrite Hg. lra. }
  destruct (@reach_kused R (list nat) (script R) _ _ NLSplain scalarR ewtR A _ _ _ st B C) as (A5 & K).
  destruct (@reach_ord R (list nat) (script R) _ _ NLSplain scalarR ewtR A _ _ _ st B C) as (_ & _ & _ & _ & Hpos). destruct (Hpos Hz) as (Hku & _).
  rewrite (dky_spec scalarR st _ 1 [0] A5 K ltac:(lia)).
  pose proof (gs_eval scalarR st s _ _ A5 K G) as V. destruct (time_check st (get_current_time st)); [destruct V; discriminate|].
  replace ((kused st =? 5) && (1 =? 0))%nat with false by (rewrite andb_false_r; reflexivity). eexists. reflexivity.
Qed.

Close Scope R_scope.
Open Scope float_scope.

(** y = t*t*t. *)
Definition cubeF : problem float := mkproblem 1 0
  (fun t y _ _ => vget y 0 - t * t * t) (fun _ _ _ _ _ _ _ => 1) (fun _ _ _ _ => 0).
Definition cube_ewt : list float -> list float := ewt_set_sv 1e-4 [1e-4].
Definition nearby (x y d : float) : bool := (x - y <? d) && (y - x <? d).
Definition cube_life (cs : nat) (test : fstate -> list (@reply float) -> bool) : bool :=
  life_test cubeF cube_ewt (default_config cubeF) [0] [0] 600 100 (repeat (CallSolve 10 0 OneStep) cs) test.

(** 25 steps; the last one has order 3 and all of its points lie on the cubic,
    on which [get_solution] answers; the second derivative is 6 t. *)
Definition cube_test (st : fstate) (_ : list (@reply float)) : bool :=
  (kused st =? 3)%nat &&
  match steps (trace (lp (nlp st))) with
  | a :: b :: c :: d :: l => forallb (fun p => nearby (vget (a_y p) 0) (a_t p * a_t p * a_t p) 1e-10) [a; b; c; d]
  | _ => false end &&
  forallb (fun t => match get_solution cubeF st t with
                    | Ret (s, Ok tt) => nearby (vget (get_yy s) 0) (t * t * t) 1e-10
                    | _ => false end) [2.2; 2.4; 2.6; 2.8; 3] &&
  match get_dky cubeF st (get_current_time st) 2 [0] with
  | Ret ([d], Ok tt) => negb (nearby d (6 * get_current_time st) 5)
  | _ => false end.
Lemma cube_ok : cube_life 25 cube_test = true.
Proof. vm_compute. reflexivity. Qed.

Theorem C28_refuted : exists (st : fstate) d,
  reach cubeF cube_ewt (default_config cubeF) [0] [0] st /\ get_last_order st = 3%nat /\
  (exists a b c e l, steps (trace (lp (nlp st))) = a :: b :: c :: e :: l /\
     forallb (fun p => nearby (vget (a_y p) 0) (a_t p * a_t p * a_t p) 1e-10) [a; b; c; e] = true) /\
  (forall t, In t [2.2; 2.4; 2.6; 2.8; 3] -> exists s, get_solution cubeF st t = Ret (s, Ok tt) /\ nearby (vget (get_yy s) 0) (t * t * t) 1e-10 = true) /\
  get_dky cubeF st (get_current_time st) 2 [0] = Ret ([d], Ok tt) /\ nearby d (6 * get_current_time st) 5 = false.
Proof.
  destruct (life_test_ok _ _ _ _ _ _ _ _ _ cube_ok) as (st & rs & Hr & Ht). unfold cube_test in Ht.
  repeat (apply andb_prop in Ht; let H := fresh "H" in destruct Ht as (Ht & H)).
  apply Nat.eqb_eq in Ht.
  destruct (get_dky cubeF st (get_current_time st) 2 [0]) as [([|d [|? ?]] & [[]|])| |] eqn:E1; try discriminate.
  destruct (steps (trace (lp (nlp st)))) as [|a [|b [|c [|e l]]]] eqn:E2; try discriminate.
  exists st, d. split; [exact Hr|]. split; [exact Ht|]. split; [exists a, b, c, e, l; auto|].
  split; [|split; [exact E1|apply negb_true_iff; exact H]].
  intros t Hin. rewrite forallb_forall in H0. specialize (H0 t Hin).
  destruct (get_solution cubeF st t) as [(s & [[]|])| |]; try discriminate. exists s. auto.
Qed.

(** The first-order formula is off by 9 for a derivative of 30. *)
Definition cube_test2 (st : fstate) (_ : list (@reply float)) : bool :=
  match get_solution cubeF st (get_current_time st) with
  | Ret (s, Ok tt) => negb (nearby (vget (get_yp s) 0) (vget (nth 1 (phi st) []) 0 / vget (psi st) 0) 9)
  | _ => false end.
Lemma cube_ok2 : cube_life 25 cube_test2 = true.
Proof. vm_compute. reflexivity. Qed.

Theorem C27_refuted : exists (st s : fstate),
  reach cubeF cube_ewt (default_config cubeF) [0] [0] st /\
  get_solution cubeF st (get_current_time st) = Ret (s, Ok tt) /\
  nearby (vget (get_yp s) 0) (vget (nth 1 (phi st) []) 0 / vget (psi st) 0) 9 = false.
Proof.
  destruct (life_test_ok _ _ _ _ _ _ _ _ _ cube_ok2) as (st & rs & Hr & Ht). unfold cube_test2 in Ht.
  destruct (get_solution cubeF st (get_current_time st)) as [(s & [[]|])| |] eqn:E; try discriminate.
  exists st, s. split; [exact Hr|]. split; [exact E|]. apply negb_true_iff. exact Ht.
Qed.

(** A million after the end of the last step. *)
Definition cube_test3 (st : fstate) (_ : list (@reply float)) : bool :=
  match get_solution cubeF st (get_current_time st + 1e6) with
  | Ret (s, Ok tt) => 0 <? get_last_step st
  | _ => false end.
Lemma cube_ok3 : cube_life 25 cube_test3 = true.
Proof. vm_compute. reflexivity. Qed.

Theorem C26_refuted : exists (st s : fstate),
  reach cubeF cube_ewt (default_config cubeF) [0] [0] st /\ (0 <? get_last_step st) = true /\
  get_solution cubeF st (get_current_time st + 1e6) = Ret (s, Ok tt).
Proof.
  destruct (life_test_ok _ _ _ _ _ _ _ _ _ cube_ok3) as (st & rs & Hr & Ht). unfold cube_test3 in Ht.
  destruct (get_solution cubeF st (get_current_time st + 1e6)) as [(s & [[]|])| |] eqn:E; try discriminate.
  exists st, s. auto.
Qed.

(** y = t^6, order 5. *)
Definition sixF : problem float := mkproblem 1 0
  (fun t y _ _ => vget y 0 - t * t * t * t * t * t) (fun _ _ _ _ _ _ _ => 1) (fun _ _ _ _ => 0).
Definition six_test (st : fstate) (_ : list (@reply float)) : bool :=
  (kused st =? 5)%nat && match get_solution sixF st (get_current_time st) with Ret (s, Ok tt) => true | _ => false end.
Lemma six_ok : life_test sixF cube_ewt (default_config sixF) [0] [0] 600 100 (repeat (CallSolve 10 0 OneStep) 39) six_test = true.
Proof. vm_compute. reflexivity. Qed.

Theorem C29_refuted : exists (st s : fstate),
  reach sixF cube_ewt (default_config sixF) [0] [0] st /\ get_last_order st = 5%nat /\
  get_solution sixF st (get_current_time st) = Ret (s, Ok tt) /\
  get_dky sixF st (get_current_time st) 0 [0] = Panic.
Proof.
  destruct (life_test_ok _ _ _ _ _ _ _ _ _ six_ok) as (st & rs & Hr & Ht). unfold six_test in Ht.
  apply andb_prop in Ht. destruct Ht as (Hk & Ht). apply Nat.eqb_eq in Hk.
  destruct (get_solution sixF st (get_current_time st)) as [(s & [[]|])| |] eqn:E; try discriminate.
  exists st, s. split; [exact Hr|]. split; [exact Hk|]. split; [exact E|].
  assert (Hc : config_ok (default_config sixF)) by (unfold config_ok; cbn; lia).
  exact (C29_value_panics sixF cube_ewt (newton_lawful 20) _ _ _ st _ [0] s Hc Hr Hk E).
Qed.

(** Reachable states for the theorems about every scalar: order 3, and order 5. *)
Example C29_hypotheses_met : exists (st : fstate),
  @nls_lawful float (newton float) newton20 /\ config_ok (default_config cubeF) /\
  reach cubeF cube_ewt (default_config cubeF) [0] [0] st /\ get_last_order st = 3%nat /\
  exists d, get_dky cubeF st (get_current_time st) 2 [0] = Ret ([d], Ok tt).
Proof.
  destruct C28_refuted as (st & d & A & B & _ & _ & C & _). exists st. split; [apply newton_lawful|].
  split; [unfold config_ok; cbn; lia|]. split; [exact A|]. split; [exact B|]. exists d. exact C.
Qed.
Print Assumptions C28_refuted.
Print Assumptions C27_refuted.
Print Assumptions C26_refuted.
Print Assumptions C29_refuted.
