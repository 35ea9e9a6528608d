(** * PropRootsRnd: C86, the search for a root in arithmetic with rounding
      (src/impl_r_check.rs r_check3 221-271, root_find 343-576)
    Every operation of the search is followed by a rounding; values of the root
    functions are arbitrary.  The rounding model has no overflow and no
    underflow: a product of two values of opposite sign is negative, and the
    weight of the Illinois step stays finite. *)
Require Import List Arith Bool Lia Reals Lra Psatz.
Import ListNotations.
Require Import Verif.Base Verif.Scalar Verif.ScalarR Verif.RoundR Verif.Dense Verif.Norms Verif.Newton Verif.NewtonSpec
  Verif.IdaState Verif.IdaNls Verif.IdaCore Verif.IdaRoots Verif.IdaSolve Verif.IdaIo Verif.BaseFacts Verif.NewtonFacts
  Verif.IdaFacts Verif.IdaLoops Verif.IdaStep Verif.IdaSpec Verif.IdaShell Verif.IdaReach Verif.IdaInterp
  Verif.IdaStepRnd Verif.PropTimesRnd Verif.RootRnd Verif.RootSearchRnd.
Require Verif.RootFacts.
Open Scope R_scope.

Section Rnd.
Variables (u : R) (rnd : R -> R).
Hypothesis Hf : f64_like u rnd.
Local Instance SR : Scalar R := ScalarRnd rnd.
Context {LSt NSt : Type} `{LSolver R LSt} `{NLSolver R NSt}.
Variable prob : problem R.
Notation nr := (num_roots prob).
Notation state := (ida R LSt NSt).
Notation tr st := (trace (lp (nlp st))).

Let Hr : rounding u rnd.
Proof. destruct Hf as (A & B & _). split; [lra|exact B]. Qed.
Let Hu : u <= / 1000.
Proof. destruct Hf as (A & _). lra. Qed.

(** ** Vocabulary *)

(** The user's root function was called at [t] and its component [i] was [v]. *)
Definition was_called (st : state) (t : R) (i : nat) (v : R) : Prop :=
  exists y ypv, In (CRoot t y ypv) (tr st) /\ v = p_root prob t y ypv i.

(** [v] is the value of component [i] on the solution the object interpolates
    at [t], provided it accepts [t]. *)
Definition on_solution (st : state) (i : nat) (t v : R) : Prop :=
  forall s, get_solution prob st t = Ret (s, Ok tt) -> v = p_root prob t (get_yy s) (get_yp s) i.

(** 100 unit roundoffs of the current time and step, in exact arithmetic. *)
Definition exact_tol (st : state) : R :=
  100 * / 4503599627370496 * (Rabs (get_current_time st) + Rabs (get_current_setp st)).

(** The right end of the interval: the current internal time or, in normal mode,
    the requested output time if the comparison made by the code says that it
    comes first. *)
Definition search_end (st : state) : R :=
  match taskc st with
  | OneStep => get_current_time st
  | Normal => if Rle_dec 0 (rnd (rnd (toutc st - get_current_time st) * get_current_setp st)) then get_current_time st else toutc st
  end.

(** A state from which the search runs: its arrays are in place, the step is not
    zero, and neither end of the interval is farther from the origin than three
    times the current time and step together. *)
Definition search_ready (st : state) : Prop :=
  arrays st /\ (kused st <= 5)%nat /\ get_current_setp st <> 0 /\ length (glo st) = nr /\
  Rabs (tlo st) <= 3 * (Rabs (get_current_time st) + Rabs (get_current_setp st)) /\
  Rabs (search_end st) <= 3 * (Rabs (get_current_time st) + Rabs (get_current_setp st)).

(** Component [i], with value [v] on the left, is looked at. *)
Definition looked_at (st : state) (v : R) (i : nat) : Prop :=
  nth i (gactive st) false = true /\ (nth i (rootdir st) 0%nat = 0%nat \/ v <= 0).

Definition sign_change (v w : R) : Prop := w = 0 \/ v < 0 < w \/ w < 0 < v.

Lemma end_eq (st : state) : right_end rnd st = search_end st.
Proof.
  unfold right_end, search_end, get_current_time, get_current_setp. destruct (taskc st); [|reflexivity].
  change (@szero R (SRs rnd) <=? (toutc st - tn (nlp st)) * hh st)%sc with (Rleb 0 (rnd (rnd (toutc st - tn (nlp st)) * hh st))).
  destruct (Rle_dec 0 _) as [X|X].
  - replace (Rleb 0 _) with true; [reflexivity|]. symmetry. apply Rleb_true. exact X.
  - replace (Rleb 0 _) with false; [reflexivity|]. symmetry. apply Rleb_false. lra.
Qed.

Lemma tol_near (st : state) : exact_tol st * (1 - 4 * u) <= root_ttol st <= exact_tol st * (1 + 4 * u).
Proof.
  unfold root_ttol, exact_tol, get_current_time, get_current_setp. cbn.
  set (x := Rabs (tn (nlp st)) + Rabs (hh st)).
  assert (Hx : 0 <= x) by (unfold x; pose proof (Rabs_pos (tn (nlp st))); pose proof (Rabs_pos (hh st)); lra).
  destruct (rnd_mul u rnd Hr x) as (c1 & -> & C1).
  match goal with |- context [rnd (rnd ?e * 100)] => destruct (rnd_mul u rnd Hr e) as (c2 & -> & C2) end.
  match goal with |- context [rnd ?e] => destruct (rnd_mul u rnd Hr e) as (c3 & -> & C3) end.
  pose proof (u0 u rnd Hr).
  replace (c3 * (c2 * (c1 * x * / 4503599627370496) * 100)) with (100 * / 4503599627370496 * x * (c3 * (c2 * c1))) by ring.
  assert (B1 : 1 - 2 * u <= c2 * c1 <= 1 + 201 / 100 * u) by (split; nra).
  assert (B2 : 1 - 4 * u <= c3 * (c2 * c1) <= 1 + 4 * u) by (split; nra).
  assert (0 <= 100 * / 4503599627370496 * x) by lra. nra.
Qed.

Lemma ready_tol (st : state) : search_ready st -> 0 < exact_tol st /\ 0 < root_ttol st /\
  exists B, Rabs (tlo st) <= B /\ Rabs (right_end rnd st) <= B /\ 60 * u * B <= root_ttol st.
Proof.
  intros (_ & _ & Hh & _ & B1 & B2). pose proof (tol_near st) as (T1 & _). pose proof (u0 u rnd Hr) as U0.
  destruct Hf as ((_ & U1) & _). unfold exact_tol in *.
  pose proof (Rabs_pos (get_current_time st)). pose proof (Rabs_pos_lt _ Hh).
  set (S := Rabs (get_current_time st) + Rabs (get_current_setp st)) in *. assert (0 < S) by (unfold S; lra).
  assert (P : 0 < 100 * / 4503599627370496 * S) by lra. split; [exact P|].
  assert (Q : 99 * / 4503599627370496 * S <= root_ttol st) by (eapply Rle_trans; [|exact T1]; nra).
  split; [lra|]. exists (3 * S). rewrite end_eq. split; [exact B1|]. split; [exact B2|]. nra.
Qed.

Lemma looked_dir (st : state) v i : bget (gactive st) i = true /\ INR (nget (rootdir st) i) * v <= 0 <-> looked_at st v i.
Proof.
  unfold looked_at. change (nth i (gactive st) false) with (bget (gactive st) i). change (nth i (rootdir st) 0%nat) with (nget (rootdir st) i).
  split; intros (A & B); (split; [exact A|]).
  - destruct (nget (rootdir st) i) as [|k]; [left; reflexivity|right].
    assert (0 < INR (S k)) by (apply lt_0_INR; lia). nra.
  - destruct B as [->|B]; [cbn; lra|]. pose proof (pos_INR (nget (rootdir st) i)). nra.
Qed.

Lemma hit_look (st : state) gl gh i : hit rnd (gactive st) (rootdir st) gl gh i <->
  looked_at st (vget gl i) i /\ sign_change (vget gl i) (vget gh i).
Proof.
  unfold hit, crosses, vanishes. rewrite <- looked_dir. unfold sign_change. rewrite RootFacts.prod_neg. tauto.
Qed.

Lemma evald_was (st st' : state) t g i : evald rnd prob st (tr st') t g -> (i < nr)%nat -> was_called st' t i (vget g i).
Proof.
  intros (y & q & -> & Hi & _) Li. exists y, q. split; [exact Hi|]. unfold vget. rewrite nth_vtab by exact Li. reflexivity.
Qed.

Lemma evald_on (st st' : state) t g i : arrays st -> (kused st <= 5)%nat -> evald rnd prob st (tr st') t g -> (i < nr)%nat ->
  on_solution st i t (vget g i).
Proof.
  intros A K (y & q & -> & _ & X) Li s E. pose proof (gs_eval prob st s t _ A K E) as G.
  change (SRs rnd) with SR in X.
  destruct (time_check st t); [destruct G; discriminate|].
  destruct G as (_ & Gy & Gp). destruct (X eq_refl) as (-> & ->). unfold get_yy, get_yp. rewrite Gy, Gp.
  unfold vget. rewrite nth_vtab by exact Li. reflexivity.
Qed.

(** ** C86 *)

(** A reported root: the reported time lies in the searched interval, right of a
    point [tl] of it; the reported components are exactly those looked at that
    vanish at the reported time or change sign between the two points; there is
    one; if one of them does not vanish at the reported time, the two points are no farther apart
    than the tolerance, up to six roundings. *)
Theorem C86_root_bracketed fuel (st st' : state) : search_ready st -> r_check3 prob fuel st = Ret (st', RootFound) ->
  exists tl gl,
    (exists a b, 0 <= a < b /\ b <= 1 /\ tl = tlo st + a * (search_end st - tlo st) /\
       tlo st' = tlo st + b * (search_end st - tlo st)) /\
    (tl = tlo st /\ gl = glo st \/
     forall i, (i < nr)%nat -> was_called st' tl i (nth i gl 0) /\ on_solution st i tl (nth i gl 0)) /\
    (forall i, (i < nr)%nat -> was_called st' (tlo st') i (nth i (glo st') 0) /\
       on_solution st i (tlo st') (nth i (glo st') 0)) /\
    (forall i, (i < nr)%nat -> nth i (get_root_info st') 0 <> 0 <->
       looked_at st (nth i gl 0) i /\ sign_change (nth i gl 0) (nth i (glo st') 0)) /\
    (exists i, (i < nr)%nat /\ nth i (get_root_info st') 0 <> 0) /\
    (forall i, (i < nr)%nat -> nth i (get_root_info st') 0 <> 0 ->
       nth i (glo st') 0 = 0 \/ Rabs (tlo st' - tl) <= exact_tol st * (1 + 6 * u)).
Proof.
  intros Hs E. destruct (ready_tol st Hs) as (Pt & Ht & Hb). pose proof Hs as (A & K & _ & L & _).
  destruct (r_check3_spec u rnd Hr Hu prob fuel st A K Ht Hb L) as [(E' & _)|(s & r & E' & Sh & L' & _ & _ & _ & F)].
  { exfalso. assert (Ret (st', RootFound) = Diverge) by (rewrite <- E; exact E'). discriminate. }
  assert (X : Ret (st', RootFound) = Ret (s, r)) by (rewrite <- E; exact E'). injection X as <- <-. clear E'.
  destruct F as (tl & gl & F). exists tl, gl.
  assert (Hfl : forall i, (i < nr)%nat -> nth i (get_root_info st') 0 <> 0 <->
     looked_at st (nth i gl 0) i /\ sign_change (nth i gl 0) (nth i (glo st') 0)).
  { intros i Li. rewrite <- (hit_look st gl (glo st') i). destruct (fo_flags _ _ _ _ _ _ F) as (_ & Ff). unfold get_root_info.
    destruct (Ff i Li) as [(Hh & Ev)|(Hh & Ev)]; change (nth i (iroots st') 0) with (@vget R (SRs rnd) (iroots st') i); rewrite Ev.
    - split; [auto|]. intros _. unfold Rsignum. destruct (Rlt_dec _ _); lra.
    - split; [intros X; lra|contradiction]. }
  assert (Hal : forall t g, evald rnd prob st (tr st') t g -> forall i, (i < nr)%nat -> was_called st' t i (nth i g 0) /\ on_solution st i t (nth i g 0)).
  { intros t g Ev i Li. split; [exact (evald_was _ _ _ _ _ Ev Li)|exact (evald_on _ _ _ _ _ A K Ev Li)]. }
  rewrite <- end_eq.
  split; [exact (fo_pos _ _ _ _ _ _ F)|].
  split; [destruct (fo_left _ _ _ _ _ _ F) as [X|X]; [left; exact X|right; exact (Hal _ _ X)]|].
  split; [exact (Hal _ _ (fo_right _ _ _ _ _ _ F))|].
  split; [exact Hfl|]. split.
  - destruct (fo_some _ _ _ _ _ _ F) as (i & Li & Hh). exists i. split; [exact Li|]. apply Hfl; [exact Li|]. apply hit_look. exact Hh.
  - intros i Li Hi. apply Hfl in Hi; [|exact Li]. apply (hit_look st gl (glo st') i) in Hi.
    destruct (fo_close _ _ _ _ _ _ F) as [X|X].
    + right. pose proof (rnd_abs u rnd Hr Hu (tlo st' - tl)) as (Q & _). pose proof (tol_near st) as (_ & T2). pose proof (u0 u rnd Hr).
      assert (Y : (1 - u) * Rabs (tlo st' - tl) <= exact_tol st * (1 + 4 * u)) by (change (SRs rnd) with SR in X; lra).
      assert (Z : 1 + 4 * u <= (1 - u) * (1 + 6 * u)) by nra.
      apply (Rmult_le_reg_l (1 - u)); [lra|]. eapply Rle_trans; [exact Y|].
      replace ((1 - u) * (exact_tol st * (1 + 6 * u))) with (exact_tol st * ((1 - u) * (1 + 6 * u))) by ring. apply Rmult_le_compat_l; lra.
    + left. destruct Hi as [Hi|(_ & _ & Hi)]; [|exact Hi]. destruct (X i Li Hi).
Qed.

(** The search ends; each pass moves one end by more than a quarter of the
    tolerance, so the number of calls of the root functions is bounded. *)
Theorem C86_search_terminates fuel (st : state) : search_ready st ->
  5 * (Rabs (search_end st - tlo st) / exact_tol st) + 1 <= INR fuel ->
  exists st' r, r_check3 prob fuel st = Ret (st', r) /\
    INR (get_num_g_evals st' - get_num_g_evals st) <= 1 + 5 * (Rabs (search_end st - tlo st) / exact_tol st).
Proof.
  intros Hs Hfu. destruct (ready_tol st Hs) as (Pt & Ht & Hb). pose proof Hs as (A & K & _ & L & _).
  pose proof (tol_near st) as (T1 & _). pose proof (u0 u rnd Hr) as U0. rewrite <- end_eq in *.
  set (D := Rabs (right_end rnd st - tlo st)) in *.
  assert (Hd : D = D / exact_tol st * exact_tol st) by (field; lra).
  assert (Hq0 : 0 <= D / exact_tol st) by (apply Rmult_le_pos; [apply Rabs_pos|apply Rlt_le, Rinv_0_lt_compat; exact Pt]).
  set (q := D / exact_tol st) in *.
  assert (Hq : 99 / 100 * exact_tol st <= root_ttol st) by nra.
  destruct (r_check3_spec u rnd Hr Hu prob fuel st A K Ht Hb L) as [(_ & X)|(s & r & E & _ & _ & _ & N1 & N2 & _)].
  - exfalso. change (SRs rnd) with SR in X. fold D in X. rewrite Hd in X.
    assert (q * exact_tol st <= q * (100 / 99 * root_ttol st)) by (apply Rmult_le_compat_l; lra). nra.
  - exists s, r. split; [exact E|]. unfold get_num_g_evals.
    replace (nge s - nge st)%nat with (S (nge s - (nge st + 1))) by lia. rewrite S_INR. change (SRs rnd) with SR in N2. fold D in N2. rewrite Hd in N2.
    assert (q * exact_tol st <= q * (100 / 99 * root_ttol st)) by (apply Rmult_le_compat_l; lra). nra.
Qed.

(** No reported root: the whole interval has been checked, and no component that
    was looked at vanishes at its right end or has changed sign. *)
Theorem C86_no_root_missed fuel (st st' : state) : search_ready st -> r_check3 prob fuel st = Ret (st', RootContinue) ->
  tlo st' = search_end st /\
  forall i, (i < nr)%nat ->
    was_called st' (search_end st) i (nth i (glo st') 0) /\ on_solution st i (search_end st) (nth i (glo st') 0) /\
    (looked_at st (nth i (glo st) 0) i -> ~ sign_change (nth i (glo st) 0) (nth i (glo st') 0)).
Proof.
  intros Hs E. destruct (ready_tol st Hs) as (Pt & Ht & Hb). pose proof Hs as (A & K & _ & L & _).
  destruct (r_check3_spec u rnd Hr Hu prob fuel st A K Ht Hb L) as [(E' & _)|(s & r & E' & Sh & L' & _ & _ & _ & F)].
  { exfalso. assert (Ret (st', RootContinue) = Diverge) by (rewrite <- E; exact E'). discriminate. }
  assert (X : Ret (st', RootContinue) = Ret (s, r)) by (rewrite <- E; exact E'). injection X as <- <-. clear E'.
  destruct F as (F1 & F2 & _ & F3). rewrite <- end_eq. split; [exact F1|].
  intros i Li. split; [exact (evald_was _ _ _ _ _ F2 Li)|]. split; [exact (evald_on _ _ _ _ _ A K F2 Li)|].
  intros W S. specialize (F3 i Li). rewrite hit_look in F3. apply F3. split; assumption.
Qed.
End Rnd.

Print Assumptions C86_root_bracketed.
Print Assumptions C86_search_terminates.
Print Assumptions C86_no_root_missed.

(** ** The hypotheses can be met *)
Require Import Verif.Script Verif.ExampleR Verif.RootFacts Verif.PropRoots Verif.PropReturn Verif.ExampleRoot.
Open Scope R_scope.

Lemma id_f64_like : f64_like (/ 9007199254740992) (fun x => x).
Proof.
  split; [lra|]. split; [|split; auto]. intros x. unfold Rminus. rewrite Rplus_opp_r, Rabs_R0.
  apply Rmult_le_pos; [lra|apply Rabs_pos].
Qed.

(** The second step of a life of a scalar equation, with a root between its ends. *)
Example C86_root_bracketed_hypotheses_met : exists fuel (st st' : ida R (list nat) (script R)), let rnd := fun x : R => x in
  f64_like (/ 9007199254740992) rnd /\ search_ready rnd (rootR cross) st /\
  tlo st < search_end rnd st /\
  @r_check3 R (list nat) (script R) (ScalarRnd rnd) (rootR cross) fuel st = Ret (st', RootFound).
Proof.
  destruct cross_run as (f & st & st' & t & s & s2 & s3 & _ & _ & _ & Se & Pa & E3). exists f, s2, s3. cbv zeta.
  split; [exact id_f64_like|].
  destruct (second_end _ _ _ _ Se Pa) as (T1 & T2 & T2' & T3 & _ & T4).
  pose proof (pa_search _ _ _ _ Pa) as (A & K & Hh & L).
  assert (Ee : search_end (fun x => x) s2 = RootFacts.right_end s2) by (rewrite <- (end_eq _ s2); reflexivity).
  pose proof (pa_tn _ _ _ _ Pa) as U1. pose proof (se_hh _ _ Se). rewrite (se_tn _ _ Se) in U1.
  rewrite Ee. split; [|split; [lra|exact E3]].
  split; [exact A|]. split; [exact K|]. split; [exact Hh|]. split; [exact L|]. unfold get_current_time, get_current_setp. rewrite Ee.
  rewrite U1. pose proof (Rabs_pos (hh s2)). pose proof (pa_hh _ _ _ _ Pa). rewrite T4. rewrite !Rabs_pos_eq by lra. split; lra.
Qed.

(** A fuel that suffices. *)
Example C86_search_terminates_hypotheses_met : exists fuel (st : ida R (list nat) (script R)), let rnd := fun x : R => x in
  f64_like (/ 9007199254740992) rnd /\ search_ready rnd (rootR cross) st /\ tlo st < search_end rnd st /\
  5 * (Rabs (search_end rnd st - tlo st) / exact_tol st) + 1 <= INR fuel.
Proof.
  destruct C86_root_bracketed_hypotheses_met as (f & st & st' & F & S & L & _). cbv zeta in *.
  destruct (INR_above (5 * (Rabs (search_end (fun x => x) st - tlo st) / exact_tol st) + 1)) as (N & HN).
  exists N, st. cbv zeta. split; [exact F|]. split; [exact S|]. split; [exact L|]. lra.
Qed.

(** A life whose root function stays positive: the second step. *)
Example C86_no_root_missed_hypotheses_met : exists fuel (st st' : ida R (list nat) (script R)), let rnd := fun x : R => x in
  f64_like (/ 9007199254740992) rnd /\ search_ready rnd (rootR above) st /\ looked_at st (nth 0 (glo st) 0) 0 /\
  @r_check3 R (list nat) (script R) (ScalarRnd rnd) (rootR above) fuel st = Ret (st', RootContinue).
Proof.
  destruct above_run as (f & f' & st & st1 & st2 & t1 & t2 & s2 & s3 & _ & _ & _ & _ & _ & _ & Hs & Hw & E3 & T1 & T2 & T4). exists f', s2, s3. cbv zeta.
  split; [exact id_f64_like|]. destruct Hs as (A & K & Hh & L).
  assert (Ee : search_end (fun x => x) s2 = RootFacts.right_end s2) by (rewrite <- (end_eq _ s2); reflexivity).
  split; [|split; [exact Hw|exact E3]].
  split; [exact A|]. split; [exact K|]. split; [exact Hh|]. split; [exact L|]. unfold get_current_time, get_current_setp. rewrite Ee, T4.
  pose proof (Rabs_pos (hh s2)). rewrite (Rabs_pos_eq (1 / 2)), (Rabs_pos_eq (tn (nlp s2))), (Rabs_pos_eq (RootFacts.right_end s2)) by lra. split; lra.
Qed.
