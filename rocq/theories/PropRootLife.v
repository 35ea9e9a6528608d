(** * PropRootLife: the root check of the first call (C59) and the call after a
      root return (C61) *)
Require Import List Arith Bool Lia Floats Reals Lra Psatz.
Import ListNotations.
Require Import Verif.Base Verif.Scalar Verif.ScalarR Verif.ScalarF Verif.Dense Verif.Norms Verif.NormsR Verif.Newton Verif.NewtonSpec Verif.IdaState
  Verif.IdaNls Verif.IdaCore Verif.IdaRoots Verif.IdaSolve Verif.IdaIo Verif.BaseFacts Verif.NewtonFacts
  Verif.IdaFacts Verif.IdaLoops Verif.IdaStep Verif.IdaSpec Verif.IdaShell Verif.IdaReach Verif.IdaInv
  Verif.IdaCount Verif.IdaLife Verif.IdaTrace Verif.IdaAccept Verif.IdaStepR Verif.IdaSafe Verif.IdaInterp Verif.IdaCall Verif.IdaCallR
  Verif.Script Verif.Witness Verif.PropSafe Verif.PropSolve Verif.ExampleR Verif.PropStepR Verif.PropStop Verif.PropDky
  Verif.RootFacts Verif.RootWalk Verif.Samples Verif.PropRoots Verif.PropReturn Verif.ExampleRoot.
Open Scope nat_scope.
Set Warnings "-inexact-float".

Section Any.
Context {T LSt NSt : Type} `{Scalar T} `{LSolver T LSt} `{NLSolver T NSt}.
Variable prob : problem T.
Variable ewt_set : list T -> list T.
Notation n := (model_size prob).
Notation nr := (num_roots prob).
Notation state := (ida T LSt NSt).
Notation tr st := (trace (lp (nlp st))).

(** ** C59: the check at the initial time *)

Lemma bget_vtab m (f : nat -> bool) i : i < m -> bget (vtab m f) i = f i.
Proof. intros Li. unfold bget. apply nth_vtab. exact Li. Qed.
Lemma vget_vtab m (f : nat -> T) i : i < m -> vget (vtab m f) i = f i.
Proof. intros Li. unfold vget. apply nth_vtab. exact Li. Qed.

Section Check1.
Variables (p0 p1 : list T) (t0 h : T) (was : nat -> bool).
Definition at_zero i := (sabs (p_root prob t0 p0 p1 i) =? szero)%sc.
Definition some_zero := existsb at_zero (seq 0 nr).
(** The second point: a tenth of the step, or the root tolerance if that is more. *)
Definition ahead_by := (smax (((sabs t0 + sabs h) * seps * shundred) / sabs h) spt1 * h)%sc.
Definition y_ahead := vscaled_add n p0 ahead_by p1.
Definition g_ahead i := p_root prob (t0 + ahead_by)%sc y_ahead p1 i.
(** Components that were being watched and are not zero stay so. *)
Definition stays i := was i && negb (at_zero i).
Definition woken i := negb (stays i) && (some_zero && sneqb (sabs (g_ahead i)) szero).

Lemma zeros_eq g : (forall i, i < nr -> vget g i = p_root prob t0 p0 p1 i) ->
  existsb (fun i => (sabs (vget g i) =? szero)%sc) (seq 0 nr) = some_zero.
Proof.
  intros Hg. unfold some_zero.
  assert (G : forall l, (forall i, In i l -> i < nr) -> existsb (fun i => (sabs (vget g i) =? szero)%sc) l = existsb at_zero l).
  { induction l as [|i l IH]; [reflexivity|]. intros X. cbn. rewrite Hg by (apply X; left; reflexivity).
    rewrite IH; [reflexivity|]. intros j Hj. apply X. right. exact Hj. }
  apply G. intros i Hi. apply in_seq in Hi. lia.
Qed.
End Check1.

(** Field by field; the intermediate states are kept opaque. *)
Lemma check1_exact (st st' : state) p0 p1 rest : r_check1 prob st = Ret st' -> phi st = p0 :: p1 :: rest ->
  let t0 := tn (nlp st) in let h := hh st in let was := bget (gactive st) in
  hh st' = h /\ tlo st' = t0 /\
  tr st' = (if some_zero p0 p1 t0 then [CRoot (t0 + ahead_by t0 h)%sc (y_ahead p0 p1 t0 h) p1; CRoot t0 p0 p1] else [CRoot t0 p0 p1]) ++ tr st /\
  nge st' = (if some_zero p0 p1 t0 then 2 else 1) /\
  forall i, i < nr -> bget (gactive st') i = stays p0 p1 t0 was i || woken p0 p1 t0 h was i /\
    vget (glo st') i = if woken p0 p1 t0 h was i then g_ahead p0 p1 t0 h i else p_root prob t0 p0 p1 i.
Proof.
  intros E2 Hp t0 h was.
  unfold r_check1 in E2. cbv zeta in E2.
  apply bind_ret_inv in E2 as (q0 & A0 & E2). cbv beta in E2.
  apply bind_ret_inv in E2 as (q2 & A1 & E2). cbv beta in E2.
  cbn [phi set_ttol set_tlo set_iroots] in A0, A1. rewrite Hp in A0, A1. apply ret_inj in A0, A1. subst q0 q2.
  set (b1 := set_ttol _ _) in E2.
  assert (B1 : tlo b1 = t0 /\ tr b1 = tr st /\ gactive b1 = gactive st /\ hh b1 = h /\
    ttol b1 = ((sabs t0 + sabs h) * seps * shundred)%sc) by (repeat split).
  clearbody b1. destruct B1 as (B1 & B2 & B3 & B4 & B5).
  destruct (call_root prob b1 (tlo b1) p0 p1) as (b2, g) eqn:Er.
  assert (B6 : g = vtab nr (p_root prob t0 p0 p1) /\ b2 = on_lp (push_ev (CRoot t0 p0 p1)) b1)
    by (unfold call_root in Er; rewrite B1 in Er; split; congruence).
  destruct B6 as (Eg & Eb2).
  assert (B7 : tlo b2 = t0 /\ tr b2 = CRoot t0 p0 p1 :: tr st /\ gactive b2 = gactive st /\ hh b2 = h /\
    ttol b2 = ((sabs t0 + sabs h) * seps * shundred)%sc).
  { rewrite Eb2, <- B2. split; [exact B1|]. split; [reflexivity|]. split; [exact B3|]. split; [exact B4|exact B5]. }
  clear Er Eb2. destruct B7 as (C1 & C2 & C3 & C4 & C5).
  cbv zeta in E2. cbn [glo set_nge set_glo gactive] in E2.
  assert (Hgi : forall i, i < nr -> vget g i = p_root prob t0 p0 p1 i).
  { intros i Li. rewrite Eg. apply vget_vtab. exact Li. }
  rewrite (zeros_eq p0 p1 t0 g Hgi) in E2. set (act0 := vtab nr _) in E2.
  assert (Ha : forall i, i < nr -> bget act0 i = stays p0 p1 t0 was i).
  { intros i Li. unfold act0. rewrite bget_vtab by exact Li. rewrite Hgi by exact Li. fold (at_zero p0 p1 t0 i).
    unfold stays, was. rewrite C3.
    destruct (at_zero p0 p1 t0 i); cbn; [rewrite andb_false_r; reflexivity|rewrite andb_true_r; reflexivity]. }
  clearbody act0.
  set (b3 := set_gactive act0 _) in E2.
  assert (D : tlo b3 = t0 /\ tr b3 = CRoot t0 p0 p1 :: tr st /\ gactive b3 = act0 /\ hh b3 = h /\ glo b3 = g /\ nge b3 = 1 /\
    ttol b3 = ((sabs t0 + sabs h) * seps * shundred)%sc).
  { split; [exact C1|]. split; [exact C2|]. split; [reflexivity|]. split; [exact C4|]. split; [reflexivity|]. split; [reflexivity|exact C5]. }
  clearbody b3. destruct D as (D1 & D2 & D3 & D4 & D5 & D6 & D7).
  unfold woken. destruct (some_zero p0 p1 t0).
  - rewrite D1, D4, D7 in E2. fold (ahead_by t0 h) in E2. fold (y_ahead p0 p1 t0 h) in E2.
    set (b4 := on_nlp _ b3) in E2.
    assert (G : tlo b4 = t0 /\ tr b4 = CRoot t0 p0 p1 :: tr st /\ gactive b4 = act0 /\ hh b4 = h /\ glo b4 = g /\ nge b4 = 1 /\
      yy (nlp b4) = y_ahead p0 p1 t0 h).
    { split; [exact D1|]. split; [exact D2|]. split; [exact D3|]. split; [exact D4|]. split; [exact D5|]. split; [exact D6|reflexivity]. }
    clearbody b4. destruct G as (G1 & G2 & G3 & G4 & G5 & G6 & G7). rewrite G7 in E2.
    destruct (call_root prob b4 _ _ p1) as (b5, gp) eqn:Er.
    assert (B6 : gp = vtab nr (g_ahead p0 p1 t0 h) /\
      b5 = on_lp (push_ev (CRoot (t0 + ahead_by t0 h)%sc (y_ahead p0 p1 t0 h) p1)) b4)
      by (unfold call_root in Er; injection Er as <- <-; split; reflexivity).
    destruct B6 as (Egp & Eb5).
    assert (K : tlo b5 = t0 /\ tr b5 = CRoot (t0 + ahead_by t0 h)%sc (y_ahead p0 p1 t0 h) p1 :: CRoot t0 p0 p1 :: tr st /\
      gactive b5 = act0 /\ hh b5 = h /\ glo b5 = g /\ nge b5 = 1).
    { rewrite Eb5, <- G2. split; [exact G1|]. split; [reflexivity|]. split; [exact G3|]. split; [exact G4|]. split; [exact G5|exact G6]. }
    clear Er Eb5. destruct K as (K1 & K2 & K3 & K4 & K5 & K6).
    cbv zeta in E2. cbn [ghi glo set_nge set_ghi gactive] in E2. rewrite K3, K5, K6 in E2.
    apply ret_inj in E2.
    set (f1 := fun i => if negb (bget act0 i) && sneqb (sabs (vget gp i)) szero then vget gp i else vget g i) in E2.
    set (f2 := fun i => if negb (bget act0 i) && sneqb (sabs (vget gp i)) szero then true else bget act0 i) in E2.
    assert (X : hh st' = hh b5 /\ tlo st' = tlo b5 /\ tr st' = tr b5 /\ nge st' = 1 + 1 /\ gactive st' = vtab nr f2 /\ glo st' = vtab nr f1).
    { rewrite <- E2. clear. repeat split. }
    destruct X as (X1 & X2 & X3 & X4 & X5 & X6).
    split; [congruence|]. split; [congruence|]. split; [rewrite X3, K2; reflexivity|]. split; [exact X4|].
    intros i Li. rewrite X5, X6, bget_vtab, vget_vtab by exact Li. unfold f1, f2. rewrite (Ha i Li), (Hgi i Li).
    assert (Hg' : vget gp i = g_ahead p0 p1 t0 h i) by (rewrite Egp; apply vget_vtab; exact Li). rewrite Hg'. cbn [andb].
    split; [|reflexivity]. destruct (stays p0 p1 t0 was i); cbn [negb andb orb]; [reflexivity|]. destruct (sneqb _ _); reflexivity.
  - apply ret_inj in E2. subst st'. split; [exact D4|]. split; [exact D1|]. split; [exact D2|]. split; [exact D6|].
    intros i Li. cbn [andb]. rewrite andb_false_r, D3, D5, orb_false_r. auto.
Qed.

Lemma first_call_roots (a s : state) tout p0 p1 rest : first_call prob ewt_set a tout = Ret (inr s) -> nrtfn a = nr -> 0 < nr ->
  phi a = p0 :: p1 :: rest ->
  exists b s' : state, phi b = phi a /\ tn (nlp b) = tn (nlp a) /\ gactive b = gactive a /\ tr b = tr a /\ r_check1 prob b = Ret s' /\
    hh s = hh s' /\ tlo s = tlo s' /\ tr s = tr s' /\ nge s = nge s' /\ gactive s = gactive s' /\ glo s = glo s' /\ hh b = hh s.
Proof.
  intros E Hn Hr Hp.
  unfold first_call in E. apply bind_ret_inv in E as (s0 & E0 & E). cbv beta in E.
  assert (F0 : tn (nlp s0) = tn (nlp a) /\ phi s0 = phi a /\ nrtfn s0 = nr /\ gactive s0 = gactive a /\ tr s0 = tr a).
  { destruct (setup_done a); [apply ret_inj in E0; subst s0; auto|].
    apply bind_ret_inv in E0 as (s1 & E1 & E0). cbv beta in E0. apply ret_inj in E0. subst s0.
    unfold initial_setup in E1. apply bind_ret_inv in E1 as (q & _ & E1). apply ret_inj in E1. subst s1. auto. }
  destruct F0 as (F1 & F2 & F3 & F4 & F5).
  apply bind_ret_inv in E as (y & E1 & E). cbv beta in E. pose proof (first_step_frame _ _ _ E1) as F.
  destruct y as [(sx & m)|sx]; [discriminate|]. destruct F as (hx & ->).
  apply bind_ret_inv in E as (s2 & E2 & E). cbv beta in E.
  set (b := set_kused 0 (set_kk 0 (set_h0u (hh (set_hh hx s0)) (set_hh hx s0)))) in E2.
  assert (B : phi b = phi a /\ tn (nlp b) = tn (nlp a) /\ gactive b = gactive a /\ tr b = tr a /\ nrtfn b = nr).
  { split; [exact F2|]. split; [exact F1|]. split; [exact F4|]. split; [exact F5|exact F3]. }
  clearbody b. destruct B as (B1 & B2 & B3 & B4 & B5). rewrite B5 in E2.
  destruct (Nat.ltb_spec 0 nr) as [_|X]; [|lia].
  apply bind_ret_inv in E as (q1 & E3 & E). cbv beta in E. apply bind_ret_inv in E as (ph & E4 & E). cbv beta in E.
  apply ret_inj in E.
  set (w := on_nlp _ _) in E. assert (Es : s = w) by congruence.
  exists b, s2. split; [exact B1|]. split; [exact B2|]. split; [exact B3|]. split; [exact B4|]. split; [exact E2|].
  rewrite Es. unfold w. clear E Es w.
  destruct (phi b) as [|a1 [|a2 r2]] eqn:Eb; [congruence|congruence|].
  pose proof (check1_exact b s2 a1 a2 r2 E2 Eb) as (C1 & _).
  split; [reflexivity|]. split; [reflexivity|]. split; [reflexivity|]. split; [reflexivity|]. split; [reflexivity|].
  split; [reflexivity|]. exact (eq_sym C1).
Qed.

(** C59, the check made before the first step.  The root functions are called at
    the start; only if some component vanishes there are they called again, a
    tenth of the first step [h] later (or the root tolerance, if that is more),
    at the initial solution continued along the initial derivative; and then
    exactly the components that do not vanish at the second point are watched
    from the start, from that value on.  If none vanishes, none is watched. *)
Theorem C59_initial_check c yy0 yp0 (st0 s : state) tout itask :
  ida_new prob yy0 yp0 = Ret st0 -> 0 < nr ->
  first_call prob ewt_set (task_set (configure c st0) tout itask) tout = Ret (inr s) ->
  let t0 := g_t0 c in let h := get_current_setp s in
  let g i := p_root prob t0 yy0 yp0 i in
  let tol := ((sabs t0 + sabs h) * seps * shundred)%sc in
  let d := (smax (tol / sabs h) spt1 * h)%sc in
  let y1 := vscaled_add n yy0 d yp0 in
  let g1 i := p_root prob (t0 + d)%sc y1 yp0 i in
  let zero i := (sabs (g i) =? szero)%sc in
  ((forall i, i < nr -> zero i = false) /\
     tr s = [CRoot t0 yy0 yp0] /\ get_num_g_evals s = 1 /\
     forall i, i < nr -> bget (gactive s) i = false /\ vget (glo s) i = g i) \/
  ((exists i, i < nr /\ zero i = true) /\
     tr s = [CRoot (t0 + d)%sc y1 yp0; CRoot t0 yy0 yp0] /\ get_num_g_evals s = 2 /\
     forall i, i < nr -> bget (gactive s) i = sneqb (sabs (g1 i)) szero /\
       vget (glo s) i = if sneqb (sabs (g1 i)) szero then g1 i else g i).
Proof.
  intros En Hr E t0 h g tol d y1 g1 zero.
  unfold ida_new in En. destruct (_ && _); [|discriminate]. apply ret_inj in En.
  set (a := task_set (configure c st0) tout itask) in E.
  assert (A : nrtfn a = nr /\ phi a = yy0 :: yp0 :: repeat (vzero n) 4 /\ tn (nlp a) = t0 /\ gactive a = repeat false nr /\ tr a = []).
  { unfold a, task_set. rewrite <- En. clear. destruct itask; repeat split. }
  clearbody a. destruct A as (A1 & A2 & A3 & A4 & A5).
  destruct (first_call_roots a s tout _ _ _ E A1 Hr A2) as (b & s' & B1 & B2 & B3 & B4 & E1 & S1 & S2 & S3 & S4 & S5 & S6 & S7).
  rewrite A2 in B1. destruct (check1_exact b s' _ _ _ E1 B1) as (C1 & C2 & C3 & C4 & C5).
  rewrite B2, A3 in C2, C3, C5. rewrite S7 in C3, C5. rewrite B2, A3 in C4. rewrite B4, A5, app_nil_r in C3. rewrite B3, A4 in C5.
  fold h in C3, C5. fold h.
  assert (Hst : forall i, stays yy0 yp0 t0 (bget (repeat false nr)) i = false).
  { intros i. unfold stays, bget. rewrite nth_repeat. reflexivity. }
  assert (Hw : forall i, woken yy0 yp0 t0 h (bget (repeat false nr)) i = some_zero yy0 yp0 t0 && sneqb (sabs (g1 i)) szero).
  { intros i. unfold woken. rewrite Hst. reflexivity. }
  unfold get_num_g_evals. rewrite S3, S4, S5, S6.
  destruct (some_zero yy0 yp0 t0) eqn:Ez.
  - right. split; [|split; [exact C3|split; [exact C4|]]].
    + unfold some_zero in Ez. apply existsb_exists in Ez as (i & Hi & Zi). apply in_seq in Hi. exists i. split; [lia|exact Zi].
    + intros i Li. destruct (C5 i Li) as (X1 & X2). rewrite Hst, Hw in X1. rewrite Hw in X2. split; [exact X1|exact X2].
  - left. split; [|split; [exact C3|split; [exact C4|]]].
    + intros i Li. destruct (zero i) eqn:Zi; [|reflexivity]. exfalso.
      assert (some_zero yy0 yp0 t0 = true); [|congruence]. apply existsb_exists. exists i. split; [apply in_seq; lia|exact Zi].
    + intros i Li. destruct (C5 i Li) as (X1 & X2). rewrite Hst, Hw in X1. rewrite Hw in X2. split; [exact X1|exact X2].
Qed.
End Any.

(** ** C61: the call after a root return *)
Section Next.
Context {T LSt NSt : Type} `{Scalar T} `{LSolver T LSt} `{NLSolver T NSt}.
Variable prob : problem T.
Variable ewt_set : list T -> list T.
Hypothesis Hl : @nls_lawful T NSt _.
Notation state := (ida T LSt NSt).
Notation tr st := (trace (lp (nlp st))).

Definition more (a b : state) : Prop := exists evs, tr b = evs ++ tr a.
Lemma more_refl a : more a a.
Proof. exists []. reflexivity. Qed.
Lemma more_trans a b c : more a b -> more b c -> more a c.
Proof. intros (x & X) (y & Y). exists (y ++ x). rewrite Y, X, app_assoc. reflexivity. Qed.
Lemma more_still a b : still a b -> more a b.
Proof. intros (_ & X). exact X. Qed.
Lemma more_shell a b : shell prob a b -> more a b.
Proof. intros S. destruct (sh_trace _ _ _ S) as (evs & X & _). exists evs. exact X. Qed.

(** A later call begins with the re-check; if that neither fails nor finds a
    root, the call goes on from there. *)
Lemma later_recheck rfuel (a : state) tout tret itask x : nrtfn a <> 0 ->
  later_call prob rfuel a tout tret itask = Ret x ->
  exists b r, r_check2 prob a = Ret (b, r) /\
  match r with
  | Err e => x = inl (b, tret, Err e)
  | Ok RootFound => x = inl (set_tretlast (tlo b) b, tlo b, Ok RootReturn)
  | Ok RootContinue => match x with inl (s, _, _) => more b s | inr (s, _) => more b s end
  end.
Proof.
  intros Hn E. unfold later_call in E. apply bind_ret_inv in E. destruct E as (y & Ey & E). cbv beta in E.
  destruct (Nat.ltb_spec 0 (nrtfn a)) as [_|X]; [|lia].
  apply bind_ret_inv in Ey. destruct Ey as ((b & r) & E2 & Ey). cbv beta iota zeta in Ey.
  exists b, r. split; [exact E2|]. destruct r as [[ | ]|e].
  - apply ret_inj in Ey. subst y. apply ret_inj in E. symmetry. exact E.
  - assert (Hy : match y with inl (s, _, _) => more b s | inr s => more b s end).
    { clear E. destruct (_ <? _)%sc; [|apply ret_inj in Ey; subst y; apply more_refl].
      apply bind_ret_inv in Ey. destruct Ey as ((s3 & r3) & E3 & Ey). cbv beta iota in Ey.
      assert (M3 : more b s3) by (apply more_shell; exact (r_check3_shell prob _ _ _ _ E3)).
      destruct r3; [apply ret_inj in Ey; subst y; exact M3|].
      destruct itask; [apply ret_inj in Ey; subst y; exact M3|].
      destruct (irfnd a); [|apply ret_inj in Ey; subst y; exact M3].
      apply bind_ret_inv in Ey. destruct Ey as ((s5 & r5) & E5 & Ey). cbv beta iota in Ey. apply ret_inj in Ey. subst y.
      eapply more_trans; [exact M3|]. exact (more_still _ _ (still_gs _ _ _ _ _ E5)). }
    clear Ey. destruct y as [((s & t) & r)|s]; [apply ret_inj in E; subst x; exact Hy|].
    apply bind_ret_inv in E. destruct E as (((s1 & t1) & r1) & E1 & E). cbv beta iota in E.
    apply still_stop1 in E1. destruct E1 as (S1 & _). apply more_still in S1.
    destruct r1 as [[ | | | ]|e]; apply ret_inj in E; subst x; exact (more_trans _ _ _ Hy S1).
  - apply ret_inj in Ey. subst y. apply ret_inj in E. symmetry. exact E.
Qed.

Lemma post_more rfuel (a b : state) tout tret itask t r : post_step prob rfuel a tout tret itask = Ret (b, t, r) -> more a b.
Proof.
  intros E. apply post_step_cases in E. destruct E as [(_ & s & S & _ & -> & _)|(s & S & _ & _ & E)].
  - exact (more_shell _ _ S).
  - eapply more_trans; [exact (more_shell _ _ S)|]. exact (more_still _ _ (proj1 (still_stop2 _ _ _ _ _ _ _ _ E))).
Qed.

Lemma run_more rfuel (st s0 s st' : state) tout tret itask nl m t r : ordok st -> enters prob ewt_set rfuel st tout tret itask s0 ->
  loops prob ewt_set rfuel tout itask tret s0 s nl -> ends prob ewt_set rfuel tout itask tret s nl m st' t r -> more s0 st'.
Proof.
  intros Ho En Lo F.
  assert (Hd : forall x nl, loops prob ewt_set rfuel tout itask tret s0 x nl -> head prob ewt_set tout itask st x)
    by (intros; eapply run_head; eassumption).
  assert (Step : forall x nl s1 s2 rs, head prob ewt_set tout itask st x -> pre_step prob ewt_set x tret nl = Ret (inr s1) ->
     step prob rfuel s1 = Ret (s2, rs) -> more x s2).
  { intros x nl0 s1 s2 rs Hx Ep Es. pose proof (still_pre _ _ _ _ _ _ Ep) as Sp. cbv iota in Sp.
    eapply more_trans; [exact (more_still _ _ Sp)|]. apply more_still. eapply still_step; [exact Hl| |exact Es].
    apply (pieces_ord prob ewt_set Hl st); [exact Ho|]. pose proof (pre_step_shell _ _ _ _ _ _ Ep) as (S1 & _).
    eapply pieces_shell; [exact (hd_pieces _ _ _ _ _ _ Hx)|exact S1]. }
  assert (M : more s0 s).
  { clear F. induction Lo as [|s nl s1 s2 u s' Lo IH Ep Es Ef]; [apply more_refl|].
    eapply more_trans; [exact IH|]. eapply more_trans; [exact (Step _ _ _ _ _ (Hd _ _ Lo) Ep Es)|]. exact (post_more _ _ _ _ _ _ _ _ Ef). }
  eapply more_trans; [exact M|]. specialize (Hd _ _ Lo). destruct F as [x t r Ep|s1 s2 e x t r Ep Es Ef|s1 s2 u x t r Ep Es Ef _].
  - pose proof (still_pre _ _ _ _ _ _ Ep) as Sp. cbv iota in Sp. exact (more_still _ _ (proj1 Sp)).
  - eapply more_trans; [exact (Step _ _ _ _ _ Hd Ep Es)|]. exact (more_still _ _ (proj1 (still_failed _ _ _ _ _ _ _ Ef))).
  - eapply more_trans; [exact (Step _ _ _ _ _ Hd Ep Es)|]. exact (post_more _ _ _ _ _ _ _ _ Ef).
Qed.

(** The whole call. *)
Lemma call_recheck fuel rfuel (st : state) tout tret itask st' t r : ordok st -> nst st <> 0 -> nrtfn st <> 0 ->
  solve prob ewt_set fuel rfuel st tout tret itask = Ret (st', t, r) ->
  exists l a b q, a = on_lp (fun _ => l) (task_set st tout itask) /\ shell prob st a /\ r_check2 prob a = Ret (b, q) /\
  match q with
  | Err e => st' = b /\ t = tret /\ r = Err e
  | Ok RootFound => st' = set_tretlast (tlo b) b /\ t = tlo b /\ r = Ok RootReturn
  | Ok RootContinue => more b st'
  end.
Proof.
  intros Ho Hz Hn E.
  assert (Start : forall x, solve_start prob ewt_set rfuel (task_set st tout itask) tout tret itask = Ret x ->
    exists l a b q, a = on_lp (fun _ => l) (task_set st tout itask) /\ shell prob st a /\ r_check2 prob a = Ret (b, q) /\
    match q with
    | Err e => x = inl (b, tret, Err e)
    | Ok RootFound => x = inl (set_tretlast (tlo b) b, tlo b, Ok RootReturn)
    | Ok RootContinue => match x with inl (s, _, _) => more b s | inr (s, _) => more b s end
    end).
  { intros x A. assert (Hz' : nst (task_set st tout itask) <> 0) by (intros C; apply tset_nst in C; congruence).
    assert (Hn' : nrtfn (task_set st tout itask) <> 0) by (unfold task_set; destruct itask; exact Hn).
    destruct (solve_start_cases _ _ _ _ _ _ _ _ A) as [(C & _)|[(C & _)|(_ & l & E1 & S1 & Q)]]; try congruence.
    destruct (later_recheck rfuel (on_lp (fun _ => l) (task_set st tout itask)) _ _ _ _ Hn' Q) as (b & q & E2 & M).
    exists l, (on_lp (fun _ => l) (task_set st tout itask)), b, q. split; [reflexivity|].
    split; [eapply shell_trans; [apply task_set_shell|exact S1]|]. split; [exact E2|exact M]. }
  destruct (solve_run _ _ _ _ _ _ _ _ _ _ _ E) as [A|(s0 & s & nl & m & En & Lo & F)].
  - destruct (Start _ A) as (l & a & b & q & Ea & Sh & E2 & M). exists l, a, b, q. split; [exact Ea|]. split; [exact Sh|]. split; [exact E2|].
    destruct q as [[ | ]|e]; [injection M as -> -> ->; auto|exact M|injection M as -> -> ->; auto].
  - destruct (Start _ En) as (l & a & b & q & Ea & Sh & E2 & M). exists l, a, b, q. split; [exact Ea|]. split; [exact Sh|]. split; [exact E2|].
    destruct q as [[ | ]|e]; [discriminate| |discriminate].
    eapply more_trans; [exact M|]. eapply run_more; eassumption.
Qed.
End Next.

Section NextR.
Local Open Scope R_scope.
Context {LSt NSt : Type} `{LSolver R LSt} `{NLSolver R NSt}.
Variable prob : problem R.
Variable ewt_set : list R -> list R.
Hypothesis Hl : @nls_lawful R NSt _.
Notation nr := (num_roots prob).
Notation state := (ida R LSt NSt).
Notation tr st := (trace (lp (nlp st))).
Variable c : @config R.
Hypothesis Hc : config_ok c.

(** What a root return leaves behind. *)
Lemma root_left yy0 yp0 (st st1 : state) fuel rfuel tout tret itask t1 : reach prob ewt_set c yy0 yp0 st ->
  solve prob ewt_set fuel rfuel st tout tret itask = Ret (st1, t1, Ok RootReturn) ->
  irfnd st1 = true /\ tlo st1 = t1 /\ nst st1 <> 0%nat.
Proof.
  intros Hr E. destruct (reach_ordJ prob ewt_set Hl c yy0 yp0 st Hc Hr) as (O & Hj).
  destruct (call_end prob ewt_set Hl c Hc _ _ _ _ _ _ _ _ _ O Hj (reach_left prob ewt_set Hl c Hc _ _ _ Hr) E)
    as [_ X|a e Pc Hz _ Ha E2 _ X|a b Pc Hz Hi Ha E2 -> -> _|f a b Pc Hz Ha E3 -> -> _]; try congruence.
  - split; [|split; [reflexivity|rewrite <- (shell_nst _ _ _ (r_check2_shell prob _ _ _ E2)) in Hz; exact Hz]]. pose proof (r_check2_kept prob _ _ _ E2) as K. unfold kept in K.
    destruct (pieces_J prob ewt_set Hl c st a O Hj Pc) as ((A & M & _ & K5 & _) & _).
    assert (Ib : irfnd b = irfnd a) by congruence. change (irfnd b = true). rewrite Ib.
    destruct (irfnd a) eqn:Ei; [reflexivity|].
    destruct (r_check2_spec prob a A ltac:(lia)) as [(_ & Y)|(Y & _)]; congruence.
  - split; [reflexivity|]. split; [reflexivity|]. rewrite <- (shell_nst _ _ _ (r_check3_shell prob _ _ _ _ E3)) in Hz. exact Hz.
Qed.

Lemma along_task l tout itask (st : state) i t v : arrays st -> (kused st <= 5)%nat ->
  along prob (on_lp (fun _ => l) (task_set st tout itask)) i t v -> along prob st i t v.
Proof.
  intros A K X s E. set (a := on_lp (fun _ => l) (task_set st tout itask)) in X.
  assert (F : time_check a t = time_check st t /\ interp_y prob a t = interp_y prob st t /\ interp_yp prob a t = interp_yp prob st t /\ arrays a /\ (kused a <= 5)%nat).
  { unfold a, task_set. destruct itask; (split; [reflexivity|]; split; [reflexivity|]; split; [reflexivity|]; split; [exact A|exact K]). }
  clearbody a. destruct F as (F1 & F2 & F3 & Aa & Ka).
  pose proof (gs_eval prob st s t _ A K E) as G. rewrite <- F1 in G. destruct (time_check a t) eqn:Et; [destruct G; discriminate|].
  destruct G as (_ & G1 & G2). destruct (proj2 (accepted_check prob a t Aa Ka) Et) as (s' & Es').
  pose proof (gs_eval prob a s' t _ Aa Ka Es') as G'. rewrite Et in G'. destruct G' as (_ & G3 & G4).
  rewrite (X s' Es'). unfold get_yy, get_yp. rewrite G1, G2, G3, G4, F2, F3. reflexivity.
Qed.

(** C61, the call following a root return at [t1]: the root functions are
    evaluated again at [t1] on the interpolated solution.  If an active one is
    still zero there, they are evaluated once more, one tolerance further in the
    direction of integration: an active component zero at both points makes the
    call fail with the documented error and the caller's time unchanged; one
    zero only at the later point is returned as a root at [t1] once more. *)
Theorem C61_next_call yy0 yp0 (st st1 st2 : state) fuel rfuel tout tret itask t1 fuel' rfuel' tout' tret' itask' t2 r2 :
  reach prob ewt_set c yy0 yp0 st ->
  solve prob ewt_set fuel rfuel st tout tret itask = Ret (st1, t1, Ok RootReturn) ->
  solve prob ewt_set fuel' rfuel' st1 tout' tret' itask' = Ret (st2, t2, r2) ->
  exists g, (forall i, (i < nr)%nat -> called prob st2 t1 i (g i) /\ along prob st1 i t1 (g i)) /\
  let zero i := (i < nr)%nat /\ bget (gactive st1) i = true /\ g i = 0 in
  (exists i, zero i) -> exists tp gp,
    Rabs (tp - t1) = tolerance st1 /\ 0 < (tp - t1) * hh st1 /\
    (forall i, (i < nr)%nat -> called prob st2 tp i (gp i) /\ ((tp - tn (nlp st1)) * hh st1 < 0 -> along prob st1 i tp (gp i))) /\
    let later i := (i < nr)%nat /\ bget (gactive st1) i = true /\ gp i = 0 in
    ((exists i, zero i /\ later i) -> r2 = Err (EIda (CloseRoots t1)) /\ t2 = tret') /\
    ((forall i, ~ (zero i /\ later i)) -> (exists i, later i) -> r2 = Ok RootReturn /\ t2 = t1).
Proof.
  intros Hr E1 E2.
  destruct (root_left _ _ _ _ _ _ _ _ _ _ Hr E1) as (Hi & Ht & Hz).
  destruct (C55_reported_roots prob ewt_set Hl c Hc _ _ _ _ _ _ _ _ _ _ Hr E1) as ((i0 & Hi0 & _) & _).
  assert (Hr1 : reach prob ewt_set c yy0 yp0 st1).
  { eapply (reach_call prob ewt_set c yy0 yp0 fuel rfuel st (CallSolve tout tret itask)); [exact Hr|]. unfold api_call. rewrite E1. reflexivity. }
  destruct (reach_ordJ prob ewt_set Hl c yy0 yp0 st1 Hc Hr1) as (O1 & J1).
  pose proof (reach_wf prob ewt_set Hl (fun _ _ => True) (any_preserved prob (fun _ _ => True) (fun _ _ => I)) c yy0 yp0 st1 Hc I Hr1) as W1.
  assert (Hn : nrtfn st1 <> 0%nat) by (rewrite (wf_nr _ _ _ W1); lia).
  destruct O1 as (A & M & X1 & K & X2). pose proof (conj A (conj M (conj X1 (conj K X2)))) as O1. change (ordok st1) in O1.
  destruct (rl_h _ _ _ (proj2 J1) (or_introl Hz)) as (Hh & _).
  destruct (call_recheck prob ewt_set Hl _ _ _ _ _ _ _ _ _ O1 Hz Hn E2) as (l & a & b & q & Ea & Sh & Ec & Q).
  assert (F : arrays a /\ (kused a <= 5)%nat /\ hh a = hh st1 /\ irfnd a = true /\ tlo a = t1 /\ gactive a = gactive st1 /\
    tn (nlp a) = tn (nlp st1) /\ tolerance a = tolerance st1).
  { rewrite Ea, <- Hi, <- Ht. unfold task_set. destruct itask'; (split; [exact A|]; split; [change (kused st1 <= 5)%nat; lia|]; repeat split). }
  destruct F as (Aa & Ka & Ha & Ia & Ta & Ga & Tn & Tol).
  destruct (C61_recheck prob a Aa Ka ltac:(congruence) Ia) as (b' & q' & g & Ec' & Tb & _ & Hg & Cs).
  rewrite Ec in Ec'. apply ret_inj in Ec'. assert (Eb : b' = b) by congruence. assert (Eq : q' = q) by congruence. subst b' q'. clear Ec'.
  assert (Al : forall i t v, along prob a i t v -> along prob st1 i t v).
  { intros i t v X. rewrite Ea in X. exact (along_task _ _ _ _ _ _ _ A ltac:(lia) X). }
  assert (Ca : forall t i v, called prob b t i v -> called prob st2 t i v).
  { intros t i v X. destruct q as [[ | ]|e].
    - destruct Q as (-> & _). exact X.
    - destruct Q as (evs & Q). exact (called_more prob _ _ _ _ _ _ Q X).
    - destruct Q as (-> & _). exact X. }
  rewrite Ta, Ga, Ha, Tn, Tol in *. cbv zeta in Cs.
  exists g. split; [intros i Li; destruct (Hg i Li) as (G1 & G2); split; [exact (Ca _ _ _ G1)|exact (Al _ _ _ G2)]|].
  intros zero (i1 & Z1). destruct Cs as [(N & _)|(_ & tp & gp & P1 & P2 & P3 & P4 & _)]; [destruct (N i1 Z1)|].
  exists tp, gp. split; [exact P1|]. split; [exact P2|].
  split; [intros i Li; destruct (P3 i Li) as (G1 & G2); split; [exact (Ca _ _ _ G1)|intros X; exact (Al _ _ _ (G2 X))]|].
  intros later. fold zero in P4. fold later in P4.
  destruct P4 as [((i2 & Z2) & ->)|[(N & (i2 & Z2) & ->)|(N & ->)]].
  - split; [intros _|intros N; destruct (N i2 Z2)]. destruct Q as (_ & -> & ->). split; reflexivity.
  - split; [intros (i3 & Z3); destruct (N i3 Z3)|intros _ _]. destruct Q as (_ & -> & ->). split; [reflexivity|exact Tb].
  - split; [intros (i3 & _ & Z3); destruct (N i3 Z3)|intros _ (i3 & Z3); destruct (N i3 Z3)].
Qed.
End NextR.

(** The Roberts problem: as shipped, no component vanishes at the start; with
    the thresholds at the initial values both do, and only the first is watched. *)
Definition started (p : problem float) (test : fstate -> bool) : bool :=
  match ida_new p [1; 0; 0]%float [-0.04; 0.04; 0]%float with
  | Ret st0 => match first_call p roberts_ewt (task_set (configure robertsD st0) 0.4%float Normal) 0.4%float with
               | Ret (inr s) => test s
               | _ => false
               end
  | _ => false
  end.
Lemma started_ok p test : started p test = true -> exists st0 s : fstate,
  ida_new p [1; 0; 0]%float [-0.04; 0.04; 0]%float = Ret st0 /\
  first_call p roberts_ewt (task_set (configure robertsD st0) 0.4%float Normal) 0.4%float = Ret (inr s) /\ test s = true.
Proof.
  unfold started. destruct (ida_new _ _ _) as [st0| |]; try discriminate.
  destruct (first_call _ _ _ _) as [[x|s]| |] eqn:E; try discriminate. intros Ht. exists st0, s. split; [reflexivity|]. split; [exact E|exact Ht].
Qed.
Definition at_start : problem float := roberts 0.04%float 1e4%float 3e7%float 6e7%float 1%float 0%float.

Example C59_initial_check_hypotheses_met :
  (exists st0 s : fstate, ida_new robertsF [1; 0; 0]%float [-0.04; 0.04; 0]%float = Ret st0 /\ 0 < num_roots robertsF /\
     first_call robertsF roberts_ewt (task_set (configure robertsD st0) 0.4%float Normal) 0.4%float = Ret (inr s) /\
     gactive s = [false; false] /\ get_num_g_evals s = 1) /\
  (exists st0 s : fstate, ida_new at_start [1; 0; 0]%float [-0.04; 0.04; 0]%float = Ret st0 /\ 0 < num_roots at_start /\
     first_call at_start roberts_ewt (task_set (configure robertsD st0) 0.4%float Normal) 0.4%float = Ret (inr s) /\
     gactive s = [true; false] /\ get_num_g_evals s = 2).
Proof.
  split.
  - destruct (started_ok robertsF (fun s => match gactive s with [false; false] => true | _ => false end && (get_num_g_evals s =? 1))) as (st0 & s & E0 & E & Ht);
      [vm_compute; reflexivity|].
    exists st0, s. split; [exact E0|]. split; [cbn; lia|]. split; [exact E|]. apply andb_prop in Ht. destruct Ht as (A & B).
    apply Nat.eqb_eq in B. split; [|exact B]. destruct (gactive s) as [|[] [|[] [|]]]; congruence.
  - destruct (started_ok at_start (fun s => match gactive s with [true; false] => true | _ => false end && (get_num_g_evals s =? 2))) as (st0 & s & E0 & E & Ht);
      [vm_compute; reflexivity|].
    exists st0, s. split; [exact E0|]. split; [cbn; lia|]. split; [exact E|]. apply andb_prop in Ht. destruct Ht as (A & B).
    apply Nat.eqb_eq in B. split; [|exact B]. destruct (gactive s) as [|[] [|[] [|]]]; congruence.
Qed.

(** A life with a root at 5/8. *)
Local Existing Instance ExampleRoot.NLS_E.
Notation state := (ida R (list nat) (script R)).

Example C61_next_call_hypotheses_met : exists (st st1 st2 : state) fuel rfuel tout tret itask t1 fuel' rfuel' tout' tret' itask' t2 r2,
  config_ok configQ /\ reach (rootR cross) ewtR configQ [0%R] [1%R] st /\
  solve (rootR cross) ewtR fuel rfuel st tout tret itask = Ret (st1, t1, Ok RootReturn) /\
  solve (rootR cross) ewtR fuel' rfuel' st1 tout' tret' itask' = Ret (st2, t2, r2).
Proof.
  destruct cross_run as (f & st & st1 & t1 & s & s2 & s3 & Hr & _ & E & _).
  assert (Hr1 : reach (rootR cross) ewtR configQ [0%R] [1%R] st1).
  { eapply (reach_call (rootR cross) ewtR configQ [0%R] [1%R] 600 f st (CallSolve 1%R 0%R Normal)); [exact Hr|]. unfold api_call. rewrite E. reflexivity. }
  destruct (C47_solve_returns_reals (rootR cross) ewtR (script_lawful []) (script_setup_total []) (fun s x => script_solve_total (rootR cross) [] s x)
    configQ [0%R] [1%R] st1 600 1%R 0%R Normal configQ_ok Hr1 ltac:(cbn; lia)) as (N & st2 & t2 & r2 & E2).
  exists st, st1, st2, 600, f, 1%R, 0%R, Normal, t1, 600, N, 1%R, 0%R, Normal, t2, r2.
  split; [exact configQ_ok|]. split; [exact Hr|]. split; [exact E|exact (E2 N (le_n _))].
Qed.

Print Assumptions C59_initial_check.
Print Assumptions C61_next_call.
