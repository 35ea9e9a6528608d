(** * PropSelect: error estimates and the choice of the next order and step size
    (C71-C73)

    Over the reals, for lives in which the nonlinear solver has reported no
    failure (as in PropHist). *)
Require Import List Arith Bool Lia Reals Lra Psatz.
Import ListNotations.
Require Import Verif.Base Verif.Scalar Verif.ScalarR Verif.Dense Verif.Norms Verif.NormsR Verif.Newton Verif.NewtonSpec Verif.IdaState
  Verif.IdaNls Verif.IdaCore Verif.IdaRoots Verif.IdaSolve Verif.IdaIo Verif.BaseFacts Verif.NewtonFacts
  Verif.IdaFacts Verif.IdaLoops Verif.IdaStep Verif.IdaSpec Verif.IdaShell Verif.IdaReach Verif.IdaInv
  Verif.IdaCount Verif.IdaLife Verif.IdaTrace Verif.IdaAccept Verif.IdaStepR Verif.IdaSafe Verif.IdaInterp Verif.IdaCall Verif.IdaCallR
  Verif.Script Verif.PropSafe Verif.PropSolve Verif.ExampleR Verif.PropStepR Verif.PropStop
  Verif.RSum Verif.VecR Verif.PolyR Verif.PolyTop Verif.HistSpec Verif.IdaHist Verif.IdaHistLife Verif.InterpR Verif.IdaNoFail Verif.IdaRow0
  Verif.PropHist.
Open Scope R_scope.

(** ** Specification *)

(** [v] is h^d times the d-th derivative of the polynomial of degree at most
    [d] through component [x] of the first d + 1 points.  (The d-th derivative
    of such a polynomial is d! times its coefficient number d.) *)
Definition scaled_deriv (h : R) (pts : list (R * list R)) (d x : nat) (v : R) : Prop :=
  exists p, (length p <= d + 1)%nat /\
    (forall i, (i <= d)%nat -> exists ti yi, nth_error pts i = Some (ti, yi) /\ peval p ti = nth x yi 0) /\
    v = h ^ d * (INR (fact d) * nth d p 0).

(** [E] is the weighted norm of h^(j+1) y^(j+1), the (j+1)-st derivatives being
    taken from the latest j + 2 points: the error estimate for order [j]. *)
Definition estimate (n : nat) (nrm : list R -> R) (h : R) (pts : list (R * list R)) (j : nat) (E : R) : Prop :=
  exists v, length v = n /\ (forall x, (x < n)%nat -> scaled_deriv h pts (j + 1) x (nth x v 0)) /\ E = nrm v.

(** The order to be used if only a reduction is considered, [E j] being the
    estimate for order [j]. *)
Definition reduced (k : nat) (E : nat -> R) (k' : nat) : Prop :=
  let lower := (k = 2%nat /\ E 1%nat <= E 2%nat / 2) \/
               ((3 <= k)%nat /\ E (k - 1)%nat <= E k /\ E (k - 2)%nat <= E k) in
  (lower -> k' = (k - 1)%nat) /\ (~ lower -> k' = k).

(** The order after an accepted step of order [k] outside the start-up phase;
    [may_raise] says that a higher order is considered at all. *)
Definition selected (k : nat) (E : nat -> R) (may_raise : bool) (k' : nat) : Prop :=
  exists kr, reduced k E kr /\
  ((kr < k)%nat -> k' = kr) /\
  (kr = k -> may_raise = false -> k' = k) /\
  (kr = k -> may_raise = true ->
     let lower := (2 <= k)%nat /\ E (k - 1)%nat <= E k /\ E (k - 1)%nat <= E (k + 1)%nat in
     let raise := if (k =? 1)%nat then E 2%nat < E 1%nat / 2 else E (k + 1)%nat < E k in
     (lower -> k' = (k - 1)%nat) /\
     (~ lower -> raise -> k' = (k + 1)%nat) /\
     (~ lower -> ~ raise -> k' = k)).

(** The ratio which would make the next error (2 E_k' / (k' + 1)) about 1. *)
Definition ratio (k' : nat) (E : nat -> R) : R :=
  Rpower (2 * (E k' / INR (k' + 1)) + / 10000) (- / INR (k' + 1)).

(** Twice the step size, or the largest one allowed ([hi] is its inverse, zero
    if there is none). *)
Definition limit2 (hi h : R) : R :=
  if Rlt_dec 1 (Rabs (2 * h) * hi) then 2 * h / (Rabs (2 * h) * hi) else 2 * h.

(** The step size after an accepted step, [q] being that ratio. *)
Definition resized (hmax_inv h q h' : R) : Prop :=
  (2 <= q -> h' = limit2 hmax_inv h) /\
  (1 < q < 2 -> h' = h) /\
  (q <= 1 -> h' = h * Rmax (/ 2) (Rmin q (9 / 10))).

(** Estimates are unique: the points lie at different times. *)
Lemma estimate_unique n nrm h pts j E E' :
  (forall i i' p p', (i <= j + 1)%nat -> (i' <= j + 1)%nat -> i <> i' ->
     nth_error pts i = Some p -> nth_error pts i' = Some p' -> fst p <> fst p') ->
  estimate n nrm h pts j E -> estimate n nrm h pts j E' -> E = E'.
Proof.
  intros D (v & Lv & Hv & ->) (v' & Lv' & Hv' & ->). f_equal.
  apply (nth_ext v v' 0 0); [lia|]. rewrite Lv. intros x Lx.
  destruct (Hv x Lx) as (p & Lp & Hp & ->). destruct (Hv' x Lx) as (p' & Lp' & Hp' & ->).
  do 2 f_equal. apply same_coef.
  set (t := fun i => fst (nth i pts (0, []))).
  assert (Hd : distinct (j + 1) t).
  { intros i i' Li Li' Hne. unfold t. destruct (Hp i Li) as (a & ya & Ea & _). destruct (Hp i' Li') as (b & yb & Eb & _).
    rewrite (nth_error_nth _ _ _ Ea), (nth_error_nth _ _ _ Eb). eapply (D i i'); eassumption. }
  apply (through_unique (j + 1) t (fun i => peval p (t i)) p p' Hd).
  - split; [exact Lp|reflexivity].
  - split; [exact Lp'|]. intros i Li. destruct (Hp i Li) as (a & ya & Ea & Pa). destruct (Hp' i Li) as (b & yb & Eb & Pb).
    rewrite Ea in Eb. injection Eb as <- <-. unfold t. rewrite (nth_error_nth _ _ _ Ea). cbn [fst]. rewrite Pa, Pb. reflexivity.
Qed.

(** ** The norm *)

Lemma wrms_norm_scal id w b c (u v : list R) : 0 <= c -> length u = length v ->
  (forall x, (x < length v)%nat -> vget u x = c * vget v x) -> wrms_norm id u w b = c * wrms_norm id v w b.
Proof.
  intros Hc L H. unfold wrms_norm.
  destruct (Nat.eq_dec (length v) 0) as [Z|Z].
  - destruct u; [|cbn in L; lia]. destruct v; [|discriminate].
    assert (N : sqrt (0 / 0) = 0) by (unfold Rdiv; rewrite Rmult_0_l; apply sqrt_0).
    destruct b; cbn; rewrite N; ring.
  - assert (Hn : (1 <= length v)%nat) by lia.
    destruct b.
    + rewrite !norm_wrms_masked_eq, L.
      rewrite <- (Rabs_pos_eq c Hc) at 1. rewrite <- wrms_scal by exact Hn. apply wrms_ext. intros i Li.
      destruct (nth i id false); [|ring]. change (nth i u 0) with (vget u i). rewrite (H i Li). reflexivity.
    + rewrite !norm_wrms_eq, L.
      rewrite <- (Rabs_pos_eq c Hc) at 1. rewrite <- wrms_scal by exact Hn. apply wrms_ext. intros i Li.
      change (nth i u 0) with (vget u i). rewrite (H i Li). reflexivity.
Qed.

Open Scope nat_scope.
(** The rules determine the order. *)
Lemma reduced_fun k E a b : reduced k E a -> reduced k E b -> a = b.
Proof.
  intros (A1 & A2) (B1 & B2). revert A1 A2 B1 B2. set (P := _ \/ _).
  assert (D : {P} + {~ P}).
  { unfold P. destruct (Nat.eq_dec k 2) as [K2|K2].
    - destruct (Rle_dec (E 1%nat) (E 2%nat / 2)%R) as [L|L]; [left; left; auto|right; intros [(_ & X)|(X & _)]; [contradiction|lia]].
    - destruct (le_lt_dec 3 k) as [K3|K3]; [|right; intros [(X & _)|(X & _)]; lia].
      destruct (Rle_dec (E (k - 1)) (E k)) as [L|L]; [|right; intros [(X & _)|(_ & X & _)]; [lia|contradiction]].
      destruct (Rle_dec (E (k - 2)) (E k)) as [L'|L']; [left; right; auto|right; intros [(X & _)|(_ & _ & X)]; [lia|contradiction]]. }
  intros A1 A2 B1 B2. destruct D as [D|D]; [rewrite A1, B1 by exact D|rewrite A2, B2 by exact D]; reflexivity.
Qed.

Section Values.
Context {T LSt NSt : Type} `{Scalar T} `{LSolver T LSt} `{NLSolver T NSt}.
Variable prob : problem T.
Notation n := (model_size prob).
Notation state := (ida T LSt NSt).

(** Error estimates and reduced order computed by the error test of [st]. *)
Definition est_of (st : state) (ek ek1 : T) : Prop :=
  let nrm u := wrms_norm (idv st) u (ewt (nlp st)) (suppressalg st) in
  let k := kk st in
  let d1 := vadd n (row (phi st) k) (ee st) in
  let d2 := vadd n d1 (row (phi st) (k - 1)) in
  ek = (vget (sigma st) k * nrm (ee st))%sc /\
  (2 <= k -> ek1 = (vget (sigma st) (k - 1) * nrm d1)%sc) /\
  knew st =
    (if 2 <? k then
       if (smax (sofnat k * ek1) ((sofnat k - sone) * (vget (sigma st) (k - 2) * nrm d2)) <=? ek * (sofnat k + sone))%sc
       then k - 1 else k
     else if 1 <? k then
       if (sofnat k * ek1 <=? ek * (sofnat k + sone) * shalf)%sc then k - 1 else k
     else k).

Lemma test_error_est (st st' : state) ck ek ek1 r : test_error prob st ck = Ret (st', ek, ek1, r) -> est_of st' ek ek1.
Proof.
  unfold test_error. intros E. cbv zeta in E.
  apply bind_ret_inv in E. destruct E as (sgk & Es & E).
  apply aget_inv in Es. destruct Es as (_ & Es). specialize (Es szero).
  apply bind_ret_inv in E. destruct E as (((sta & ek1a) & kn) & Eb & E). cbv beta iota in E.
  assert (Hst : exists d, st' = set_knew kn (set_delta d st) \/ st' = on_lp (push_ev CFail) (set_knew kn (set_delta d st))).
  { assert (Hd : exists d, sta = set_delta d st \/ sta = st).
    { destruct (1 <? kk st); [|injection Eb as <- _ _; exists (delta st); right; reflexivity].
      apply bind_ret_inv in Eb. destruct Eb as (pk & _ & Eb). apply bind_ret_inv in Eb. destruct Eb as (s1 & _ & Eb).
      cbv zeta in Eb. cbn [kk set_delta] in Eb. destruct (2 <? kk st).
      - apply bind_ret_inv in Eb. destruct Eb as (pk1 & _ & Eb). apply bind_ret_inv in Eb. destruct Eb as (s2 & _ & Eb).
        cbv zeta in Eb. injection Eb as <- _ _. eexists. left. reflexivity.
      - injection Eb as <- _ _. eexists. left. reflexivity. }
    destruct Hd as (d & Hd). 
    assert (Hd' : exists d, sta = set_delta d st) by (destruct Hd as [-> | ->]; [exists d; reflexivity|exists (delta st); destruct st; reflexivity]).
    destruct Hd' as (d' & ->). exists d'. destruct (_ <=? sone)%sc; injection E as <- _ _ _; [left|right]; reflexivity. }
  assert (Eek : ek = (sgk * wrms_norm (idv st) (ee st) (ewt (nlp st)) (suppressalg st))%sc /\ ek1 = ek1a).
  { destruct (_ <=? sone)%sc in E; injection E as _ <- <- _; split; reflexivity. }
  destruct Eek as (Eek & ->).
  assert (F : idv st' = idv st /\ ewt (nlp st') = ewt (nlp st) /\ suppressalg st' = suppressalg st /\ kk st' = kk st /\
    phi st' = phi st /\ ee st' = ee st /\ sigma st' = sigma st /\ knew st' = kn).
  { destruct Hst as (d & [-> | ->]); repeat split. }
  destruct F as (F1 & F2 & F3 & F4 & F5 & F6 & F7 & F8).
  unfold est_of. cbv zeta. rewrite F1, F2, F3, F4, F5, F6, F7, F8.
  split; [rewrite Eek; unfold vget; rewrite Es; reflexivity|].
  destruct (1 <? kk st) eqn:L1.
  - apply Nat.ltb_lt in L1.
    apply bind_ret_inv in Eb. destruct Eb as (pk & Ep & Eb). apply bind_ret_inv in Eb. destruct Eb as (s1 & Es1 & Eb).
    apply aget_inv in Ep. destruct Ep as (_ & Ep). apply aget_inv in Es1. destruct Es1 as (_ & Es1).
    specialize (Ep []). specialize (Es1 szero). cbv zeta in Eb. cbn [kk set_delta delta idv suppressalg sigma] in Eb.
    cbn [kk set_delta delta idv suppressalg sigma] in Es1.
    unfold row, vget. rewrite Ep, Es1.
    destruct (2 <? kk st) eqn:L2.
    + apply bind_ret_inv in Eb. destruct Eb as (pk1 & Ep1 & Eb). apply bind_ret_inv in Eb. destruct Eb as (s2 & Es2 & Eb).
      apply aget_inv in Ep1. destruct Ep1 as (_ & Ep1). apply aget_inv in Es2. destruct Es2 as (_ & Es2).
      specialize (Ep1 []). specialize (Es2 szero). cbn [kk set_delta delta idv suppressalg sigma phi] in Ep1, Es2.
      cbv zeta in Eb. cbn [kk set_delta delta idv suppressalg sigma] in Eb.
      injection Eb as _ Eb1 Eb2. rewrite Ep1, Es2. 
      split; [intros _; rewrite <- Eb1; reflexivity|]. rewrite <- Eb2, <- Eb1, Eek. reflexivity.
    + injection Eb as _ Eb1 Eb2.
      split; [intros _; rewrite <- Eb1; reflexivity|]. rewrite <- Eb2, <- Eb1, Eek. reflexivity.
  - apply Nat.ltb_ge in L1. injection Eb as _ _ <-. split; [lia|].
    destruct (2 <? kk st) eqn:L2; [apply Nat.ltb_lt in L2; lia|reflexivity].
Qed.

Lemma try_est (Hl : nls_lawful) (st st1 : state) ck ek ek1 r : try_step prob st = Ret (st1, ck, ek, ek1, r) ->
  (forall m, r <> Err (ENls m)) -> est_of st1 ek ek1.
Proof.
  unfold try_step. intros E Hm. cbv zeta in E.
  apply bind_ret_inv in E. destruct E as ((sa & cka) & _ & E). cbv beta iota in E.
  apply bind_ret_inv in E. destruct E as (sb & _ & E).
  apply bind_ret_inv in E. destruct E as ((sc & rc) & En & E). cbv beta iota in E.
  destruct rc as [u|e].
  - apply bind_ret_inv in E. destruct E as ((((sd & eka) & ek1a) & ra) & Et & E). cbv beta iota in E.
    injection E as <- <- <- <- <-. eapply test_error_est. exact Et.
  - injection E as <- <- <- <- <-. exfalso. apply (nonlinear_solve_frame prob Hl) in En.
    destruct En as (_ & _ & _ & _ & _ & _ & _ & _ & _ & _ & En). destruct e; try contradiction. eapply Hm. reflexivity.
Qed.

Lemma try_yy (Hl : nls_lawful) (st st1 : state) ck ek ek1 r : try_step prob st = Ret (st1, ck, ek, ek1, r) ->
  (forall m, r <> Err (ENls m)) -> yy (nlp st1) = vadd n (yypredict (nlp st1)) (ee st1).
Proof.
  unfold try_step. intros E Hm. cbv zeta in E.
  apply bind_ret_inv in E. destruct E as ((sa & cka) & _ & E). cbv beta iota in E.
  apply bind_ret_inv in E. destruct E as (sb & _ & E).
  apply bind_ret_inv in E. destruct E as ((sc & rc) & En & E). cbv beta iota in E.
  apply (nonlinear_solve_frame prob Hl) in En.
  destruct En as (_ & _ & _ & _ & _ & _ & _ & _ & _ & _ & En). destruct rc as [u|e].
  - apply bind_ret_inv in E. destruct E as ((((sd & eka) & ek1a) & ra) & Et & E). cbv beta iota in E.
    injection E as <- <- <- <- <-. destruct En as (En & _).
    pose proof (test_error_frame prob _ _ _ _ _ _ Et) as (_ & _ & _ & _ & _ & _ & _ & F & _ & _ & G).
    assert (Fe : ee sd = ee sc) by (pinj; assumption). rewrite Fe.
    assert (Fn : yy (nlp sd) = yy (nlp sc) /\ yypredict (nlp sd) = yypredict (nlp sc)).
    { destruct ra as [?|?]; [destruct G as (_ & ->)|destruct G as (_ & _ & ->)]; split; reflexivity. }
    destruct Fn as (-> & ->). exact En.
  - injection E as <- <- <- <- <-. exfalso. destruct e; try contradiction. eapply Hm. reflexivity.
Qed.

(** The step passes its estimates on to [complete_step]. *)
Lemma step_completes (Hl : nls_lawful) fuel (st st' : state) u : ordok st -> step prob fuel st = Ret (st', Ok u) ->
  exists sta nef st1 ck ek ek1 st2,
    tries prob (tn (nlp st)) (st_init st) sta nef /\
    try_step prob sta = Ret (st1, ck, ek, ek1, Ok tt) /\ tried prob sta st1 ck (Ok tt) /\
    complete_step prob st1 ek ek1 = Ret st2 /\ st' = st_commit prob ck st2.
Proof.
  intros (Ha & Hm & Hk & Hu & Hz) E. unfold step in E.
  rewrite step_init_eq in E by (destruct Ha as (_ & -> & _); lia). rewrite bind_ret in E.
  assert (A0 : arrays (st_init st)) by (apply arrays_init; exact Ha).
  assert (K0 : 1 <= kk (st_init st) <= maxord (st_init st)).
  { unfold st_init. change (nst (on_lp (push_ev (begin_ev st)) st)) with (nst st). cbv zeta.
    destruct (Nat.eqb_spec (nst st) 0) as [Hn|Hn]; cbn; [lia|]. specialize (Hz Hn). lia. }
  assert (M0 : maxord (st_init st) = maxord st).
  { unfold st_init. cbv zeta. destruct (nst _ =? 0); reflexivity. }
  set (st0 := st_init st) in *. clearbody st0. set (t0 := tn (nlp st)) in *. clearbody t0.
  apply bind_ret_inv in E. destruct E as ((s & rs) & E1 & E). cbv beta iota in E.
  destruct (step_loop_ind prob Hl (tries prob t0 st0) t0) with (4 := E1)
    as (sta & nefa & st1 & ck & ek & ek1 & r1 & P1 & _ & P2 & P3 & P4).
  - intros s1 nef Ht. destruct (tries_ord prob _ _ _ _ A0 K0 Ht) as (B1 & B2 & _). split; [exact B1|lia].
  - intros s1 nef s2 ck ek ek1 s3 Q1 Q2 Q3 Q4 Q5. econstructor; eassumption.
  - constructor.
  - destruct P4 as [(-> & -> & ->)|(e & -> & Hg & Hc)].
    + destruct (tries_ord prob _ _ _ _ A0 K0 P1) as (B1 & B2 & B3 & _).
      apply cfg_fields in B3. destruct B3 as (_ & _ & _ & _ & _ & _ & _ & B3 & _).
      pose proof (tr_ord _ _ _ _ _ P3) as K2. pinj.
      pose proof (tr_res _ _ _ _ _ P3) as (_ & _ & _ & Hkn & _).
      pose proof (maxord_tried _ _ _ _ _ P3) as M1.
      destruct (complete_step_spec prob st1 ek ek1) as (st2 & E2 & C2);
        [apply P3|lia|lia|replace (kk st1) with (kk sta); exact Hkn|].
      exists sta, nefa, st1, ck, ek, ek1, st2. split; [exact P1|]. split; [exact P2|]. split; [exact P3|]. split; [exact E2|].
      rewrite E2 in E. rewrite bind_ret in E. change (Ret (st_commit prob ck st2, @Ok unit (err T) tt) = Ret (st', Ok u)) in E.
      remember (st_commit prob ck st2) as s2 eqn:Es. clear E1 E2. injection E as E _. symmetry. exact E.
    + exfalso. destruct Hc as [(_ & _ & _ & -> & _)|(_ & -> & _)]; discriminate E.
Qed.
Lemma restore_keeps (st s : state) t : restore prob st t = Ret s -> kk s = kk st /\ knew s = knew st /\ nst s = nst st.
Proof.
  intros E. unfold restore in E. apply bind_ret_inv in E. destruct E as (ps & _ & E). cbv zeta in E.
  destruct (_ <=? _).
  - apply bind_ret_inv in E. destruct E as (u1 & _ & E). apply bind_ret_inv in E. destruct E as (u2 & _ & E).
    apply bind_ret_inv in E. destruct E as (cv & _ & E). apply bind_ret_inv in E. destruct E as (u3 & _ & E).
    apply bind_ret_inv in E. destruct E as (ph & _ & E). injection E as <-. repeat split; reflexivity.
  - injection E as <-. repeat split; reflexivity.
Qed.

Lemma reset_keeps (st s : state) : reset prob st = Ret s -> rr s = rr st.
Proof. intros E. unfold reset in E. apply bind_ret_inv in E. destruct E as (ps & _ & E). injection E as <-. reflexivity. Qed.

Lemma handle_first (st s : state) ek ek1 ncf ncf' nef' r :
  handle_n_flag st (EIda TestFail) ek ek1 ncf 0 = Ret (s, ncf', nef', r) ->
  rr s = smax squarter (smin spt9 (spt9 * spowf (stwo * (if (kk st =? knew st)%nat then ek else ek1) + spt0001)
                                                (- srecip (sofnat (knew st + 1)%nat))))%sc.
Proof.
  intros E. unfold handle_n_flag in E. cbv zeta in E.
  assert (X : forall a b c : state * nat * nat * result unit (err T), a = b -> Ret a = Ret c -> rr (fst (fst (fst c))) = rr (fst (fst (fst b)))).
  { intros a b c0 -> Q. apply ret_inj in Q. rewrite Q. reflexivity. }
  pose proof (X _ _ _ eq_refl E) as Y. cbn [fst rr set_hh set_rr] in Y. rewrite Y. reflexivity.
Qed.

(** The step-size factor after the first failed error test. *)
Lemma first_retry (st st' st1 : state) t ncf ncf' nef' ck ek ek1 :
  attempt_step prob st t ncf 0 = Ret (st', ncf', nef', Ok None) ->
  try_step prob st = Ret (st1, ck, ek, ek1, Err (EIda TestFail)) ->
  rr st' = smax squarter (smin spt9 (spt9 * spowf (stwo * (if (kk st1 =? knew st1)%nat then ek else ek1) + spt0001)
                                                (- srecip (sofnat (knew st1 + 1)%nat))))%sc.
Proof.
  intros E Et. unfold attempt_step in E. rewrite Et, bind_ret in E. cbv beta iota in E.
  apply bind_ret_inv in E. destruct E as (sr & Er & E). apply restore_keeps in Er. destruct Er as (K1 & K2 & K3).
  apply bind_ret_inv in E. destruct E as ((((s & ncf1) & nef1) & r) & Eh & E). cbv beta iota in E.
  apply handle_first in Eh. rewrite K1, K2 in Eh. rewrite <- Eh. clear Eh.
  destruct r; [|discriminate]. apply bind_ret_inv in E. destruct E as (s2 & E1 & E). injection E as <- _ _.
  destruct (nst s =? 0); [apply reset_keeps in E1; exact E1|injection E1 as <-; reflexivity].
Qed.

Lemma tries_phase t0 (st0 sta : state) nef : tries prob t0 st0 sta nef -> netf sta = netf st0 + nef.
Proof.
  induction 1 as [|st nef st1 ck ek ek1 st' Tr IH Et Td Hn Rt]; [lia|].
  rewrite (rt_netf _ _ _ _ _ Rt). pose proof (tr_cnt _ _ _ _ _ Td). assert (netf st1 = netf st) by (pinj; assumption). lia.
Qed.

Lemma tries_phase0 t0 (st0 sta : state) nef : tries prob t0 st0 sta nef -> (phase sta = 0 <-> nef = 0 /\ phase st0 = 0).
Proof.
  destruct 1 as [|st nef st1 ck ek ek1 st' Tr Et Td Hn Rt]; [tauto|].
  rewrite (rt_phase _ _ _ _ _ Rt). split; [discriminate|]. intros (X & _). lia.
Qed.

(** Good solver objects return corrections of length n. *)
Definition sized (good : NSt -> Prop) : Prop :=
  forall s (x : nlprob T LSt) d y w tol call s' x' y', good s ->
    nls_solve _ (ida_nlproblem prob) n s x d y w tol call = Ret (s', x', y', Ok tt) -> length y' = n.

Lemma try_sized (good : NSt -> Prop) : never_fails prob good -> sized good ->
  forall (st st1 : state) ck ek ek1 r, good (nls st) -> try_step prob st = Ret (st1, ck, ek, ek1, r) -> length (ee st1) = n.
Proof.
  intros Hg Hs st st1 ck ek ek1 r G E. unfold try_step in E.
  set (sx := on_lp (push_ev (CTry (tn (nlp st)) (hh st) (kk st))) st) in E.
  apply bind_ret_inv in E. destruct E as ((s1 & c1) & E1 & E). apply bind_ret_inv in E. destruct E as (s2 & E2 & E).
  apply bind_ret_inv in E. destruct E as ((s3 & r3) & E3 & E). cbv beta iota in E.
  assert (N : nls s2 = nls st).
  { destruct (set_coeffs_frame _ _ _ _ E1) as (_ & _ & _ & _ & _ & _ & _ & N1 & _).
    destruct (predict_frame _ _ _ E2) as (_ & _ & _ & _ & _ & N2 & _). rewrite advance_tn_eq in N2.
    assert (Q1 : nls s1 = nls st) by (change (nls st) with (nls sx); congruence).
    unfold stepst in N2. change (nls (on_nlp (set_tn (tn_next s1)) s1)) with (nls s1) in N2. congruence. }
  rewrite <- N in G. clear N E1 E2. clearbody sx.
  destruct (nonlinear_good prob good Hg _ _ _ G E3) as (_ & ->).
  apply bind_ret_inv in E. destruct E as ((((s4 & ek') & ek1') & r4) & E4 & E). cbv beta iota in E. injection E as <- <- <- <- <-.
  destruct (test_error_frame _ _ _ _ _ _ _ E4) as (_ & _ & _ & _ & _ & _ & _ & F & _).
  assert (Fe : ee s4 = ee s3) by (pinj; assumption). rewrite Fe. clear E4 F Fe s4.
  unfold nonlinear_solve in E3. destruct (nls_prepare s2) as (sp & call) eqn:Ep.
  assert (Np : nls sp = nls s2).
  { unfold nls_prepare in Ep. cbv zeta in Ep. apply (f_equal (fun q => nls (fst q))) in Ep. cbn [fst] in Ep. rewrite <- Ep.
    destruct (sneqb _ _); destruct (nst s2 =? 0); reflexivity. }
  clear Ep. apply bind_ret_inv in E3. destruct E3 as (((sn & d) & ru) & Eu & E3). cbv beta iota in E3.
  change (nls (set_delta (vzero n) sp)) with (nls sp) in Eu. rewrite Np in Eu.
  destruct (proj1 Hg _ _ _ _ _ G Eu) as (G1 & ->). cbv iota zeta in E3.
  apply bind_ret_inv in E3. destruct E3 as ((((sm & x) & eev) & rv) & Ev & E3). cbv beta iota in E3.
  destruct rv as [[]|e]; [|discriminate E3].
  assert (Le : length eev = n) by (eapply Hs; [exact G1|exact Ev]).
  destruct (constraints_set _) in E3; [discriminate|]. apply ret_inj in E3.
  apply (f_equal (fun q => ee (fst q))) in E3. cbn [fst] in E3. rewrite <- E3. exact Le.
Qed.

End Values.

Open Scope R_scope.

Section Select.
Context {LSt NSt : Type} `{LSolver R LSt} `{NLSolver R NSt}.
Variable prob : problem R.
Variable ewt_set : list R -> list R.
Hypothesis Hl : @nls_lawful R NSt _.
Notation n := (model_size prob).
Notation state := (ida R LSt NSt).
Notation tr st := (trace (lp (nlp st))).

(** ** What [complete_step] decides *)

Lemma update_phi_keeps (st st' : state) : update_phi prob st = Ret st' -> exists ph, st' = set_phi ph st.
Proof.
  unfold update_phi. intros E.
  apply bind_ret_inv in E. destruct E as (ph & _ & E). apply bind_ret_inv in E. destruct E as (q & _ & E).
  apply bind_ret_inv in E. destruct E as ((ph' & v) & _ & E). cbv beta iota in E. injection E as <-. exists ph'. reflexivity.
Qed.

Lemma doubled_R (st : state) : doubled st = limit2 (hmax_inv st) (hh st).
Proof. unfold doubled, limit2. cbn. unfold Rltb. destruct (Rlt_dec _ _); reflexivity. Qed.

Lemma Rpowf_pos b a : 0 < b -> Rpowf b a = Rpower b a.
Proof. intros Hb. unfold Rpowf. destruct (Rlt_dec 0 b); [reflexivity|contradiction]. Qed.

Lemma choose_step_R (st st' : state) act ek ek1 ek2 (E : nat -> R) k' :
  choose_step st act ek ek1 ek2 = Ret st' ->
  k' = match act with Lower => (kk st - 1)%nat | Maintain => kk st | Raise => (kk st + 1)%nat end ->
  match act with Lower => ek1 | Maintain => ek | Raise => ek2 end = E k' / INR (k' + 1) -> 0 <= E k' ->
  (kk st' = k' /\ phase st' = phase st) /\ resized (hmax_inv st) (hh st) (ratio k' E) (hh st').
Proof.
  intros Ec Hk He Hp. unfold choose_step in Ec.
  assert (X : exists e, e = E k' / INR (k' + 1) /\
    (let st1 := set_rr (spowf (stwo * e + spt0001)%sc (- srecip (sofnat (k' + 1)))%sc) (set_kk k' st) in
     (if (stwo <=? rr st1)%sc then Ret (set_hh (doubled st1) st1)
      else if (rr st1 <=? sone)%sc then
        Ret (set_hh (hh (set_rr (smax shalf (smin (rr st1) spt9)) st1) * rr (set_rr (smax shalf (smin (rr st1) spt9)) st1))%sc
              (set_rr (smax shalf (smin (rr st1) spt9)) st1))
      else Ret st1) = Ret st')).
  { destruct act.
    - apply bind_ret_inv in Ec. destruct Ec as ((s & e) & Ex & Ec). cbv beta iota in Ec.
      apply bind_ret_inv in Ex. destruct Ex as (km & Ekm & Ex). injection Ex as <- <-.
      apply usub_inv in Ekm. destruct Ekm as (_ & Ekm).
      exists ek1. split; [exact He|]. subst k'. rewrite <- Ekm. exact Ec.
    - rewrite bind_ret in Ec. exists ek. split; [exact He|]. subst k'. 
      replace (set_kk (kk st) st) with st by (destruct st; reflexivity). exact Ec.
    - rewrite bind_ret in Ec. exists ek2. split; [exact He|]. subst k'. exact Ec. }
  destruct X as (e & Ee & X). cbv zeta in X. clear Ec.
  assert (Hq : spowf (stwo * e + spt0001)%sc (- srecip (sofnat (k' + 1)))%sc = ratio k' E).
  { unfold ratio. cbn. rewrite Rpowf_pos.
    - rewrite Ee. f_equal. unfold srecip. cbn. unfold Rdiv. ring.
    - rewrite Ee. assert (0 <= E k' / INR (k' + 1)).
      { apply Rmult_le_pos; [exact Hp|]. left. apply Rinv_0_lt_compat. apply lt_0_INR. lia. }
      lra. }
  rewrite Hq in X. set (q := ratio k' E) in *. clearbody q. cbn [rr set_rr hh set_hh set_kk] in X.
  unfold resized. change (stwo <=? q)%sc with (Rleb 2 q) in X. change (q <=? sone)%sc with (Rleb q 1) in X.
  destruct (Rleb 2 q) eqn:L2; [apply Rleb_true in L2|apply Rleb_false in L2].
  - injection X as <-. split; [split; reflexivity|]. cbn [hh set_hh]. rewrite doubled_R. cbn [hh hmax_inv set_rr set_kk].
    split; [intros _; reflexivity|]. split; intros; lra.
  - destruct (Rleb q 1) eqn:L1; [apply Rleb_true in L1|apply Rleb_false in L1].
    + injection X as <-. split; [split; reflexivity|]. cbn [hh set_hh]. split; [intros; lra|]. split; [intros; lra|]. intros _. reflexivity.
    + injection X as <-. split; [split; reflexivity|]. cbn [hh set_rr set_kk]. split; [intros; lra|]. split; [intros _; reflexivity|intros; lra].
Qed.

Definition may_raise (st1 : state) : bool :=
  negb ((kk st1 =? maxord st1)%nat || (ns st1 <=? kk st1 + 1)%nat || (kk st1 =? kused st1 + 1)%nat).

Lemma complete_select (st1 st2 : state) ek ek1 (E : nat -> R) :
  complete_step prob st1 ek ek1 = Ret st2 -> (1 <= kk st1 <= maxord st1)%nat ->
  (forall j, 0 <= E j) ->
  ek = E (kk st1) / INR (kk st1 + 1) -> ((2 <= kk st1)%nat -> ek1 = E (kk st1 - 1)%nat / INR (kk st1)) ->
  (may_raise st1 = true ->
     wrms_norm (idv st1) (vsub n (ee st1) (row (phi st1) (kk st1 + 1))) (ewt (nlp st1)) (suppressalg st1) = E (kk st1 + 1)%nat) ->
  reduced (kk st1) E (knew st1) ->
  let startup := ((phase st1 =? 0) && (knew st1 =? kk st1) && (kk st1 <? maxord st1))%nat in
  (phase st2 =? 0)%nat = startup /\
  if startup
  then (nst st1 = 0%nat -> kk st2 = kk st1 /\ hh st2 = hh st1) /\
       (nst st1 <> 0%nat -> kk st2 = (kk st1 + 1)%nat /\ hh st2 = limit2 (hmax_inv st1) (hh st1))
  else selected (kk st1) E (may_raise st1) (kk st2) /\ resized (hmax_inv st1) (hh st1) (ratio (kk st2) E) (hh st2).
Proof.
  intros Ec Hk Hp Hek Hek1 Hnx Hred. cbv zeta. unfold complete_step in Ec. cbv zeta in Ec.
  set (s0 := set_hused _ _) in Ec.
  assert (F0 : kk s0 = kk st1 /\ knew s0 = knew st1 /\ maxord s0 = maxord st1 /\ phase s0 = phase st1 /\ nst s0 = (nst st1 + 1)%nat /\
    hh s0 = hh st1 /\ hmax_inv s0 = hmax_inv st1 /\ ns s0 = ns st1 /\ ee s0 = ee st1 /\ phi s0 = phi st1 /\ idv s0 = idv st1 /\
    ewt (nlp s0) = ewt (nlp st1) /\ suppressalg s0 = suppressalg st1) by (repeat split; reflexivity).
  change (kk (set_nst (nst st1 + 1) st1)) with (kk st1) in Ec. change (kused (set_nst (nst st1 + 1) st1)) with (kused st1) in Ec.
  clearbody s0.
  apply bind_ret_inv in Ec. destruct Ec as (km & Ekm & Ec). apply usub_inv in Ekm. destruct Ekm as (_ & ->).
  set (b := ((knew s0 =? kk s0 - 1) || (kk s0 =? maxord s0))%nat) in Ec.
  set (s1 := if b then set_phase 1 s0 else s0) in Ec.
  assert (F1 : kk s1 = kk s0 /\ knew s1 = knew s0 /\ maxord s1 = maxord s0 /\ nst s1 = nst s0 /\
    hh s1 = hh s0 /\ hmax_inv s1 = hmax_inv s0 /\ ns s1 = ns s0 /\ ee s1 = ee s0 /\ phi s1 = phi s0 /\ idv s1 = idv s0 /\
    ewt (nlp s1) = ewt (nlp s0) /\ suppressalg s1 = suppressalg s0 /\ phase s1 = (if b then 1%nat else phase s0))
    by (unfold s1; destruct b; repeat split; reflexivity).
  clearbody s1.
  destruct F0 as (A1 & A2 & A3 & A4 & A5 & A6 & A7 & A8 & A9 & A10 & A11 & A12 & A13).
  destruct F1 as (B1 & B2 & B3 & B5 & B6 & B7 & B8 & B9 & B10 & B11 & B12 & B13 & B4).
  rewrite A1 in B1. rewrite A2 in B2. rewrite A3 in B3. rewrite A4 in B4. rewrite A5 in B5. rewrite A6 in B6. rewrite A7 in B7.
  rewrite A8 in B8. rewrite A9 in B9. rewrite A10 in B10. rewrite A11 in B11. rewrite A12 in B12. rewrite A13 in B13.
  apply bind_ret_inv in Ec. destruct Ec as (s2 & Ec & Eu). apply update_phi_keeps in Eu. destruct Eu as (ph & ->).
  cbn [kk hh phase set_phi].
  assert (Hkn : knew st1 = kk st1 \/ (2 <= kk st1)%nat /\ knew st1 = (kk st1 - 1)%nat).
  { destruct Hred as (R1 & R2).
    destruct (Nat.eq_dec (kk st1) 2) as [K2|K2].
    - destruct (Rle_dec (E 1%nat) (E 2%nat / 2)) as [L|L].
      + right. split; [lia|]. apply R1. left. auto.
      + left. apply R2. intros [(_ & Q)|(Q & _)]; [contradiction|lia].
    - destruct (le_lt_dec 3 (kk st1)) as [K3|K3].
      + destruct (Rle_dec (E (kk st1 - 1)%nat) (E (kk st1))) as [L|L]; [destruct (Rle_dec (E (kk st1 - 2)%nat) (E (kk st1))) as [L'|L']|].
        * right. split; [lia|]. apply R1. right. auto.
        * left. apply R2. intros [(Q & _)|(_ & _ & Q)]; [lia|contradiction].
        * left. apply R2. intros [(Q & _)|(_ & Q & _)]; [lia|contradiction].
      + left. apply R2. intros [(Q & _)|(Q & _)]; lia. }
  assert (Hb : ((phase st1 =? 0) && (knew st1 =? kk st1) && (kk st1 <? maxord st1) = (phase s1 =? 0))%nat).
  { rewrite B4. unfold b. rewrite A1, A2, A3.
    destruct (Nat.eqb_spec (knew st1) (kk st1 - 1)) as [Q|Q].
    - destruct (Nat.eqb_spec (knew st1) (kk st1)); [lia|]. rewrite andb_false_r. reflexivity.
    - destruct (Nat.eqb_spec (kk st1) (maxord st1)) as [Q'|Q'].
      + destruct (Nat.ltb_spec (kk st1) (maxord st1)); [lia|]. rewrite andb_false_r. reflexivity.
      + destruct (Nat.eqb_spec (knew st1) (kk st1)); [|lia]. destruct (Nat.ltb_spec (kk st1) (maxord st1)); [|lia].
        rewrite !andb_true_r. reflexivity. }
  rewrite Hb. destruct (phase s1 =? 0)%nat eqn:Hph.
  - rewrite B5 in Ec. destruct (Nat.ltb_spec 1 (nst st1 + 1)) as [L|L].
    + assert (Es : s2 = set_hh (doubled (set_kk (kk s1 + 1)%nat s1)) (set_kk (kk s1 + 1)%nat s1)) by (injection Ec as <-; reflexivity).
      rewrite Es. split; [exact Hph|]. split; [lia|]. intros _. cbn [kk set_hh set_kk hh]. rewrite doubled_R. cbn [hh hmax_inv set_kk].
      rewrite B1, B6, B7. split; reflexivity.
    + assert (Es : s2 = s1) by (injection Ec as <-; reflexivity). rewrite Es. split; [exact Hph|]. split; [|lia]. intros _. split; assumption.
  - apply bind_ret_inv in Ec. destruct Ec as ((act & ek2) & Eo & Ec). cbv beta iota in Ec.
    assert (Hact : exists k', k' = match act with Lower => (kk st1 - 1)%nat | Maintain => kk st1 | Raise => (kk st1 + 1)%nat end /\
       selected (kk st1) E (may_raise st1) k' /\
       match act with Lower => ek1 | Maintain => ek | Raise => ek2 end = E k' / INR (k' + 1)).
    { eexists. split; [reflexivity|].
      assert (Hlow : (2 <= kk st1)%nat -> ek1 = E (kk st1 - 1)%nat / INR (kk st1 - 1 + 1)).
      { intros L. rewrite (Hek1 L). do 3 f_equal. lia. }
      unfold choose_order in Eo. rewrite B1, B2, B3, B8, B9, B10, B11, B12, B13 in Eo.
      apply bind_ret_inv in Eo. destruct Eo as (km & Ekm & Eo). apply usub_inv in Ekm. destruct Ekm as (_ & ->).
      destruct (Nat.eqb_spec (knew st1) (kk st1 - 1)) as [Kn|Kn].
      { assert (L2 : (2 <= kk st1)%nat) by lia. injection Eo as <- <-. split; [|exact (Hlow L2)].
        exists (knew st1). split; [exact Hred|]. split; [intros _; symmetry; exact Kn|]. split; intros; lia. }
      assert (Kn' : knew st1 = kk st1) by lia.
      assert (Hmain : may_raise st1 = false -> act = Maintain -> selected (kk st1) E (may_raise st1) (kk st1)).
      { intros Hm _. exists (knew st1). split; [exact Hred|]. split; [lia|]. split; [intros; reflexivity|]. intros _ X. congruence. }
      destruct (kk st1 =? maxord st1)%nat eqn:Em.
      { injection Eo as <- <-. split; [|exact Hek]. apply Hmain; [|reflexivity]. unfold may_raise. rewrite Em. reflexivity. }
      destruct ((ns st1 <=? kk st1 + 1) || (kk st1 =? kused st1 + 1))%nat eqn:Ens.
      { injection Eo as <- <-. split; [|exact Hek]. apply Hmain; [|reflexivity]. unfold may_raise. rewrite Em. cbn [orb]. rewrite Ens. reflexivity. }
      assert (Hm : may_raise st1 = true) by (unfold may_raise; rewrite Em; cbn [orb]; rewrite Ens; reflexivity).
      apply bind_ret_inv in Eo. destruct Eo as (pk & Ep & Eo). apply aget_inv in Ep. destruct Ep as (_ & Ep). specialize (Ep []).
      change (nth (kk st1 + 1) (phi st1) []) with (row (phi st1) (kk st1 + 1)) in Ep. rewrite <- Ep in Eo.
      rewrite (Hnx Hm) in Eo. rewrite Hm.
      assert (P1 : INR (kk st1 + 1) <> 0) by (apply not_0_INR; lia). assert (P2 : INR (kk st1 + 2) <> 0) by (apply not_0_INR; lia).
      set (e2 := (E (kk st1 + 1)%nat / sofnat (kk st1 + 2))%sc) in Eo.
      assert (He2 : e2 = E (kk st1 + 1)%nat / INR (kk st1 + 1 + 1)) by (unfold e2; replace (kk st1 + 1 + 1)%nat with (kk st1 + 2)%nat by lia; reflexivity).
      assert (T0 : (sofnat (kk st1 + 1) * ek)%sc = E (kk st1)) by (rewrite Hek; cbn; field; exact P1).
      assert (T2 : (sofnat (kk st1 + 2) * e2)%sc = E (kk st1 + 1)%nat) by (unfold e2; cbn; field; exact P2).
      assert (T1 : (2 <= kk st1)%nat -> (sofnat (kk st1) * ek1)%sc = E (kk st1 - 1)%nat).
      { intros L. rewrite (Hek1 L). cbn. field. apply not_0_INR. lia. }
      rewrite T0, T2 in Eo. clearbody e2.
      assert (Hsel : forall k', (let lower := (2 <= kk st1)%nat /\ E (kk st1 - 1)%nat <= E (kk st1) /\ E (kk st1 - 1)%nat <= E (kk st1 + 1)%nat in
        let raise := if (kk st1 =? 1)%nat then E 2%nat < E 1%nat / 2 else E (kk st1 + 1)%nat < E (kk st1) in
        (lower -> k' = (kk st1 - 1)%nat) /\ (~ lower -> raise -> k' = (kk st1 + 1)%nat) /\ (~ lower -> ~ raise -> k' = kk st1)) ->
        selected (kk st1) E true k').
      { intros k' Q. exists (knew st1). split; [exact Hred|]. split; [lia|]. split; [discriminate|]. intros _ _. exact Q. }
      destruct (kk st1 =? 1)%nat eqn:K1; [apply Nat.eqb_eq in K1|apply Nat.eqb_neq in K1].
      - assert (EE : E (kk st1) = E 1%nat /\ E (kk st1 + 1)%nat = E 2%nat) by (rewrite K1; split; reflexivity). destruct EE as (EE1 & EE2).
        rewrite EE1, EE2 in Eo. change (shalf * E 1%nat <=? E 2%nat)%sc with (Rleb (/ 2 * E 1%nat) (E 2%nat)) in Eo.
        destruct (Rleb (/ 2 * E 1%nat) (E 2%nat)) eqn:Lb; [apply Rleb_true in Lb|apply Rleb_false in Lb]; injection Eo as <- <-.
        + split; [|exact Hek]. apply Hsel. cbv zeta. split; [lia|]. split; [intros _ X; lra|]. reflexivity.
        + split; [|exact He2]. apply Hsel. cbv zeta. split; [lia|]. split; [reflexivity|]. intros _ X. exfalso. apply X. lra.
      - assert (L2 : (2 <= kk st1)%nat) by lia. rewrite (T1 L2) in Eo.
        change (E (kk st1 - 1)%nat <=? smin (E (kk st1)) (E (kk st1 + 1)%nat))%sc with (Rleb (E (kk st1 - 1)%nat) (Rmin (E (kk st1)) (E (kk st1 + 1)%nat))) in Eo.
        change (E (kk st1) <=? E (kk st1 + 1)%nat)%sc with (Rleb (E (kk st1)) (E (kk st1 + 1)%nat)) in Eo.
        destruct (Rleb (E (kk st1 - 1)%nat) _) eqn:Lb; [apply Rleb_true in Lb|apply Rleb_false in Lb].
        + injection Eo as <- <-. split; [|exact (Hlow L2)]. apply Hsel. cbv zeta. split; [reflexivity|].
          pose proof (Rmin_l (E (kk st1)) (E (kk st1 + 1)%nat)). pose proof (Rmin_r (E (kk st1)) (E (kk st1 + 1)%nat)).
          split; intros X; exfalso; apply X; split; [exact L2|split; lra|exact L2|split; lra].
        + assert (NL : ~ ((2 <= kk st1)%nat /\ E (kk st1 - 1)%nat <= E (kk st1) /\ E (kk st1 - 1)%nat <= E (kk st1 + 1)%nat)).
          { intros (_ & X1 & X2). unfold Rmin in Lb. destruct (Rle_dec _ _) in Lb; lra. }
          destruct (Rleb (E (kk st1)) _) eqn:Lc; [apply Rleb_true in Lc|apply Rleb_false in Lc]; injection Eo as <- <-.
          * split; [|exact Hek]. apply Hsel. cbv zeta. split; [intros X; contradiction|]. split; [intros _ X; lra|]. reflexivity.
          * split; [|exact He2]. apply Hsel. cbv zeta. split; [intros X; contradiction|]. split; [reflexivity|]. intros _ X. contradiction. }
    destruct Hact as (k' & Ek' & Hs & He).
    destruct (choose_step_R s1 s2 act ek ek1 ek2 E k' Ec) as ((G1 & G3) & G2); [rewrite B1; exact Ek'|exact He|apply Hp|].
    split; [rewrite G3; exact Hph|]. rewrite G1. rewrite B6, B7 in G2. split; assumption.
Qed.

(** ** The corrections as divided differences *)

Section Attempt.
Variable hs : list (R * list R).
Variables st st1 : state.
Hypothesis Hh : hist prob hs st.
Hypothesis Hz : hh st <> 0.
Hypothesis Ac : acoef prob hs st st1.
Hypothesis Hk : (1 <= kk st <= nst st + 1)%nat.
Hypothesis Hyy : yy (nlp st1) = vadd n (rowsum prob (phi st1) (kk st + 1)) (ee st1).
Notation x1 := (tm hs 0 + hh st).
Notation hs' := ((x1, yy (nlp st1)) :: hs).
Notation ddn x := (dd (tm hs') (yv hs' x) 0).

Lemma tail_dd j x : (x < n)%nat -> (j <= kk st + 1)%nat ->
  vget (ee st1) x + rsum (kk st + 1 - j) (fun i => vget (row (phi st1) (j + i)) x) =
  rprod j (fun l => x1 - tm hs l) * ddn x j.
Proof.
  intros Lx Lj.
  pose proof (new_psi prob hs st Hh Hz) as Hw.
  set (v := vget (yy (nlp st1)) x).
  pose proof (remainder (tm hs) (yv hs x) x1 v j) as Rm.
  assert (Rm' := Rm ltac:(intros l Ll; apply Hw; lia)). clear Rm.
  assert (Ed : dd (tm hs') (yv hs' x) 0 j = dd (consf x1 (tm hs)) (consf v (yv hs x)) 0 j).
  { apply (dd_ext _ _ _ _ 0 0 j 0). intros l _. rewrite tm_cons, yv_cons. cbn [fst snd]. split; reflexivity. }
  rewrite Ed.
  assert (Ev : v = rsum (kk st + 1) (fun i => vget (row (phi st1) i) x) + vget (ee st1) x).
  { unfold v. rewrite Hyy, vget_vadd, vget_rowsum by exact Lx. reflexivity. }
  assert (Es : rsum j (fun i => rprod i (fun l => x1 - tm hs l) * dd (tm hs) (yv hs x) 0 i) =
               rsum j (fun i => vget (row (phi st1) i) x)).
  { apply rsum_ext. intros i Li. rewrite (ac_phi _ _ _ _ Ac) by (try exact Lx; lia). reflexivity. }
  rewrite Es in Rm'.
  assert (Ef : rsum (kk st + 1) (fun i => vget (row (phi st1) i) x) =
               rsum j (fun i => vget (row (phi st1) i) x) +
               rsum (kk st + 1 - j) (fun i => vget (row (phi st1) (j + i)) x)).
  { rewrite <- rsum_split. f_equal. lia. }
  lra.
Qed.

(** sigma_j psi_0 ... psi_j = j! h^(j+1), and sigma_j is positive. *)
Lemma sigma_prod j : (j <= kk st)%nat ->
  vget (sigma st1) j * rprod (j + 1) (fun l => x1 - tm hs l) = INR (fact j) * hh st ^ (j + 1).
Proof.
  intros Lj. pose proof (new_psi prob hs st Hh Hz) as Hw.
  destruct (ac_coef _ _ _ _ Ac j Lj) as (_ & -> & _).
  rewrite Nat.add_1_r, rprod_first. replace (x1 - tm hs 0) with (hh st) by ring.
  rewrite (rprod_ext j _ (fun l => hh st / (x1 - tm hs (S l)))) by (intros l Ll; rewrite (ac_psi _ _ _ _ Ac) by lia; reflexivity).
  rewrite rprod_pow by (intros l Ll; apply Hw; lia).
  set (P := rprod j (fun l => x1 - tm hs (S l))).
  assert (P <> 0) by (apply rprod_neq_0; intros l Ll; apply Hw; lia).
  cbn [pow]. field. assumption.
Qed.

Lemma sigma_pos j : (j <= kk st)%nat -> 0 < vget (sigma st1) j.
Proof.
  intros Lj. destruct (ac_coef _ _ _ _ Ac j Lj) as (_ & -> & _).
  apply Rmult_lt_0_compat; [apply INR_fact_lt_0|].
  assert (G : forall m, (m <= j)%nat -> 0 < rprod m (fun l => hh st / vget (psi st1) (S l))).
  { induction m as [|m IH]; intros Lm; cbn [rprod]; [lra|].
    apply Rmult_lt_0_compat; [apply IH; lia|].
    rewrite (ac_psi _ _ _ _ Ac) by lia.
    assert (Gp : 0 < (tm hs 0 - tm hs (S m)) * hh st).
    { pose proof (gap_sign (tm hs) (hh st) (nst st) 0 m (h_gap _ _ _ Hh) ltac:(lia)) as Q. exact Q. }
    assert (Q : 0 < (x1 - tm hs (S m)) * hh st) by nra.
    assert (x1 - tm hs (S m) <> 0) by (intros E; rewrite E in Q; lra).
    replace (hh st / (x1 - tm hs (S m))) with ((x1 - tm hs (S m)) * hh st / ((x1 - tm hs (S m)) * (x1 - tm hs (S m)))) by (field; assumption).
    apply Rdiv_lt_0_compat; [exact Q|]. nra. }
  apply G. lia.
Qed.

(** The vector h^(j+1) y^(j+1). *)
Definition top (j : nat) : list R := vtab n (fun x => hh st ^ (j + 1) * (INR (fact (j + 1)) * ddn x (j + 1))).

Lemma top_tail j u : (j <= kk st)%nat -> length u = n ->
  (forall x, (x < n)%nat -> vget u x = vget (ee st1) x + rsum (kk st - j) (fun i => vget (row (phi st1) (j + 1 + i)) x)) ->
  forall id w b, vget (sigma st1) j * wrms_norm id u w b * INR (j + 1) = wrms_norm id (top j) w b.
Proof.
  intros Lj Lu Hu id w b. pose proof (sigma_pos j Lj) as Hs.
  assert (Lt : length (top j) = n) by (unfold top; apply vtab_length).
  rewrite (wrms_norm_scal id w b (vget (sigma st1) j * INR (j + 1)) (top j) u).
  - ring.
  - apply Rmult_le_pos; [lra|apply pos_INR].
  - lia.
  - rewrite Lu. intros x Lx. unfold top. rewrite vget_vtab by exact Lx. rewrite (Hu x Lx).
    replace (kk st - j)%nat with (kk st + 1 - (j + 1))%nat by lia.
    rewrite (tail_dd (j + 1) x Lx ltac:(lia)).
    replace (vget (sigma st1) j * INR (j + 1) * (rprod (j + 1) (fun l => x1 - tm hs l) * ddn x (j + 1)))
      with (vget (sigma st1) j * rprod (j + 1) (fun l => x1 - tm hs l) * INR (j + 1) * ddn x (j + 1)) by ring.
    rewrite (sigma_prod j Lj).
    replace (fact (j + 1)) with ((j + 1) * fact j)%nat by (rewrite (Nat.add_1_r j); reflexivity).
    rewrite mult_INR. ring.
Qed.

(** One order higher, after steps of one size. *)
Lemma top_next u : (forall i, (i <= kk st)%nat -> tm hs i - tm hs (S i) = hh st) -> (kk st <= nst st)%nat ->
  (kk st <= kused st)%nat -> (kk st + 1 <= maxord st)%nat -> length u = n ->
  (forall x, (x < n)%nat -> vget u x = vget (ee st1) x - vget (row (phi st1) (kk st + 1)) x) ->
  forall id w b, wrms_norm id u w b = wrms_norm id (top (kk st + 1)) w b.
Proof.
  intros Hc Hkn Hku Hkm Lu Hu id w b.
  assert (Lt : length (top (kk st + 1)) = n) by (unfold top; apply vtab_length).
  rewrite (wrms_norm_scal id w b 1 u (top (kk st + 1))); [ring|lra|lia|].
  rewrite Lt. intros x Lx. rewrite (Hu x Lx). unfold top. rewrite vget_vtab by exact Lx.
  pose proof (tail_dd (kk st + 1) x Lx (le_n _)) as T. rewrite Nat.sub_diag in T. cbn [rsum] in T. rewrite Rplus_0_r in T.
  rewrite T. rewrite (ac_rest _ _ _ _ Ac) by lia.
  rewrite (h_phi _ _ _ Hh) by (try exact Lx; lia).
  assert (Hg : forall m, (m <= kk st + 1)%nat -> tm hs 0 - tm hs m = INR m * hh st).
  { apply const_gaps. intros i Li. apply Hc. lia. }
  assert (E1 : rprod (kk st + 1) (fun l => x1 - tm hs l) = rprod (kk st + 1) (fun l => INR (S l) * hh st)).
  { apply rprod_ext. intros l Ll. rewrite S_INR. pose proof (Hg l ltac:(lia)). lra. }
  assert (E2 : rprod (kk st + 1) (fun l => tm hs 0 - tm hs (S l)) = rprod (kk st + 1) (fun l => INR (S l) * hh st)).
  { apply rprod_ext. intros l Ll. apply Hg. lia. }
  rewrite E1, E2.
  assert (Ef : forall m, rprod m (fun l => INR (S l) * hh st) = INR (fact m) * hh st ^ m).
  { induction m as [|m IH]; [cbn; ring|]. cbn [rprod pow]. rewrite IH.
    replace (fact (S m)) with (S m * fact m)%nat by reflexivity. rewrite mult_INR. ring. }
  rewrite Ef.
  replace (kk st + 1 + 1)%nat with (S (kk st + 1)) by lia.
  cbn [dd]. 
  assert (Es : dd (tm hs') (yv hs' x) 1 (kk st + 1) = dd (tm hs) (yv hs x) 0 (kk st + 1)).
  { rewrite <- (dd_cons (tm hs) (yv hs x) x1 (vget (yy (nlp st1)) x) 0).
    apply (dd_ext _ _ _ _ 0 0 (kk st + 1) 1). intros l _. rewrite tm_cons, yv_cons. split; reflexivity. }
  rewrite Es. rewrite tm_cons. cbn [consf fst Nat.add]. rewrite tm_cons. cbn [consf].
  pose proof (Hg (kk st + 1)%nat (le_n _)) as G1.
  replace (x1 - tm hs (kk st + 1)) with (INR (S (kk st + 1)) * hh st) by (rewrite S_INR; lra).
  replace (fact (S (kk st + 1))) with (S (kk st + 1) * fact (kk st + 1))%nat by reflexivity.
  rewrite mult_INR.
  assert (INR (S (kk st + 1)) <> 0) by (apply not_0_INR; lia).
  cbn [pow]. field. split; assumption.
Qed.

Lemma top_scaled j x : (x < n)%nat -> (j <= nst st + 1)%nat -> (length hs = nst st + 2)%nat ->
  scaled_deriv (hh st) hs' (j + 1) x (nth x (top j) 0).
Proof.
  intros Lx Lj Lh.
  pose proof (new_psi prob hs st Hh Hz) as Hw. pose proof (hist_distinct prob hs st Hh Hz) as Hd.
  assert (Dn : distinct (j + 1) (tm hs')).
  { intros a b La Lb Hne. rewrite !tm_cons. destruct a as [|a], b as [|b]; cbn [consf fst]; [lia| | |].
    - specialize (Hw b ltac:(lia)). lra.
    - specialize (Hw a ltac:(lia)). lra.
    - apply Hd; lia. }
  destruct (npoly_top (tm hs') (yv hs' x) (j + 1)) as (p & Lp & Np & Ep).
  exists p. split; [exact Lp|]. split.
  - intros i Li. destruct (nth_error hs' i) as [(ti, yi)|] eqn:Ei.
    + exists ti, yi. split; [reflexivity|]. rewrite Ep.
      assert (Et : tm hs' i = ti) by (unfold tm; rewrite (nth_error_nth _ _ _ Ei); reflexivity).
      assert (Ey : yv hs' x i = nth x yi 0) by (unfold yv; rewrite (nth_error_nth _ _ _ Ei); reflexivity).
      rewrite <- Et, <- Ey. apply npoly_node; [exact Dn|exact Li].
    + exfalso. apply nth_error_None in Ei. cbn [length] in Ei. lia.
  - rewrite Np. change (vget (top j) x = hh st ^ (j + 1) * (INR (fact (j + 1)) * ddn x (j + 1))).
    unfold top. rewrite vget_vtab by exact Lx. reflexivity.
Qed.

Lemma top_estimate j id w b : (j <= nst st + 1)%nat -> (length hs = nst st + 2)%nat ->
  estimate n (fun v => wrms_norm id v w b) (hh st) hs' j (wrms_norm id (top j) w b).
Proof.
  intros Lj Lh. exists (top j). split; [unfold top; apply vtab_length|]. split; [|reflexivity].
  intros x Lx. apply top_scaled; assumption.
Qed.

End Attempt.

(** ** C71 *)

(** The two points behind the first step: the initial point and, for the first
    step, the point at t0 - h on the line through the initial point and the
    prediction.  ([yy0] is the initial vector given by the user; the base value
    differs from it only after a failed attempt of the first step, C38.) *)
Definition behind (c : @config R) (yy0 : list R) (early : bool) (m : nat) (h : R) (pred : list R) (b0 b1 : R * list R) : Prop :=
  fst b0 = g_t0 c /\ (early = false -> snd b0 = yy0) /\
  (m = 0%nat -> fst b1 = g_t0 c - h /\
     forall x, (x < n)%nat -> nth x (snd b1) 0 = 2 * nth x (snd b0) 0 - nth x pred 0).

Definition nrm_of (st : state) (v : list R) : R := wrms_norm (idv st) v (ewt (nlp st)) (suppressalg st).

Theorem C71_error_estimates_partial c yy0 yp0 (st st1 : state) nef ck ek ek1 r :
  config_ok c -> attempt_in prob ewt_set c yy0 yp0 st nef -> try_step prob st = Ret (st1, ck, ek, ek1, r) ->
  (forall m, r <> Err (ENls m)) -> get_num_nonlin_solv_conv_fails st = 0%nat -> length (ee st1) = n ->
  let k := kk st in
  exists b0 b1 E, behind c yy0 (early_fail (tr st)) (nst st) (hh st) (yypredict (nlp st1)) b0 b1 /\
    let pts := (tn (nlp st) + hh st, yy (nlp st1)) :: map apt (steps (tr st)) ++ [b0; b1] in
    (forall j, (j <= k)%nat -> estimate n (nrm_of st) (hh st) pts j (E j)) /\
    ek = E k / INR (k + 1) /\ ((2 <= k)%nat -> ek1 = E (k - 1)%nat / INR k) /\ reduced k E (knew st1) /\
    (forall j, 0 <= E j) /\
    (may_raise st1 = true ->
       estimate n (nrm_of st) (hh st) pts (k + 1) (E (k + 1)%nat) /\
       nrm_of st1 (vsub n (ee st1) (row (phi st1) (k + 1))) = E (k + 1)%nat /\
       (forall i a, (i <= k)%nat -> nth_error (steps (tr st)) i = Some a -> a_h a = hh st)).
Proof.
  intros Hc Ha Et Hm Hn Le k.
  destruct (attempt_hist prob ewt_set Hl c yy0 yp0 st nef Hc Ha Hn) as (Hi & Jst & Hev & Hra & _ & b0 & b1 & Hp).
  destruct (try_facts prob Hl _ _ _ _ _ _ Hi Et) as (Htr & Hat).
  destruct (try_bdf prob ewt_set c yy0 st st1 _ nef ck r b0 b1 Hi Jst Hp Hev Hra Htr Hat) as (Ac & Hh & Hnx & _).
  set (hs := map apt (steps (tr st)) ++ [b0; b1]) in *.
  destruct Hp as (B1 & B2 & B3 & B4 & B5 & B6). fold hs in B3, B4.
  pose proof (tl_n _ _ _ _ (proj1 Jst)) as Ln. pose proof (is_kk _ Hi) as Hk. pose proof (is_max _ Hi) as Hmx.
  assert (Lh : (length hs = nst st + 2)%nat) by (unfold hs; rewrite app_length, map_length, Ln; cbn; lia).
  pose proof (h_now _ _ _ B3) as Hnow. pose proof (h_kk _ _ _ B3) as Hkn.
  pose proof (try_est prob Hl _ _ _ _ _ _ Et Hm) as Hes. pose proof (try_yy prob Hl _ _ _ _ _ _ Et Hm) as Hyy.
  rewrite (tr_yyp _ _ _ _ _ Htr) in Hyy.
  pose proof (tr_ord _ _ _ _ _ Htr) as U1. pose proof (tr_cfg _ _ _ _ _ Htr) as U2. pose proof (tr_ewt _ _ _ _ _ Htr) as U3.
  apply cfg_fields in U2. destruct U2 as (_ & U4 & U5 & _ & _ & _ & _ & U6 & _).
  assert (Ek : kk st1 = kk st) by (pinj; assumption). assert (Eu : kused st1 = kused st) by (pinj; assumption).
  assert (Ew : ewt (nlp st1) = ewt (nlp st)) by (pinj; assumption). clear U1 U3.
  set (E := fun j => nrm_of st (top hs st st1 j)).
  assert (Hk1 : (1 <= kk st <= nst st + 1)%nat) by lia.
  assert (Hkm : (kk st <= Nat.max 1 (nst st))%nat).
  { destruct (Nat.eq_dec (nst st) 0) as [Hz|Hz]; [pose proof (is_zero _ Hi Hz); lia|]. pose proof (h_ord _ _ _ B3 Hz). lia. }
  assert (Hpos : forall j, 0 <= E j).
  { intros j. unfold E, nrm_of, wrms_norm. destruct (suppressalg st); [rewrite norm_wrms_masked_eq|rewrite norm_wrms_eq]; apply sqrt_pos. }
  exists b0, b1, E. split.
  { split; [exact B1|]. split; [exact B2|]. intros Hz.
    assert (Hs : steps (tr st) = []) by (destruct (steps (tr st)); [reflexivity|cbn in Ln; lia]).
    destruct (is_zero _ Hi Hz) as (K1 & Ku).
    assert (Eh : hs = [b0; b1]) by (unfold hs; rewrite Hs; reflexivity).
    assert (Hp0 : tm hs 0 - tm hs 1 = hh st).
    { destruct (B5 Hz) as (_ & Q). rewrite <- Q. symmetry. apply (h_psi _ _ _ B3). lia. }
    unfold tm in Hp0. rewrite Eh in Hp0. cbn [nth fst] in Hp0. split; [lra|].
    intros x Lx. rewrite (tr_yyp _ _ _ _ _ Htr).
    change (nth x (rowsum prob (phi st1) (kk st + 1)) 0) with (vget (rowsum prob (phi st1) (kk st + 1)) x).
    rewrite (vget_rowsum prob _ _ x Lx). rewrite K1. cbn [Nat.add rsum].
    rewrite (ac_phi _ _ _ _ Ac 0%nat x) by lia. rewrite (ac_phi _ _ _ _ Ac 1%nat x) by lia.
    cbn [rprod dd Nat.add]. unfold tm, yv in *. rewrite Eh. cbn [nth fst snd]. unfold vget.
    change (@szero R ScalarR) with 0. rewrite <- Hp0. field. lra. }
  cbv zeta. fold hs. rewrite Hnow. fold k.
  assert (Hest : forall j, (j <= nst st + 1)%nat -> estimate n (nrm_of st) (hh st) ((tm hs 0 + hh st, yy (nlp st1)) :: hs) j (E j)).
  { intros j Lj. apply (top_estimate hs st st1 B3 Hh); assumption. }
  unfold est_of in Hes. cbv zeta in Hes. rewrite Ek, U4, U5, Ew in Hes. fold k in Hes.
  assert (N1 : INR (k + 1) <> 0) by (apply not_0_INR; lia).
  destruct Hes as (Q1 & Q2 & Q3).
  assert (T0 : ek * INR (k + 1) = E k).
  { rewrite Q1. apply (top_tail hs st st1 B3 Hh Ac Hk1 Hyy k (ee st1) (le_n _) Le).
    intros x Lx. rewrite Nat.sub_diag. cbn [rsum]. ring. }
  set (d1 := vadd n (row (phi st1) k) (ee st1)) in *. set (d2 := vadd n d1 (row (phi st1) (k - 1))) in *.
  assert (T1 : (2 <= k)%nat -> ek1 * INR k = E (k - 1)%nat).
  { intros L. rewrite (Q2 L). replace (INR k) with (INR (k - 1 + 1)) by (f_equal; lia).
    apply (top_tail hs st st1 B3 Hh Ac Hk1 Hyy (k - 1) d1); [unfold k in *; lia|apply length_vadd|].
    intros x Lx. unfold d1. rewrite vget_vadd by exact Lx. fold k. replace (k - (k - 1))%nat with 1%nat by lia. cbn [rsum].
    replace (k - 1 + 1 + 0)%nat with k by lia. cbn. ring. }
  assert (T2 : (3 <= k)%nat -> vget (sigma st1) (k - 2) * wrms_norm (idv st) d2 (ewt (nlp st)) (suppressalg st) * INR (k - 2 + 1) = E (k - 2)%nat).
  { intros L. apply (top_tail hs st st1 B3 Hh Ac Hk1 Hyy (k - 2) d2); [unfold k in *; lia|apply length_vadd|].
    intros x Lx. unfold d2, d1. rewrite !vget_vadd by exact Lx. fold k. replace (k - (k - 2))%nat with 2%nat by lia. cbn [rsum].
    replace (k - 2 + 1 + 0)%nat with (k - 1)%nat by lia. replace (k - 2 + 1 + 1)%nat with k by lia. cbn. ring. }
  split; [intros j Lj; apply Hest; unfold k in *; lia|].
  split; [rewrite <- T0; field; exact N1|].
  split; [intros L; rewrite <- (T1 L); field; apply not_0_INR; lia|].
  assert (Sk : (sofnat k + sone)%sc = INR (k + 1)) by (rewrite plus_INR; reflexivity).
  split.
  { rewrite Q3. rewrite Sk. unfold reduced. cbv zeta.
    destruct (Nat.ltb_spec 2 k) as [L3|L3].
    - change (sofnat k * ek1)%sc with (INR k * ek1). rewrite (Rmult_comm (INR k)), (T1 ltac:(lia)).
      change (ek * INR (k + 1))%sc with (ek * INR (k + 1)). rewrite T0.
      set (a2 := ((sofnat k - sone) * (vget (sigma st1) (k - 2) * wrms_norm (idv st) d2 (ewt (nlp st)) (suppressalg st)))%sc).
      assert (Ea : a2 = E (k - 2)%nat).
      { rewrite <- (T2 ltac:(lia)). unfold a2. replace (INR (k - 2 + 1)) with (INR k - 1); [cbn; ring|].
        replace (k - 2 + 1)%nat with (k - 1)%nat by lia. rewrite minus_INR by lia. reflexivity. }
      rewrite Ea. change (smax (E (k - 1)%nat) (E (k - 2)%nat) <=? E k)%sc with (Rleb (Rmax (E (k - 1)%nat) (E (k - 2)%nat)) (E k)).
      pose proof (Rmax_l (E (k - 1)%nat) (E (k - 2)%nat)). pose proof (Rmax_r (E (k - 1)%nat) (E (k - 2)%nat)).
      destruct (Rleb _ _) eqn:Lb; [apply Rleb_true in Lb|apply Rleb_false in Lb].
      + split; [reflexivity|]. intros X. exfalso. apply X. right. split; [lia|]. split; lra.
      + split; [|reflexivity]. intros [(X & _)|(_ & X1 & X2)]; [lia|].
        exfalso. revert Lb. apply Rle_not_lt. apply Rmax_lub; assumption.
    - destruct (Nat.ltb_spec 1 k) as [L2|L2].
      + assert (K2 : k = 2%nat) by lia.
        change (sofnat k * ek1)%sc with (INR k * ek1). rewrite (Rmult_comm (INR k)), (T1 ltac:(lia)).
        change (ek * INR (k + 1) * shalf)%sc with (ek * INR (k + 1) * / 2). rewrite T0.
        change (sleb (E (k - 1)%nat) (E k * / 2)%R) with (Rleb (E (k - 1)%nat) (E k * / 2)).
        assert (EE1 : E (k - 1)%nat = E 1%nat) by (f_equal; lia). assert (EE2 : E k = E 2%nat) by (f_equal; exact K2).
        rewrite EE1, EE2.
        destruct (Rleb _ _) eqn:Lb; [apply Rleb_true in Lb|apply Rleb_false in Lb].
        * split; [reflexivity|]. intros X. exfalso. apply X. left. split; [exact K2|]. exact Lb.
        * split; [|reflexivity]. intros [(_ & X)|(X & _)]; [|lia]. unfold Rdiv in X. lra.
      + split; [|reflexivity]. intros [(X & _)|(X & _)]; lia. }
  split; [exact Hpos|].
  intros Hr. unfold may_raise in Hr. rewrite Ek, Eu, U6 in Hr. fold k in Hr.
  apply negb_true_iff in Hr. apply orb_false_iff in Hr. destruct Hr as (Hr & R3). apply orb_false_iff in Hr. destruct Hr as (R1 & R2).
  apply Nat.eqb_neq in R1. apply Nat.leb_gt in R2. apply Nat.eqb_neq in R3.
  destruct (tr_coeffs _ _ _ _ _ Htr) as (Kn & _). rewrite Kn in R2.
  assert (Hcon : hh st = hused st /\ kk st = kused st /\ const hs st /\ (k + 1 <= ns st)%nat).
  { destruct (ns_next_cases st) as [X|(E1 & E2 & E3 & E4)]; [lia|].
    split; [exact E1|]. split; [exact E2|].
    destruct B4 as [X|[X|[X|(X & _)]]]; try contradiction; [lia|]. split; [exact X|lia]. }
  destruct Hcon as (C1 & C2 & (C3 & C4) & C5). unfold k in *.
  assert (Hgap : forall i, (i <= kk st)%nat -> tm hs i - tm hs (S i) = hh st) by (intros i Li; rewrite C1; apply C4; lia).
  split; [apply Hest; lia|]. split.
  - unfold nrm_of. rewrite U4, U5, Ew.
    apply (top_next hs st st1 B3 Hh Ac Hk1 Hyy (vsub n (ee st1) (row (phi st1) (kk st + 1))) Hgap); try lia.
    + apply vtab_length.
    + intros x Lx. rewrite vget_vsub by exact Lx. reflexivity.
  - intros i a Li Ei. rewrite <- (h_size _ _ _ B3 i a Ei). apply Hgap. exact Li.
Qed.

(** After a failed error test the order is the reduced one and the step size
    is scaled by 0.9 times the ratio for that order, kept between 1/4 and
    9/10; after a second failure by 1/4; from the third failure on the order is
    1 as well. *)
Theorem C72_retry_partial c yy0 yp0 (st st' : state) nef ncf ncf' nef' :
  config_ok c -> attempt_in prob ewt_set c yy0 yp0 st nef ->
  attempt_step prob st (tn (nlp st)) ncf nef = Ret (st', ncf', nef', Ok None) ->
  get_num_nonlin_solv_conv_fails st = 0%nat -> length (ee st') = n ->
  let k := kk st in
  exists b0 b1 E kr, behind c yy0 (early_fail (tr st)) (nst st) (hh st) (yypredict (nlp st')) b0 b1 /\
    let pts := (tn (nlp st) + hh st, yy (nlp st')) :: map apt (steps (tr st)) ++ [b0; b1] in
    (forall j, (j <= k)%nat -> estimate n (nrm_of st) (hh st) pts j (E j)) /\
    reduced k E kr /\
    kk st' = (if (nef <=? 1)%nat then kr else 1%nat) /\
    hh st' = hh st * (if (nef =? 0)%nat then Rmax (/ 4) (Rmin (9 / 10) (9 / 10 * ratio kr E)) else / 4).
Proof.
  intros Hc Ha E Hn Le k.
  destruct (attempt_HJ prob ewt_set Hl c yy0 yp0 st nef Hc Ha) as (Hi & _).
  pose proof (is_kk _ Hi) as Hk. pose proof (is_max _ Hi) as Hmx.
  destruct (attempt_spec prob Hl st st' _ ncf nef ncf' nef' _ (is_arr _ Hi) ltac:(lia) E)
    as (st1 & ck & ek & ek1 & r1 & Et & Td & _ & [(_ & _ & _ & X)|[(-> & _ & Rt & _ & _ & _)|(e & _ & _ & [(_ & _ & _ & X & _)|(_ & X & _)])]]);
    try discriminate X.
  pose proof (rt_keep _ _ _ _ _ Rt) as Q.
  assert (Qe : ee st' = ee st1) by (pinj; assumption). clear Q. rewrite Qe in Le.
  destruct (C71_error_estimates_partial c yy0 yp0 st st1 nef ck ek ek1 _ Hc Ha Et ltac:(discriminate) Hn Le)
    as (b0 & b1 & E0 & Hb & He & Hek & Hek1 & Hr & Hp & _). fold k in He, Hek, Hek1, Hr.
  exists b0, b1, E0, (knew st1). split; [rewrite (rt_nlp _ _ _ _ _ Rt); exact Hb|].
  assert (Hy : yy (nlp st') = yy (nlp st1)) by (rewrite (rt_nlp _ _ _ _ _ Rt); reflexivity).
  cbv zeta. rewrite Hy. split; [exact He|].
  pose proof (tr_ord _ _ _ _ _ Td) as U1. pose proof (tr_h _ _ _ _ _ Td) as U2.
  assert (Ek : kk st1 = k) by (pinj; assumption). assert (Eh : hh st1 = hh st) by (pinj; assumption). clear U1 U2.
  pose proof (tr_res _ _ _ _ _ Td) as (Kn & _).
  split; [exact Hr|]. split; [exact (rt_kk _ _ _ _ _ Rt)|].
  rewrite (rt_hh _ _ _ _ _ Rt), Eh. change (hh st * rr st')%sc with (hh st * rr st'). f_equal.
  destruct (Nat.eqb_spec nef 0) as [Z|Z].
  - subst nef. rewrite (first_retry prob st st' st1 _ _ _ _ _ _ _ E Et). rewrite Ek.
    set (e := if (k =? knew st1)%nat then ek else ek1).
    assert (Ee : e = E0 (knew st1) / INR (knew st1 + 1)).
    { unfold e. destruct (Nat.eqb_spec k (knew st1)) as [K|K].
      - rewrite <- K. exact Hek.
      - destruct Kn as [K'|(K1 & K2)]; [unfold k in K; congruence|]. rewrite (Hek1 K1), K2. fold k.
        replace (k - 1 + 1)%nat with k by (unfold k in *; lia). reflexivity. }
    assert (Hq : spowf (stwo * e + spt0001)%sc (- srecip (sofnat (knew st1 + 1)))%sc = ratio (knew st1) E0).
    { unfold ratio. cbn. rewrite Rpowf_pos.
      - rewrite Ee. f_equal. unfold srecip. cbn. unfold Rdiv. ring.
      - rewrite Ee. assert (0 <= E0 (knew st1) / INR (knew st1 + 1)).
        { apply Rmult_le_pos; [apply Hp|]. left. apply Rinv_0_lt_compat. apply lt_0_INR. lia. }
        lra. }
    rewrite Hq. cbn. reflexivity.
  - apply (rt_rr1 _ _ _ _ _ Rt). lia.
Qed.

(** [s] begins a step in some call. *)
Definition step_in (c : @config R) (yy0 yp0 : list R) (s : state) : Prop :=
  exists s0, reach prob ewt_set c yy0 yp0 s0 /\ pieces prob ewt_set s0 s /\ limited s /\ fresh prob ewt_set s.

(** The next order and step size after an accepted step. *)
Theorem C73_next_step_partial c yy0 yp0 (s s' : state) fuel u :
  config_ok c -> step_in c yy0 yp0 s -> step prob fuel s = Ret (s', Ok u) ->
  get_num_nonlin_solv_conv_fails s' = 0%nat ->
  (forall sta nef st1 ck ek ek1, attempt_in prob ewt_set c yy0 yp0 sta nef -> get_num_nonlin_solv_conv_fails sta = 0%nat ->
     try_step prob sta = Ret (st1, ck, ek, ek1, Ok tt) -> length (ee st1) = n) ->
  let k := get_last_order s' in let h := get_last_step s' in
  let k' := get_current_order s' in let h' := get_current_setp s' in
  let may := negb ((k =? g_maxord c)%nat || (ns s' <=? k + 1)%nat || (k =? get_last_order s + 1)%nat) in
  exists b0 b1 E, behind c yy0 (early_fail (tr s')) (get_num_steps s) h (yypredict (nlp s')) b0 b1 /\
    let pts := map apt (steps (tr s')) ++ [b0; b1] in
    (forall j, (j <= k)%nat -> estimate n (nrm_of s) h pts j (E j)) /\
    (may = true -> estimate n (nrm_of s) h pts (k + 1) (E (k + 1)%nat) /\
       (forall i a, (i <= k + 1)%nat -> nth_error (steps (tr s')) i = Some a -> a_h a = h)) /\
    (phase s' = 0%nat <-> (get_num_steps s = 0%nat \/ phase s = 0%nat) /\
       get_num_err_test_fails s' = get_num_err_test_fails s /\ reduced k E k /\ (k < g_maxord c)%nat) /\
    (phase s' = 0%nat ->
       (get_num_steps s = 0%nat -> k' = k /\ h' = h) /\
       (get_num_steps s <> 0%nat -> k' = (k + 1)%nat /\ h' = limit2 (g_hmax_inv c) h)) /\
    (phase s' <> 0%nat -> selected k E may k' /\ resized (g_hmax_inv c) h (ratio k' E) h').
Proof.
  intros Hc (s0 & Hr & Hp & Hlim & Hf) Es Hn Hsz k h k' h' may.
  pose proof (reach_ord prob ewt_set Hl c yy0 yp0 s0 Hc Hr) as O0.
  pose proof (reach_HJ prob ewt_set Hl c Hc yy0 yp0 s0 Hr) as J0.
  destruct (pieces_life prob ewt_set Hl (HJ prob c yy0) s0 s (HJ_shell prob c yy0) (HJ_lims prob c yy0)
    (HJ_first prob ewt_set c yy0) (HJ_in prob ewt_set c yy0) Hp O0 J0) as (O1 & J1).
  destruct (step_completes prob Hl fuel s s' u O1 Es) as (sta & nef & st1 & ck & ek & ek1 & st2 & Ht & Et & Td & Ec & Ecm).
  assert (Ha : attempt_in prob ewt_set c yy0 yp0 sta nef) by (exists s0, s; auto 10).
  destruct (attempt_HJ prob ewt_set Hl c yy0 yp0 sta nef Hc Ha) as (Hi & Ja & La).
  destruct (try_facts prob Hl _ _ _ _ _ _ Hi Et) as (_ & Hat).
  pose proof (tr_res _ _ _ _ _ Td) as (_ & _ & _ & Hkn & _).
  pose proof (is_kk _ Hi) as Hk. pose proof (is_max _ Hi) as Hmx.
  pose proof (maxord_tried _ _ _ _ _ Td) as M1.
  pose proof (tr_ord _ _ _ _ _ Td) as U1. pose proof (tr_cnt _ _ _ _ _ Td) as U2. pose proof (tr_h _ _ _ _ _ Td) as U3.
  assert (V : kk st1 = kk sta /\ kused st1 = kused sta /\ phase st1 = phase sta /\ nst st1 = nst sta /\ ncfn st1 = ncfn sta /\ hh st1 = hh sta /\ netf st1 = netf sta)
    by (pinj; auto 10).
  clear U1 U2 U3. destruct V as (V1 & V2 & V3 & V4 & V5 & V6 & V7).
  destruct (complete_step_spec prob st1 ek ek1) as (st2' & E2 & Cp);
    [apply Td|lia|lia|rewrite V1; exact Hkn|]. rewrite Ec in E2. apply ret_inj in E2. subst st2'.
  pose proof (cp_used _ _ _ Cp) as U1. pose proof (cp_keep _ _ _ Cp) as U2.
  assert (W : kused st2 = kk st1 /\ hused st2 = hh st1 /\ ns st2 = ns st1 /\ ncfn st2 = ncfn st1 /\ netf st2 = netf st1) by (pinj; auto 10).
  clear U1 U2. destruct W as (W1 & W2 & W3 & W4 & W6).
  pose proof (cp_nlp _ _ _ Cp) as W5.
  assert (F : kused s' = kused st2 /\ hused s' = hused st2 /\ ns s' = ns st2 /\ ncfn s' = ncfn st2 /\ kk s' = kk st2 /\ hh s' = hh st2 /\
     phase s' = phase st2 /\ yypredict (nlp s') = yypredict (nlp st2) /\ tr s' = CStep (tn (nlp st2)) (yy (nlp st2)) :: tr st2 /\ netf s' = netf st2)
    by (rewrite Ecm; repeat split; reflexivity).
  destruct F as (F1 & F2 & F3 & F4 & F5 & F6 & F7 & F8 & F9 & F10). clear Ecm Es.
  assert (Hnc : ncfn sta = 0%nat) by (unfold get_num_nonlin_solv_conv_fails in Hn; congruence).
  pose proof (Hsz _ _ _ _ _ _ Ha Hnc Et) as Le.
  destruct (C71_error_estimates_partial c yy0 yp0 sta st1 nef ck ek ek1 _ Hc Ha Et ltac:(discriminate) Hnc Le)
    as (b0 & b1 & E & Hb & He & Hek & Hek1 & Hred & Hpos & Hraise).
  destruct (La Hnc) as (A1 & Ar & A2 & A3). destruct A3 as (c0 & c1 & Hpt); [right; discriminate|].
  destruct (try_bdf prob ewt_set c yy0 sta st1 _ nef ck _ c0 c1 Hi Ja Hpt A1 Ar Td Hat) as (_ & _ & Hnx & evs & T1 & T2 & _ & T4 & T5).
  cbn [fails app] in T1.
  assert (Hnow : tn_next sta = tn (nlp sta) + hh sta).
  { rewrite Hnx. destruct Hpt as (_ & _ & Hh & _). rewrite <- (h_now _ _ _ Hh). reflexivity. }
  assert (Hst : steps (tr s') = mkastep (tn_next sta) (yy (nlp st1)) (hh sta) (kk sta) :: steps (tr sta)).
  { rewrite F9, W5, T1. destruct (calm_app evs (CTry (tn (nlp sta)) (hh sta) (kk sta) :: tr sta) T4) as (S1 & S2 & S3 & S4).
    cbn. rewrite S1, S3. rewrite (tr_tn _ _ _ _ _ Td). reflexivity. }
  assert (Hear : early_fail (tr s') = early_fail (tr sta)).
  { rewrite F9, W5, T1. change (CStep ?a ?b :: ?z) with ([CStep a b] ++ z). rewrite early_app by (repeat constructor). exact T5. }
  destruct (tries_ord prob (tn (nlp s)) (st_init s) sta nef) as (_ & _ & D1 & _ & _ & _ & D2 & _ & D3); [|
    |exact Ht|].
  { apply arrays_init. apply O1. }
  { destruct (instep_init _ O1) as [I1 I2 I3 _ _ _]. exact I2. }
  assert (D4 : cfg (st_init s) = cfg s) by (unfold st_init; cbv zeta; destruct (nst _ =? 0)%nat; reflexivity).
  assert (D5 : ewt (nlp (st_init s)) = ewt (nlp s)) by (unfold st_init; cbv zeta; destruct (nst _ =? 0)%nat; reflexivity).
  assert (D6 : nst (st_init s) = nst s) by (unfold st_init; cbv zeta; destruct (nst _ =? 0)%nat; reflexivity).
  assert (D7 : kused (st_init s) = if (nst s =? 0)%nat then 0%nat else kused s)
    by (unfold st_init; cbv zeta; change (nst (on_lp (push_ev (begin_ev s)) s)) with (nst s); destruct (nst s =? 0)%nat; reflexivity).
  assert (D8 : netf (st_init s) = netf s) by (unfold st_init; cbv zeta; destruct (nst _ =? 0)%nat; reflexivity).
  assert (D9 : phase (st_init s) = 0%nat <-> nst s = 0%nat \/ phase s = 0%nat).
  { unfold st_init; cbv zeta; change (nst (on_lp (push_ev (begin_ev s)) s)) with (nst s).
    destruct (Nat.eqb_spec (nst s) 0) as [Z|Z]; cbn; [split; auto|tauto]. }
  rewrite D4 in D1. apply cfg_fields in D1. destruct D1 as (_ & G1 & G2 & _ & _ & _ & _ & G3 & _).
  assert (Hnrm : forall v, nrm_of sta v = nrm_of s v).
  { intros v. unfold nrm_of. rewrite G1, G2, (tries_ewt prob _ _ _ _ Ht), D5. reflexivity. }
  destruct (tl_cfg _ _ _ _ (proj1 Ja)) as (Q1 & _ & _ & Q4 & _).
  assert (Hhi : hmax_inv st1 = g_hmax_inv c).
  { rewrite <- Q4. pose proof (cfg_fields _ _ (tr_cfg _ _ _ _ _ Td)). tauto. }
  assert (Ek : k = kk sta) by (unfold k, get_last_order; congruence).
  assert (Eh : h = hh sta) by (unfold h, get_last_step; congruence).
  assert (Emay : may = may_raise st1).
  { unfold may, may_raise, get_last_order. rewrite Ek, V1, M1, Q1, F3, W3, V2, D2, D7.
    destruct (Nat.eqb_spec (nst s) 0) as [Z|Z]; [|reflexivity].
    assert (Hz : nst sta = 0%nat) by congruence. destruct (is_zero _ Hi Hz) as (Z1 & Z2).
    destruct (tr_coeffs _ _ _ _ _ Td) as (Kn & _).
    assert (Hle : (ns st1 <= kk sta + 1)%nat).
    { rewrite Kn. destruct (ns_next_cases sta) as [X|(X1 & X2 & _)]; lia. }
    apply Nat.leb_le in Hle. rewrite Hle. rewrite !orb_true_r. reflexivity. }
  exists b0, b1, E. unfold get_num_steps. rewrite Hear, Eh, F8, W5. rewrite <- D6, <- D3. split; [exact Hb|].
  rewrite Hst. cbn [map app]. cbv zeta. change (apt (mkastep (tn_next sta) (yy (nlp st1)) (hh sta) (kk sta))) with (tn_next sta, yy (nlp st1)). rewrite Hnow.
  rewrite Ek. split.
  { intros j Lj. destruct (He j Lj) as (v & X1 & X2 & X3). exists v. split; [exact X1|]. split; [exact X2|]. rewrite X3. apply Hnrm. }
  split.
  { rewrite Emay. intros Hm. destruct (Hraise Hm) as ((v & X1 & X2 & X3) & _ & X4). split.
    - exists v. split; [exact X1|]. split; [exact X2|]. rewrite X3. apply Hnrm.
    - intros [|i] a Li Ei; [injection Ei as <-; reflexivity|]. cbn in Ei. apply (X4 i a); [lia|exact Ei]. }
  rewrite <- V1 in Hek, Hek1, Hred, Hraise.
  destruct (complete_select st1 st2 ek ek1 E Ec) as (P1 & P2); [lia|exact Hpos|exact Hek|exact Hek1| |exact Hred|].
  { intros Hm. destruct (Hraise Hm) as (_ & X & _). exact X. }
  unfold k', h', get_current_order, get_current_setp. rewrite F5, F6, F7, Emay. rewrite <- Hhi, <- V1, <- V4, <- V6.
  assert (Hred' : knew st1 = kk st1 <-> reduced (kk st1) E (kk st1)).
  { split; [intros X; rewrite X in Hred; exact Hred|]. intros X. exact (reduced_fun _ _ _ _ Hred X). }
  split.
  { rewrite <- Hred'. unfold get_num_err_test_fails. rewrite F10, W6, V7.
    rewrite (tries_phase prob _ _ _ _ Ht). rewrite <- Q1, <- M1.
    assert (X : phase st2 = 0%nat <-> phase sta = 0%nat /\ knew st1 = kk st1 /\ (kk st1 < maxord st1)%nat).
    { rewrite <- (Nat.eqb_eq (phase st2)), P1, !andb_true_iff, !Nat.eqb_eq, Nat.ltb_lt, V3. tauto. }
    rewrite X. rewrite (tries_phase0 prob _ _ _ _ Ht). rewrite V4, D3, D8, D9. split; intros Y; intuition lia. }
  split; intros Hph.
  - rewrite Hph in P1. cbn [Nat.eqb] in P1. rewrite <- P1 in P2. exact P2.
  - apply Nat.eqb_neq in Hph. rewrite Hph in P1. rewrite <- P1 in P2. exact P2.
Qed.

(** *** Nonlinear solvers which report no failure and keep the length of the
    correction (as every solver written in Rust does: it gets a view of an
    array of n elements) *)
Section Good.
Variable good : NSt -> Prop.
Hypothesis Hg : never_fails prob good.
Hypothesis Hnew : good (nls_new n MAXNLSIT).
Hypothesis Hsz : sized prob good.

Lemma attempt_good c yy0 yp0 (st : state) nef : config_ok c -> attempt_in prob ewt_set c yy0 yp0 st nef ->
  good (nls st) /\ ncfn st = 0%nat.
Proof.
  intros Hc (s0 & s & Hr & Hp & Hlim & Hf & Ht).
  pose proof (reach_ord prob ewt_set Hl c yy0 yp0 s0 Hc Hr) as O0.
  pose proof (reach_good prob ewt_set Hl good Hg c Hc yy0 yp0 Hnew s0 Hr) as G0.
  pose proof (pieces_good prob ewt_set Hl good Hg s0 s O0 G0 Hp) as G1.
  assert (O1 : ordok s) by (eapply pieces_ord; eassumption).
  exact (tries_good prob ewt_set Hl good Hg s st nef O1 Hlim Hf G1 Ht).
Qed.

Theorem C71_error_estimates c yy0 yp0 (st st1 : state) nef ck ek ek1 r :
  config_ok c -> attempt_in prob ewt_set c yy0 yp0 st nef -> try_step prob st = Ret (st1, ck, ek, ek1, r) ->
  let k := kk st in
  exists b0 b1 E, behind c yy0 (early_fail (tr st)) (nst st) (hh st) (yypredict (nlp st1)) b0 b1 /\
    let pts := (tn (nlp st) + hh st, yy (nlp st1)) :: map apt (steps (tr st)) ++ [b0; b1] in
    (forall j, (j <= k)%nat -> estimate n (nrm_of st) (hh st) pts j (E j)) /\
    ek = E k / INR (k + 1) /\ ((2 <= k)%nat -> ek1 = E (k - 1)%nat / INR k) /\ reduced k E (knew st1) /\
    (forall j, 0 <= E j) /\
    (may_raise st1 = true ->
       estimate n (nrm_of st) (hh st) pts (k + 1) (E (k + 1)%nat) /\
       nrm_of st1 (vsub n (ee st1) (row (phi st1) (k + 1))) = E (k + 1)%nat /\
       (forall i a, (i <= k)%nat -> nth_error (steps (tr st)) i = Some a -> a_h a = hh st)).
Proof.
  intros Hc Ha Et. destruct (attempt_good c yy0 yp0 st nef Hc Ha) as (G & N).
  apply (C71_error_estimates_partial c yy0 yp0 st st1 nef ck ek ek1 r Hc Ha Et); [|exact N|].
  - exact (proj2 (try_good prob good Hg st st1 ck ek ek1 r G Et)).
  - exact (try_sized prob good Hg Hsz st st1 ck ek ek1 r G Et).
Qed.

Theorem C72_retry c yy0 yp0 (st st' : state) nef ncf ncf' nef' :
  config_ok c -> attempt_in prob ewt_set c yy0 yp0 st nef ->
  attempt_step prob st (tn (nlp st)) ncf nef = Ret (st', ncf', nef', Ok None) ->
  let k := kk st in
  exists b0 b1 E kr, behind c yy0 (early_fail (tr st)) (nst st) (hh st) (yypredict (nlp st')) b0 b1 /\
    let pts := (tn (nlp st) + hh st, yy (nlp st')) :: map apt (steps (tr st)) ++ [b0; b1] in
    (forall j, (j <= k)%nat -> estimate n (nrm_of st) (hh st) pts j (E j)) /\
    reduced k E kr /\
    kk st' = (if (nef <=? 1)%nat then kr else 1%nat) /\
    hh st' = hh st * (if (nef =? 0)%nat then Rmax (/ 4) (Rmin (9 / 10) (9 / 10 * ratio kr E)) else / 4).
Proof.
  intros Hc Ha E. destruct (attempt_good c yy0 yp0 st nef Hc Ha) as (G & N).
  apply (C72_retry_partial c yy0 yp0 st st' nef ncf ncf' nef' Hc Ha E N).
  destruct (attempt_HJ prob ewt_set Hl c yy0 yp0 st nef Hc Ha) as (Hi & _).
  pose proof (is_kk _ Hi) as Hk. pose proof (is_max _ Hi) as Hmx.
  destruct (attempt_spec prob Hl st st' _ ncf nef ncf' nef' _ (is_arr _ Hi) ltac:(lia) E)
    as (st1 & ck & ek & ek1 & r1 & Et & Td & _ & [(_ & _ & _ & X)|[(-> & _ & Rt & _ & _ & _)|(e & _ & _ & [(_ & _ & _ & X & _)|(_ & X & _)])]]);
    try discriminate X.
  pose proof (rt_keep _ _ _ _ _ Rt) as Q. assert (Qe : ee st' = ee st1) by (pinj; assumption). rewrite Qe.
  exact (try_sized prob good Hg Hsz st st1 ck ek ek1 _ G Et).
Qed.

Theorem C73_next_step c yy0 yp0 (s s' : state) fuel u :
  config_ok c -> step_in c yy0 yp0 s -> step prob fuel s = Ret (s', Ok u) ->
  let k := get_last_order s' in let h := get_last_step s' in
  let k' := get_current_order s' in let h' := get_current_setp s' in
  let may := negb ((k =? g_maxord c)%nat || (ns s' <=? k + 1)%nat || (k =? get_last_order s + 1)%nat) in
  exists b0 b1 E, behind c yy0 (early_fail (tr s')) (get_num_steps s) h (yypredict (nlp s')) b0 b1 /\
    let pts := map apt (steps (tr s')) ++ [b0; b1] in
    (forall j, (j <= k)%nat -> estimate n (nrm_of s) h pts j (E j)) /\
    (may = true -> estimate n (nrm_of s) h pts (k + 1) (E (k + 1)%nat) /\
       (forall i a, (i <= k + 1)%nat -> nth_error (steps (tr s')) i = Some a -> a_h a = h)) /\
    (phase s' = 0%nat <-> (get_num_steps s = 0%nat \/ phase s = 0%nat) /\
       get_num_err_test_fails s' = get_num_err_test_fails s /\ reduced k E k /\ (k < g_maxord c)%nat) /\
    (phase s' = 0%nat ->
       (get_num_steps s = 0%nat -> k' = k /\ h' = h) /\
       (get_num_steps s <> 0%nat -> k' = (k + 1)%nat /\ h' = limit2 (g_hmax_inv c) h)) /\
    (phase s' <> 0%nat -> selected k E may k' /\ resized (g_hmax_inv c) h (ratio k' E) h').
Proof.
  intros Hc Hs E. destruct Hs as (s0 & Hr & Hp & Hlim & Hf).
  assert (Hs : step_in c yy0 yp0 s) by (exists s0; auto).
  apply (C73_next_step_partial c yy0 yp0 s s' fuel u Hc Hs E).
  - pose proof (reach_ord prob ewt_set Hl c yy0 yp0 s0 Hc Hr) as O0.
    pose proof (reach_good prob ewt_set Hl good Hg c Hc yy0 yp0 Hnew s0 Hr) as G0.
    pose proof (pieces_good prob ewt_set Hl good Hg s0 s O0 G0 Hp) as G1.
    assert (O1 : ordok s) by (eapply pieces_ord; eassumption).
    destruct (step_completes prob Hl fuel s s' u O1 E) as (sta & nef & st1 & ck & ek & ek1 & st2 & Ht & Et & Td & Ec & ->).
    assert (Ha : attempt_in prob ewt_set c yy0 yp0 sta nef) by (exists s0, s; auto 10).
    destruct (attempt_good c yy0 yp0 sta nef Hc Ha) as (_ & N).
    destruct (attempt_HJ prob ewt_set Hl c yy0 yp0 sta nef Hc Ha) as (Hi & _).
    pose proof (is_kk _ Hi) as Hk. pose proof (is_max _ Hi) as Hmx. pose proof (maxord_tried _ _ _ _ _ Td) as M1.
    pose proof (tr_res _ _ _ _ _ Td) as (_ & _ & _ & Hkn & _).
    pose proof (tr_ord _ _ _ _ _ Td) as U1. pose proof (tr_cnt _ _ _ _ _ Td) as U2.
    assert (V : kk st1 = kk sta /\ ncfn st1 = ncfn sta) by (pinj; auto). destruct V as (V1 & V2).
    destruct (complete_step_spec prob st1 ek ek1) as (st2' & E2 & Cp);
      [apply Td|lia|lia|rewrite V1; exact Hkn|]. rewrite Ec in E2. apply ret_inj in E2. subst st2'.
    pose proof (cp_keep _ _ _ Cp) as U3. assert (W : ncfn st2 = ncfn st1) by (pinj; assumption).
    change (ncfn st2 = 0%nat). congruence.
  - intros sta nef st1 ck ek ek1 Ha N Et. destruct (attempt_good c yy0 yp0 sta nef Hc Ha) as (G & _).
    exact (try_sized prob good Hg Hsz sta st1 ck ek ek1 _ G Et).
Qed.

End Good.

End Select.

(** ** The crate's Newton solver *)
Section NewtonSized.
Context {T LSt : Type} `{Scalar T} `{LSolver T LSt}.
Variable prob : problem T.
Notation n := (model_size prob).

Lemma inner_sized fuel w tol : forall nw (s : nlprob T LSt) y nw' s' y',
  inner_loop (ida_nlproblem prob) n fuel w tol nw s y = Ret (nw', s', y', Ok tt) -> length y' = n.
Proof.
  induction fuel as [|fuel IH]; intros nw s y nw' s' y' E; [discriminate|].
  cbn [inner_loop] in E. apply bind_ret_inv in E. destruct E as (((s1 & d1) & r1) & E1 & E). cbv beta iota zeta in E.
  destruct r1; [|discriminate].
  apply bind_ret_inv in E. destruct E as ((s2 & r2) & E2 & E). cbv beta iota in E. destruct r2 as [[|]|e]; [| |discriminate].
  - injection E as _ _ <-. apply length_vadd.
  - destruct (_ <=? _)%nat; [discriminate|].
    apply bind_ret_inv in E. destruct E as (((s3 & d3) & r3) & E3 & E). cbv beta iota in E.
    destruct r3; [|discriminate]. exact (IH _ _ _ _ _ _ E).
Qed.

Lemma newton_sized nfuel : @sized T LSt (newton T) _ _ (NewtonNLS nfuel) prob (fun _ => True).
Proof.
  intros s x d y w tol call s' x' y' _ E. cbn in E. unfold newton_solve in E. revert call s x y E. generalize false.
  induction nfuel as [|nfuel IH]; intros jbad call s x y E; [discriminate|].
  cbn [outer_loop] in E. apply bind_ret_inv in E. destruct E as ((((n1 & s1) & y1) & r1) & E1 & E). cbv beta iota in E.
  destruct r1 as [[]|e].
  - injection E as _ _ <-. unfold attempt in E1.
    apply bind_ret_inv in E1. destruct E1 as (((s2 & d2) & r2) & _ & E1). cbv beta iota zeta in E1. destruct r2; [|discriminate].
    apply bind_ret_inv in E1. destruct E1 as (((s3 & d3) & r3) & _ & E1). cbv beta iota in E1. destruct r3; [|discriminate].
    exact (inner_sized _ _ _ _ _ _ _ _ _ E1).
  - destruct e; try discriminate. destruct (negb _); exact (IH _ _ _ _ _ E).
Qed.
End NewtonSized.

Theorem C71_error_estimates_newton {LSt} `{LSolver R LSt} (prob : problem R) ewt_set nfuel c yy0 yp0 (st st1 : ida R LSt (newton R)) nef ck ek ek1 r :
  let _ : NLSolver R (newton R) := NewtonNLS nfuel in
  let n := model_size prob in let tr (st : ida R LSt (newton R)) := trace (lp (nlp st)) in
  config_ok c -> attempt_in prob ewt_set c yy0 yp0 st nef -> try_step prob st = Ret (st1, ck, ek, ek1, r) ->
  let k := kk st in
  exists b0 b1 E, behind prob c yy0 (early_fail (tr st)) (nst st) (hh st) (yypredict (nlp st1)) b0 b1 /\
    let pts := (tn (nlp st) + hh st, yy (nlp st1)) :: map apt (steps (tr st)) ++ [b0; b1] in
    (forall j, (j <= k)%nat -> estimate n (nrm_of st) (hh st) pts j (E j)) /\
    ek = E k / INR (k + 1) /\ ((2 <= k)%nat -> ek1 = E (k - 1)%nat / INR k) /\ reduced k E (knew st1) /\
    (forall j, 0 <= E j) /\
    (may_raise st1 = true ->
       estimate n (nrm_of st) (hh st) pts (k + 1) (E (k + 1)%nat) /\
       nrm_of st1 (vsub n (ee st1) (row (phi st1) (k + 1))) = E (k + 1)%nat /\
       (forall i a, (i <= k)%nat -> nth_error (steps (tr st)) i = Some a -> a_h a = hh st)).
Proof.
  intros N m t. exact (@C71_error_estimates LSt (newton R) _ N prob ewt_set (newton_lawful nfuel) (fun _ => True)
    (newton_never_fails prob nfuel) I (newton_sized prob nfuel) c yy0 yp0 st st1 nef ck ek ek1 r).
Qed.

Theorem C72_retry_newton {LSt} `{LSolver R LSt} (prob : problem R) ewt_set nfuel c yy0 yp0 (st st' : ida R LSt (newton R)) nef ncf ncf' nef' :
  let _ : NLSolver R (newton R) := NewtonNLS nfuel in
  let n := model_size prob in let tr (st : ida R LSt (newton R)) := trace (lp (nlp st)) in
  config_ok c -> attempt_in prob ewt_set c yy0 yp0 st nef ->
  attempt_step prob st (tn (nlp st)) ncf nef = Ret (st', ncf', nef', Ok None) ->
  let k := kk st in
  exists b0 b1 E kr, behind prob c yy0 (early_fail (tr st)) (nst st) (hh st) (yypredict (nlp st')) b0 b1 /\
    let pts := (tn (nlp st) + hh st, yy (nlp st')) :: map apt (steps (tr st)) ++ [b0; b1] in
    (forall j, (j <= k)%nat -> estimate n (nrm_of st) (hh st) pts j (E j)) /\
    reduced k E kr /\
    kk st' = (if (nef <=? 1)%nat then kr else 1%nat) /\
    hh st' = hh st * (if (nef =? 0)%nat then Rmax (/ 4) (Rmin (9 / 10) (9 / 10 * ratio kr E)) else / 4).
Proof.
  intros N m t. exact (@C72_retry LSt (newton R) _ N prob ewt_set (newton_lawful nfuel) (fun _ => True)
    (newton_never_fails prob nfuel) I (newton_sized prob nfuel) c yy0 yp0 st st' nef ncf ncf' nef').
Qed.

Theorem C73_next_step_newton {LSt} `{LSolver R LSt} (prob : problem R) ewt_set nfuel c yy0 yp0 (s s' : ida R LSt (newton R)) fuel u :
  let _ : NLSolver R (newton R) := NewtonNLS nfuel in
  let n := model_size prob in let tr (st : ida R LSt (newton R)) := trace (lp (nlp st)) in
  config_ok c -> step_in prob ewt_set c yy0 yp0 s -> step prob fuel s = Ret (s', Ok u) ->
  let k := get_last_order s' in let h := get_last_step s' in
  let k' := get_current_order s' in let h' := get_current_setp s' in
  let may := negb ((k =? g_maxord c)%nat || (ns s' <=? k + 1)%nat || (k =? get_last_order s + 1)%nat) in
  exists b0 b1 E, behind prob c yy0 (early_fail (tr s')) (get_num_steps s) h (yypredict (nlp s')) b0 b1 /\
    let pts := map apt (steps (tr s')) ++ [b0; b1] in
    (forall j, (j <= k)%nat -> estimate n (nrm_of s) h pts j (E j)) /\
    (may = true -> estimate n (nrm_of s) h pts (k + 1) (E (k + 1)%nat) /\
       (forall i a, (i <= k + 1)%nat -> nth_error (steps (tr s')) i = Some a -> a_h a = h)) /\
    (phase s' = 0%nat <-> (get_num_steps s = 0%nat \/ phase s = 0%nat) /\
       get_num_err_test_fails s' = get_num_err_test_fails s /\ reduced k E k /\ (k < g_maxord c)%nat) /\
    (phase s' = 0%nat ->
       (get_num_steps s = 0%nat -> k' = k /\ h' = h) /\
       (get_num_steps s <> 0%nat -> k' = (k + 1)%nat /\ h' = limit2 (g_hmax_inv c) h)) /\
    (phase s' <> 0%nat -> selected k E may k' /\ resized (g_hmax_inv c) h (ratio k' E) h').
Proof.
  intros N m t. exact (@C73_next_step LSt (newton R) _ N prob ewt_set (newton_lawful nfuel) (fun _ => True)
    (newton_never_fails prob nfuel) I (newton_sized prob nfuel) c yy0 yp0 s s' fuel u).
Qed.

(** ** Examples *)

(** Scripts with a correction of the right length in every entry. *)
Definition vec1 : script R -> Prop := Forall (fun o => exists v, o = Some v /\ length v = 1%nat).

Lemma script_vec1 s0 : @never_fails R (list nat) (script R) _ _ (ScriptNLS s0) scalarR vec1 /\
  @sized R (list nat) (script R) _ _ (ScriptNLS s0) scalarR vec1.
Proof.
  assert (X : forall s (x : nlprob R (list nat)) d y w tol call s' x' y' r, vec1 s ->
    @nls_solve _ _ (ScriptNLS s0) _ (ida_nlproblem scalarR) (model_size scalarR) s x d y w tol call = Ret (s', x', y', r) ->
    vec1 s' /\ r = Ok tt /\ length y' = 1%nat).
  { intros s x d y w tol call s' x' y' r G E. cbn in E. unfold script_solve in E. cbn in E. injection E as <- _ <- <-.
    destruct G as [|o s (v & -> & L) G]; [split; [constructor|split; reflexivity]|]. split; [exact G|]. split; [reflexivity|exact L]. }
  split; [split|].
  - intros s y s' y' r G E. cbn in E. injection E as <- _ <-. split; [exact G|reflexivity].
  - intros s x d y w tol call s' x' y' r G E. destruct (X _ _ _ _ _ _ _ _ _ _ _ G E) as (A & B & _). split; assumption.
  - intros s x d y w tol call s' x' y' G E. destruct (X _ _ _ _ _ _ _ _ _ _ _ G E) as (_ & _ & A). exact A.
Qed.

(** An attempt after two accepted steps. *)
Example C71_hypotheses_met : exists (st s1 : ida R (list nat) (script R)) ck ek ek1 r,
  @nls_lawful R (script R) NLSplain /\ @never_fails R (list nat) (script R) _ _ NLSplain scalarR vec1 /\
  vec1 (@nls_new _ _ NLSplain (model_size scalarR) MAXNLSIT) /\ @sized R (list nat) (script R) _ _ NLSplain scalarR vec1 /\
  config_ok (configR None 0) /\
  @attempt_in (list nat) (script R) _ NLSplain scalarR ewtR (configR None 0) [0] [1] st 0 /\
  @try_step R (list nat) (script R) _ _ NLSplain scalarR st = Ret (s1, ck, ek, ek1, r) /\
  length (steps (trace (lp (nlp st)))) = 2%nat.
Proof.
  destruct plain_attempt as (st & s1 & ck & ek & ek1 & r & A & B & C & D). exists st, s1, ck, ek, ek1, r.
  split; [apply script_lawful|]. split; [apply script_vec1|]. split; [constructor|]. split; [apply script_vec1|].
  split; [apply configR_ok|]. auto.
Qed.

(** A rejected attempt of the second step. *)
Example C72_hypotheses_met : exists (st s : ida R (list nat) (script R)) ncf nef,
  let NB := NLSbig (10 ^ 9) 0 in
  @nls_lawful R (script R) NB /\ @never_fails R (list nat) (script R) _ _ NB scalarR vec1 /\
  vec1 (@nls_new _ _ NB (model_size scalarR) MAXNLSIT) /\ @sized R (list nat) (script R) _ _ NB scalarR vec1 /\
  config_ok (configR None 1) /\
  @attempt_in (list nat) (script R) _ NB scalarR ewtR (configR None 1) [0] [1] st 0 /\
  @attempt_step R (list nat) (script R) _ _ NB scalarR st (tn (nlp st)) 0 0 = Ret (s, ncf, nef, Ok None) /\
  length (steps (trace (lp (nlp st)))) = 1%nat.
Proof.
  destruct (second_attempt (10 ^ 9) 0 ltac:(lra)) as (st & s & ncf & nef & r & A & B & C & D & E).
  set (NB := NLSbig (10 ^ 9) 0) in *.
  pose proof (script_lawful (sbig (10 ^ 9) 0) : @nls_lawful R (script R) NB) as Hl.
  destruct (script_vec1 (sbig (10 ^ 9) 0)) as (Hg & Hs).
  assert (Hn : vec1 (@nls_new _ _ NB (model_size scalarR) MAXNLSIT)).
  { constructor; [exists [0]; split; reflexivity|]. constructor; [|constructor]. eexists. split; reflexivity. }
  assert (Hr : r = Ok None).
  { destruct (@attempt_HJ _ _ _ NB scalarR ewtR Hl _ _ _ st 0 (configR_ok None 1) A) as (Hi & _).
    pose proof (is_kk _ Hi) as Hk. pose proof (is_max _ Hi) as Hmx.
    destruct (@attempt_spec _ _ _ _ _ NB scalarR Hl st s _ _ _ _ _ _ (is_arr _ Hi) ltac:(lia) B)
      as (st1 & ck & ek & ek1 & r1 & Et & Td & _ & [(_ & _ & _ & X)|[(_ & _ & _ & _ & _ & X)|(e & X1 & _ & [(_ & _ & X & _)|((m & ->) & _)])]]).
    - exfalso. exact (C _ X).
    - exact X.
    - lia.
    - exfalso. destruct (@attempt_good _ _ _ NB scalarR ewtR Hl vec1 Hg Hn _ _ _ st 0 (configR_ok None 1) A) as (G & _).
      exact (proj2 (@try_good _ _ _ _ _ NB scalarR vec1 Hg _ _ _ _ _ _ G Et) m X1). }
  subst r. exists st, s, ncf, nef. cbv zeta. split; [exact Hl|]. split; [exact Hg|]. split; [exact Hn|]. split; [exact Hs|].
  split; [apply configR_ok|]. auto.
Qed.

(** The third step of a life. *)
Example C73_hypotheses_met : exists (s s' : ida R (list nat) (script R)) fl,
  @nls_lawful R (script R) NLSplain /\ @never_fails R (list nat) (script R) _ _ NLSplain scalarR vec1 /\
  vec1 (@nls_new _ _ NLSplain (model_size scalarR) MAXNLSIT) /\ @sized R (list nat) (script R) _ _ NLSplain scalarR vec1 /\
  config_ok (configR None 0) /\
  @step_in (list nat) (script R) _ NLSplain scalarR ewtR (configR None 0) [0] [1] s /\
  @step R (list nat) (script R) _ _ NLSplain scalarR fl s = Ret (s', Ok tt) /\ nst s = 2%nat.
Proof.
  destruct (plain_next 2) as (st & st' & t & s1 & s2 & fl & Hr & _ & _ & _ & _ & Pc & Li & Fr & Es & Hn & _).
  exists s1, s2, fl.
  split; [apply script_lawful|]. split; [apply script_vec1|]. split; [constructor|]. split; [apply script_vec1|].
  split; [apply configR_ok|]. split; [exists st; auto|]. auto.
Qed.

Print Assumptions C71_error_estimates_partial.
Print Assumptions C71_error_estimates.
Print Assumptions C71_error_estimates_newton.
Print Assumptions C72_retry_partial.
Print Assumptions C72_retry.
Print Assumptions C72_retry_newton.
Print Assumptions C73_next_step_partial.
Print Assumptions C73_next_step.
Print Assumptions C73_next_step_newton.
