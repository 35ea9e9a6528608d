(** * IdaHist: the step history behind phi and psi, over the reals *)
Require Import List Arith Bool Lia Reals Lra Psatz.
Import ListNotations.
Require Import Verif.Base Verif.Scalar Verif.ScalarR Verif.Norms Verif.Newton Verif.NewtonSpec Verif.IdaState
  Verif.IdaNls Verif.IdaCore Verif.IdaRoots Verif.IdaSolve Verif.BaseFacts Verif.NewtonFacts
  Verif.IdaFacts Verif.IdaLoops Verif.IdaStep Verif.IdaSpec Verif.IdaShell Verif.IdaReach Verif.IdaInv
  Verif.IdaCount Verif.IdaLife Verif.IdaTrace Verif.IdaAccept Verif.IdaStepR Verif.RSum Verif.VecR Verif.PolyR.
Open Scope R_scope.

(** ** Times of a history, latest first *)

Definition tm (hs : list (R * list R)) (i : nat) : R := fst (nth i hs (0, [])).
Definition yv (hs : list (R * list R)) (x i : nat) : R := vget (snd (nth i hs (0, []))) x.

Lemma gap_sign (t : nat -> R) h N i d : (forall i, (i <= N)%nat -> 0 < (t i - t (S i)) * h) ->
  (i + d <= N)%nat -> 0 < (t i - t (i + S d)%nat) * h.
Proof.
  intros G. induction d as [|d IH]; intros L.
  - replace (i + 1)%nat with (S i) by lia. apply G. lia.
  - replace ((t i - t (i + S (S d))%nat) * h)
      with ((t i - t (i + S d)%nat) * h + (t (i + S d)%nat - t (S (i + S d))) * h)
      by (replace (i + S (S d))%nat with (S (i + S d)) by lia; ring).
    assert (0 < (t i - t (i + S d)%nat) * h) by (apply IH; lia).
    assert (0 < (t (i + S d)%nat - t (S (i + S d))) * h) by (apply G; lia). lra.
Qed.

Lemma const_gaps (t : nat -> R) h m : (forall i, (i < m)%nat -> t i - t (S i) = h) ->
  forall l, (l <= m)%nat -> t O - t l = INR l * h.
Proof.
  intros G. induction l as [|l IH]; intros L; [cbn; ring|].
  rewrite S_INR. replace (t O - t (S l)) with ((t O - t l) + (t l - t (S l))) by ring.
  rewrite IH, G by lia. ring.
Qed.

Definition coefs_for (k : nat) (h : R) (ps al sg ga : list R) : Prop :=
  forall i, (i <= k)%nat ->
    vget al i = h / vget ps i /\
    vget sg i = INR (fact i) * rprod i (fun l => h / vget ps (S l)) /\
    vget ga i = rsum i (fun l => / vget ps l).

Section Hist.
Context {LSt NSt : Type} `{LSolver R LSt} `{NLSolver R NSt}.
Variable prob : problem R.
Notation n := (model_size prob).
Notation state := (ida R LSt NSt).
Notation tr st := (trace (lp (nlp st))).

(** [hs] is the history behind the arrays of [st]: the accepted points, then
    the initial point, then one virtual point before it. *)
Record hist (hs : list (R * list R)) (st : state) : Prop := mkhist {
  h_now : tn (nlp st) = tm hs 0;
  h_gap : forall i, (i <= nst st)%nat -> 0 < (tm hs i - tm hs (S i)) * hh st;
  h_size : forall i a, nth_error (steps (tr st)) i = Some a -> tm hs i - tm hs (S i) = a_h a;
  h_psi : forall i, (i < kk st)%nat -> vget (psi st) i = tm hs 0 - tm hs (S i);
  h_phi : forall j x, (j <= kused st + 1)%nat -> (j <= maxord st)%nat -> (x < n)%nat ->
    vget (row (phi st) j) x = rprod j (fun l => tm hs 0 - tm hs (S l)) * dd (tm hs) (yv hs x) 0 j;
  h_kk : (kk st <= nst st + 1)%nat;
  h_ord : nst st <> 0%nat -> (kk st <= nst st /\ kused st <= nst st)%nat;
  h_big : nst st <> 0%nat -> Rabs (hh st) <= 2 * Rabs (hused st) }.

(** The latest [ns] steps have the size of the last one. *)
Definition const (hs : list (R * list R)) (st : state) : Prop :=
  (ns st <= nst st)%nat /\ forall i, (i < ns st)%nat -> tm hs i - tm hs (S i) = hused st.
(** The coefficient arrays are those of the last accepted step. *)
Definition full (hs : list (R * list R)) (st : state) : Prop :=
  (forall i, (i <= kused st)%nat -> vget (psi st) i = tm hs 0 - tm hs (S i)) /\
  coefs_for (kused st) (hused st) (psi st) (alpha st) (sigma st) (gamma st) /\
  (forall i, (i <= kused st)%nat ->
     vget (beta st) i = rprod i (fun l => (tm hs 0 - tm hs (S l)) / (tm hs 1 - tm hs (S (S l))))).
Definition nsok (hs : list (R * list R)) (st : state) : Prop :=
  (ns st <= 1)%nat \/ hh st <> hused st \/ kk st <> kused st \/ (const hs st /\ full hs st).

(** ** One attempt *)

Record acoef (hs : list (R * list R)) (st st1 : state) : Prop := mkacoef {
  ac_psi : forall i, (i <= kk st)%nat -> vget (psi st1) i = tm hs 0 + hh st - tm hs i;
  ac_coef : coefs_for (kk st) (hh st) (psi st1) (alpha st1) (sigma st1) (gamma st1);
  ac_beta : forall i, (i <= kk st)%nat ->
    vget (beta st1) i = rprod i (fun l => (tm hs 0 + hh st - tm hs l) / (tm hs 0 - tm hs (S l)));
  ac_phi : forall j x, (j <= kk st)%nat -> (x < n)%nat ->
    vget (row (phi st1) j) x = rprod j (fun l => tm hs 0 + hh st - tm hs l) * dd (tm hs) (yv hs x) 0 j;
  ac_rest : forall j, (kk st < j)%nat -> row (phi st1) j = row (phi st) j }.

Lemma old_psi hs st : hist hs st -> hh st <> 0 -> forall l, (l <= nst st)%nat -> tm hs 0 - tm hs (S l) <> 0.
Proof.
  intros Hh Hz l L. pose proof (gap_sign (tm hs) (hh st) (nst st) 0 l (h_gap _ _ Hh)) as G.
  cbn in G. specialize (G L). intros E. rewrite E in G. lra.
Qed.

Lemma new_psi hs st : hist hs st -> hh st <> 0 -> forall l, (l <= nst st + 1)%nat -> tm hs 0 + hh st - tm hs l <> 0.
Proof.
  intros Hh Hz l L. destruct l as [|l]; [intros E; apply Hz; lra|].
  pose proof (gap_sign (tm hs) (hh st) (nst st) 0 l (h_gap _ _ Hh)) as G.
  cbn in G. specialize (G ltac:(lia)). pose proof (sq_pos _ Hz). intros E.
  assert (tm hs 0 - tm hs (S l) = - hh st) by lra. rewrite H2 in G. nra.
Qed.

(** The recurrences of [set_coeffs] in closed form. *)
Lemma coeffs_closed k h ps ps1 be al sg ga : h <> 0 ->
  coeffs k h ps ps1 be al sg ga ->
  coefs_for k h ps1 al sg ga /\
  forall i, (i <= k)%nat -> vget be i = rprod i (fun l => vget ps1 l / vget ps l).
Proof.
  intros Hz (C0 & Cb & Ca & Cs & Cg & C & _).
  assert (Hal : forall i, (i <= k)%nat -> vget al i = h / vget ps1 i).
  { intros [|i] L.
    - rewrite Ca, C0. cbn [sone ScalarR]. field. exact Hz.
    - destruct (C (S i)) as (_ & _ & E & _); [lia|]. exact E. }
  split.
  - intros i. induction i as [|i IH]; intros L.
    + split; [apply Hal; lia|]. split; [rewrite Cs; cbn; ring|rewrite Cg; reflexivity].
    + destruct IH as (I1 & I2 & I3); [lia|].
      destruct (C (S i)) as (_ & _ & _ & E3 & E4); [lia|].
      replace (S i - 1)%nat with i in * by lia.
      split; [apply Hal; lia|]. split.
      * rewrite E3, I2, (Hal (S i)) by lia. cbn [smul sofnat ScalarR rprod].
        rewrite fact_simpl, mult_INR. ring.
      * rewrite E4, I3. cbn [rsum sadd ScalarR]. f_equal.
        rewrite (Hal i) by lia. cbn [sdiv ScalarR]. unfold Rdiv.
        rewrite Rmult_comm, <- Rmult_assoc, Rinv_l by exact Hz. ring.
  - induction i as [|i IH]; intros L; [rewrite Cb; reflexivity|].
    destruct (C (S i)) as (_ & E2 & _); [lia|]. replace (S i - 1)%nat with i in * by lia.
    rewrite E2, IH by lia. cbn [rprod smul sdiv ScalarR]. unfold Rdiv. ring.
Qed.

Lemma sneqb_R (a b : R) : sneqb a b = true <-> a <> b.
Proof.
  unfold sneqb. cbn [seqb ScalarR]. rewrite negb_true_iff. apply Reqb_false.
Qed.

(** The constant-step counter of the attempt. *)
Lemma ns_next_cases (st : state) :
  (ns_next st <= 1)%nat \/
  (hh st = hused st /\ kk st = kused st /\ (1 <= ns st)%nat /\ (ns_next st <= ns st + 1)%nat).
Proof.
  unfold ns_next. destruct (sneqb (hh st) (hused st)) eqn:E1; cbn [orb].
  - left. lia.
  - destruct (kk st =? kused st)%nat eqn:E2; cbn [negb orb]; [|left; lia].
    apply Nat.eqb_eq in E2. destruct (Req_EM_T (hh st) (hused st)) as [Eh|Eh].
    + destruct (ns st) as [|m] eqn:En; [left; lia|]. right. repeat split; try assumption; lia.
    + apply sneqb_R in Eh. congruence.
Qed.

Lemma attempt_coefs hs (st st1 : state) ck r :
  instep st -> hist hs st -> nsok hs st -> hh st <> 0 ->
  (forall a rest, steps (tr st) = a :: rest -> hused st = a_h a) ->
  (nst st <> 0%nat -> steps (tr st) <> []) ->
  tried prob st st1 ck r -> acoef hs st st1.
Proof.
  intros Hi Hh Hn Hz Hus Hne Ht.
  destruct (tr_coeffs _ _ _ _ _ Ht) as (K1 & K2 & K3 & K4 & K5).
  pose proof (is_kk _ Hi) as Hk1. pose proof (is_max _ Hi) as Hk2.
  pose proof (h_kk _ _ Hh) as Hkn.
  pose proof (old_psi _ _ Hh Hz) as Ho. pose proof (new_psi _ _ Hh Hz) as Hw.
  (* leading gaps of the size of the current step *)
  assert (Hc : forall l, (l < ns st1)%nat -> (2 <= ns st1)%nat -> l <> O ->
     tm hs 0 - tm hs l = INR l * hh st).
  { intros l L1 L2 L3. destruct (ns_next_cases st) as [X|(E1 & E2 & E3 & E4)]; [lia|].
    rewrite K1 in *.
    destruct Hn as [Hn|[Hn|[Hn|((N1 & N2) & _)]]]; try contradiction.
    - assert (l = 1%nat) by lia. subst l.
      destruct (steps (tr st)) as [|a rest] eqn:Es.
      + assert (nst st <> 0%nat).
        { intros Ez. destruct (is_zero _ Hi Ez). lia. }
        exfalso. apply Hne; auto.
      + pose proof (h_size _ _ Hh O a) as G. rewrite Es in G. specialize (G eq_refl).
        rewrite E1, (Hus a rest eq_refl). cbn [INR]. lra.
    - rewrite E1. apply (const_gaps (tm hs) (hused st) (ns st)); [exact N2|lia]. }
  assert (Hd : forall j, (j < ns st1)%nat -> (2 <= ns st1)%nat ->
     rprod j (fun l => tm hs 0 + hh st - tm hs l) = rprod j (fun l => tm hs 0 - tm hs (S l))).
  { intros j L1 L2. apply rprod_ext. intros l L.
    rewrite (Hc (S l)) by lia. destruct l as [|l].
    - cbn [INR]. lra.
    - replace (tm hs 0 + hh st - tm hs (S l)) with (hh st + (tm hs 0 - tm hs (S l))) by ring.
      rewrite (Hc (S l)) by lia. rewrite !S_INR. ring. }
  assert (Hd1 : forall j, (j < ns st1)%nat ->
     rprod j (fun l => tm hs 0 + hh st - tm hs l) = rprod j (fun l => tm hs 0 - tm hs (S l))).
  { intros j L. destruct (le_lt_dec 2 (ns st1)) as [L2|L2]; [apply Hd; assumption|].
    assert (j = O) by lia. subst j. reflexivity. }
  assert (Hphi : forall j x, (j <= kk st)%nat -> (x < n)%nat ->
     vget (row (phi st) j) x = rprod j (fun l => tm hs 0 - tm hs (S l)) * dd (tm hs) (yv hs x) 0 j).
  { intros j x Lj Lx. apply (h_phi _ _ Hh); [|lia|exact Lx].
    destruct (Nat.eq_dec (nst st) 0) as [E|E].
    - destruct (is_zero _ Hi E). lia.
    - destruct (is_pos _ Hi E). lia. }
  destruct (le_lt_dec (ns st1) (kk st + 1)) as [Hs|Hs].
  - (* recomputed *)
    specialize (K2 Hs). clear K3.
    destruct (coeffs_closed _ _ _ _ _ _ _ _ Hz K2) as (Q1 & Q2).
    assert (Hps : forall i, (i <= kk st)%nat -> vget (psi st1) i = tm hs 0 + hh st - tm hs i).
    { destruct K2 as (C0 & _ & _ & _ & _ & C & _). intros [|i] L.
      - rewrite C0. ring.
      - destruct (C (S i)) as (E & _); [lia|]. rewrite E. replace (S i - 1)%nat with i by lia.
        rewrite (h_psi _ _ Hh) by lia. cbn [sadd ScalarR]. ring. }
    assert (Hbe : forall i, (i <= kk st)%nat ->
       vget (beta st1) i = rprod i (fun l => (tm hs 0 + hh st - tm hs l) / (tm hs 0 - tm hs (S l)))).
    { intros i L. rewrite Q2 by lia. apply rprod_ext. intros l Ll.
      rewrite Hps, (h_psi _ _ Hh) by lia. reflexivity. }
    constructor; [exact Hps|exact Q1|exact Hbe| |].
    + intros j x Lj Lx. destruct (le_lt_dec (ns st1) j) as [L|L].
      * rewrite (K4 j) by lia. rewrite vget_vscale by exact Lx. cbn [smul ScalarR].
        rewrite (Hbe j Lj), (Hphi j x Lj Lx).
        rewrite (rprod_div j (fun l => tm hs 0 + hh st - tm hs l)) by (intros; apply Ho; lia).
        field. apply rprod_neq_0. intros; apply Ho; lia.
      * rewrite (K5 j) by lia. rewrite (Hphi j x Lj Lx), (Hd1 j L). reflexivity.
    + intros j L. apply K5. lia.
  - (* retained *)
    destruct (K3 Hs) as (E1 & E2 & E3 & E4 & E5). clear K2 K3.
    destruct (ns_next_cases st) as [X|(F1 & F2 & F3 & F4)]; [lia|].
    destruct Hn as [Hn|[Hn|[Hn|((N1 & N2) & M1 & M2 & M3)]]]; try contradiction; [lia|].
    assert (Hps : forall i, (i <= kk st)%nat -> vget (psi st1) i = tm hs 0 + hh st - tm hs i).
    { intros i L. rewrite E1, M1 by lia. rewrite (Hc (S i)) by lia. destruct i as [|i].
      - cbn [INR]. lra.
      - replace (tm hs 0 + hh st - tm hs (S i)) with (hh st + (tm hs 0 - tm hs (S i))) by ring.
        rewrite (Hc (S i)) by lia. rewrite !S_INR. ring. }
    constructor; [exact Hps| | | |].
    + rewrite E1, E3, E4, E5, F1, F2. exact M2.
    + intros i L. rewrite E2, M3 by lia. apply rprod_ext. intros l Ll.
      assert (A : tm hs 0 - tm hs (S l) = tm hs 1 - tm hs (S (S l))).
      { rewrite (Hc (S l)) by lia.
        replace (tm hs 1 - tm hs (S (S l))) with ((tm hs 0 - tm hs (S (S l))) - (tm hs 0 - tm hs 1)) by ring.
        rewrite F1. rewrite (const_gaps _ _ _ N2 (S (S l))), (const_gaps _ _ _ N2 1%nat) by lia.
        rewrite (S_INR (S l)). cbn [INR]. ring. }
      rewrite <- A.
      assert (B : tm hs 0 + hh st - tm hs l = tm hs 0 - tm hs (S l)).
      { rewrite <- Hps by lia. rewrite E1, M1 by lia. reflexivity. }
      rewrite B. reflexivity.
    + intros j x Lj Lx. rewrite (K5 j) by lia. rewrite (Hphi j x Lj Lx), (Hd1 j) by lia. reflexivity.
    + intros j L. apply K5. lia.
Qed.

(** Times of the history are different. *)
Lemma hist_distinct hs (st : state) : hist hs st -> hh st <> 0 -> distinct (nst st + 1) (tm hs).
Proof.
  intros Hh Hz i j Li Lj Hne E.
  assert (G : forall a b, (a < b)%nat -> (b <= nst st + 1)%nat -> tm hs a = tm hs b -> False).
  { intros a b La Lb Eab. pose proof (gap_sign (tm hs) (hh st) (nst st) a (b - a - 1) (h_gap _ _ Hh)) as G.
    specialize (G ltac:(lia)). replace (a + S (b - a - 1))%nat with b in G by lia. rewrite Eab in G. lra. }
  destruct (Nat.lt_total i j) as [L|[L|L]]; [apply (G i j); auto|lia|apply (G j i); auto].
Qed.

(** The predicted values. *)
Lemma predicted hs (st st1 : state) ck r : hist hs st -> hh st <> 0 ->
  acoef hs st st1 -> tried prob st st1 ck r -> forall x, (x < n)%nat ->
  vget (yypredict (nlp st1)) x = npoly (tm hs) (yv hs x) (kk st) (tm hs 0 + hh st) /\
  derivable_pt_lim (npoly (tm hs) (yv hs x) (kk st)) (tm hs 0 + hh st) (vget (yppredict (nlp st1)) x).
Proof.
  intros Hh Hz A Ht x Lx. pose proof (h_kk _ _ Hh) as Hkn. pose proof (new_psi _ _ Hh Hz) as Hw. split.
  - rewrite (tr_yyp _ _ _ _ _ Ht), vget_rowsum by exact Lx. unfold npoly.
    replace (kk st + 1)%nat with (S (kk st)) by lia. apply rsum_ext. intros j L.
    apply (ac_phi _ _ _ A); [lia|exact Lx].
  - rewrite (tr_ypp _ _ _ _ _ Ht), vget_rowcomb1 by exact Lx.
    replace (rsum (kk st) _) with
      (rsum (S (kk st)) (fun j => rprod j (fun l => tm hs 0 + hh st - tm hs l) *
          rsum j (fun l => / (tm hs 0 + hh st - tm hs l)) * dd (tm hs) (yv hs x) 0 j)).
    + apply npoly_der. intros l L. apply Hw. lia.
    + rewrite rsum_first. cbn [rsum rprod]. rewrite Rmult_0_r, Rmult_0_l, Rplus_0_l.
      apply rsum_ext. intros j L.
      destruct (ac_coef _ _ _ A (S j)) as (_ & _ & G); [lia|]. rewrite G.
      rewrite (ac_phi _ _ _ A (S j)) by (try exact Lx; lia).
      assert (E : rsum (S j) (fun l => / vget (psi st1) l) =
                  rsum (S j) (fun l => / (tm hs 0 + hh st - tm hs l))).
      { apply rsum_ext. intros l Ll. rewrite (ac_psi _ _ _ A) by lia. reflexivity. }
      rewrite E. cbn [rsum rprod]. ring.
Qed.

(** A failed attempt is undone. *)
Lemma restored_hist hs (st st1 : state) ck r ps ph :
  instep st -> hist hs st -> hh st <> 0 -> acoef hs st st1 -> tried prob st st1 ck r ->
  restored prob st1 ps ph ->
  (forall i, (i < kk st)%nat -> vget ps i = tm hs 0 - tm hs (S i)) /\
  (forall j x, (x < n)%nat -> vget (row ph j) x = vget (row (phi st) j) x).
Proof.
  intros Hi Hh Hz A Ht (_ & _ & R1 & _ & R3 & R4).
  pose proof (tr_ord _ _ _ _ _ Ht) as U1. pose proof (tr_h _ _ _ _ _ Ht) as U2. pinj.
  assert (Ek : kk st1 = kk st) by congruence. assert (Eh : hh st1 = hh st) by congruence.
  rewrite Ek in *.
  pose proof (h_kk _ _ Hh) as Hkn.
  pose proof (is_kk _ Hi) as Hk1. pose proof (is_max _ Hi) as Hk2.
  pose proof (old_psi _ _ Hh Hz) as Ho. pose proof (new_psi _ _ Hh Hz) as Hw.
  split.
  - intros i L. rewrite R1 by lia. rewrite (ac_psi _ _ _ A) by lia. rewrite Eh.
    replace (i + 1)%nat with (S i) by lia. cbn [ssub ScalarR]. ring.
  - intros j x Lx. destruct (tr_coeffs _ _ _ _ _ Ht) as (_ & _ & _ & _ & K5).
    destruct (le_lt_dec (ns st1) j) as [L1|L1]; [destruct (le_lt_dec j (kk st)) as [L2|L2]|].
    + rewrite R3 by lia. rewrite vget_vscale by exact Lx. cbn [smul srecip ScalarR].
      rewrite (ac_phi _ _ _ A), (ac_beta _ _ _ A) by (try exact Lx; lia).
      rewrite (h_phi _ _ Hh j x); [| |lia|exact Lx].
      2:{ destruct (Nat.eq_dec (nst st) 0) as [E|E]; [destruct (is_zero _ Hi E)|destruct (is_pos _ Hi E)]; lia. }
      rewrite (rprod_div j (fun l => tm hs 0 + hh st - tm hs l)) by (intros; apply Ho; lia).
      assert (rprod j (fun l => tm hs 0 - tm hs (S l)) <> 0) by (apply rprod_neq_0; intros; apply Ho; lia).
      assert (rprod j (fun l => tm hs 0 + hh st - tm hs l) <> 0) by (apply rprod_neq_0; intros; apply Hw; lia).
      unfold srecip. cbn [sdiv sone ScalarR]. field. auto.
    + rewrite R4, K5 by lia. reflexivity.
    + rewrite R4, K5 by lia. reflexivity.
Qed.

Lemma tm_cons p hs i : tm (p :: hs) i = consf (fst p) (tm hs) i.
Proof. destruct i; reflexivity. Qed.
Lemma yv_cons p hs x i : yv (p :: hs) x i = consf (vget (snd p) x) (yv hs x) i.
Proof. destruct i; reflexivity. Qed.

Lemma next_big hi h h' : h <> 0 -> Rabs h * hi <= 1 -> next_size hi h h' -> Rabs h' <= 2 * Rabs h.
Proof.
  intros Hz Hb [-> |[(_ & ->)|[(B1 & B2 & _)|(q & Hq & ->)]]].
  - pose proof (Rabs_pos h). lra.
  - rewrite Rabs_mult, (Rabs_pos_eq 2) by lra. lra.
  - assert (hi <> 0) by (intros ->; lra). rewrite Rabs_mult, (Rabs_pos_eq 2) in B1 by lra.
    assert (0 < hi). { pose proof (Rabs_pos h'). destruct (Rtotal_order hi 0) as [L|[L|L]]; [nra|lra|lra]. }
    nra.
  - rewrite Rabs_mult, (Rabs_pos_eq q) by lra. pose proof (Rabs_pos h). nra.
Qed.

(** An accepted attempt. *)
Lemma commit_hist hs (st st1 st2 : state) ck hi :
  instep st -> hist hs st -> nsok hs st -> hh st <> 0 ->
  (forall a rest, steps (tr st) = a :: rest -> hused st = a_h a) ->
  (nst st <> 0%nat -> steps (tr st) <> []) ->
  (phase st = 0%nat -> nst st <> 0%nat -> kk st = nst st) ->
  tn_next st = tm hs 0 + hh st ->
  tried prob st st1 ck (Ok tt) -> completed prob st1 st2 ->
  Rabs (hh st) * hi <= 1 -> next_h hi (hh st) (hh st2) ->
  let st' := st_commit prob ck st2 in
  let hs' := (tn_next st, yy (nlp st2)) :: hs in
  steps (tr st') = mkastep (tn_next st) (yy (nlp st2)) (hh st) (kk st) :: steps (tr st) ->
  hist hs' st' /\ ((ns st' <= 1)%nat \/ const hs' st' /\ full hs' st') /\
  (forall i, (i <= kused st')%nat -> vget (psi st') i = tm hs' 0 - tm hs' (S i)).
Proof.
  intros Hi Hh Hn Hz Hus Hne Hph Htn Ht Hcp Hb Hnx st' hs' Hst.
  pose proof (attempt_coefs hs st st1 ck _ Hi Hh Hn Hz Hus Hne Ht) as A.
  destruct (next_h_R _ _ _ Hz Hb Hnx) as (_ & _ & B3 & B4).
  pose proof (next_big _ _ _ Hz Hb B4) as B5.
  pose proof (is_kk _ Hi) as Hk1. pose proof (is_max _ Hi) as Hk2.
  pose proof (h_kk _ _ Hh) as Hkn. pose proof (new_psi _ _ Hh Hz) as Hw.
  pose proof (tr_ord _ _ _ _ _ Ht) as U1. pose proof (tr_h _ _ _ _ _ Ht) as U2.
  pose proof (tr_cnt _ _ _ _ _ Ht) as U3. pose proof (tr_cfg _ _ _ _ _ Ht) as U4.
  pose proof (cp_used _ _ _ Hcp) as V1. pose proof (cp_coef _ _ _ Hcp) as V2.
  pose proof (cp_keep _ _ _ Hcp) as V3. pose proof (cp_nlp _ _ _ Hcp) as V4.
  pose proof (cp_cfg _ _ _ Hcp) as V5. pose proof (tr_tn _ _ _ _ _ Ht) as U5.
  pose proof (cp_kk _ _ _ Hcp) as V6. pose proof (cp_row _ _ _ Hcp) as V7. pose proof (cp_row1 _ _ _ Hcp) as V8.
  destruct (tr_res _ _ _ _ _ Ht) as (Y1 & _).
  pose proof (tr_yyp _ _ _ _ _ Ht) as Y2.
  apply cfg_fields in U4. apply cfg_fields in V5.
  destruct U4 as (_ & _ & _ & _ & _ & _ & _ & U4 & _). destruct V5 as (_ & _ & _ & _ & _ & _ & _ & V5 & _).
  pinj.
  assert (Ek : kk st1 = kk st) by assumption. assert (Eh : hh st1 = hh st) by assumption.
  assert (En : nst st1 = nst st) by assumption.
  assert (Eph : phase st1 = phase st) by assumption.
  destruct (tr_coeffs _ _ _ _ _ Ht) as (Kn & _).
  rewrite Ek in *. rewrite Eh, En, Eph, U4 in *.
  (* fields of the new state *)
  assert (Fkk : kk st' = kk st2) by reflexivity. assert (Fhh : hh st' = hh st2) by reflexivity.
  assert (Fku : kused st' = kk st) by (change (kused st' = kk st); assumption).
  assert (Fhu : hused st' = hh st) by (change (hused st2 = hh st); assumption).
  assert (Fn : nst st' = (nst st + 1)%nat) by (change (nst st2 = (nst st + 1)%nat); assumption).
  assert (Fps : psi st' = psi st1) by (change (psi st2 = psi st1); assumption).
  assert (Fal : alpha st' = alpha st1) by (change (alpha st2 = alpha st1); assumption).
  assert (Fbe : beta st' = beta st1) by (change (beta st2 = beta st1); assumption).
  assert (Fsg : sigma st' = sigma st1) by (change (sigma st2 = sigma st1); assumption).
  assert (Fga : gamma st' = gamma st1) by (change (gamma st2 = gamma st1); assumption).
  assert (Fns : ns st' = ns_next st) by (change (ns st2 = ns_next st); congruence).
  assert (Fmx : maxord st' = maxord st) by (change (maxord st2 = maxord st); congruence).
  assert (Fph : phi st' = phi st2) by reflexivity.
  assert (Ftn : tn (nlp st') = tn_next st) by (change (tn (nlp st2) = tn_next st); congruence).
  assert (Eyy : yy (nlp st2) = vadd n (rowsum prob (phi st1) (kk st + 1)) (ee st1)) by (rewrite V4, Y1, Y2; reflexivity).
  assert (Epsi : forall i, (i <= kk st)%nat -> vget (psi st') i = tm hs' 0 - tm hs' (S i)).
  { intros i L. rewrite Fps, (ac_psi _ _ _ A i L). unfold hs'. rewrite !tm_cons. cbn [consf fst]. rewrite Htn. ring. }
  assert (Hcon : (2 <= ns_next st)%nat -> hh st = hused st /\ kk st = kused st /\ (ns_next st <= ns st + 1)%nat /\
     nst st <> 0%nat /\ ((ns st = 1)%nat \/ const hs st)).
  { intros L2. destruct (ns_next_cases st) as [X|(E1 & E2 & E3 & E4)]; [lia|].
    split; [exact E1|]. split; [exact E2|]. split; [exact E4|].
    split; [intros Ez; destruct (is_zero _ Hi Ez); lia|].
    destruct Hn as [Hn|[Hn|[Hn|(Hn & _)]]]; try contradiction; [left; lia|right; exact Hn]. }
  assert (Hnew : (2 <= ns_next st)%nat -> (ns_next st <= nst st + 1)%nat /\
     forall i, (i < ns_next st)%nat -> tm hs' i - tm hs' (S i) = hh st).
  { intros L2. destruct (Hcon L2) as (E1 & E2 & E3 & E4 & E5).
    split; [destruct E5 as [E5|(E5 & _)]; lia|].
    intros i Li. unfold hs'. rewrite !tm_cons. destruct i as [|i]; cbn [consf fst]; [rewrite Htn; ring|].
    destruct E5 as [E5|(_ & E5)]; [|rewrite E1; apply E5; lia].
    assert (i = O) by lia. subst i.
    destruct (steps (tr st)) as [|a rest] eqn:Es; [exfalso; apply Hne; auto|].
    rewrite (h_size _ _ Hh O a) by (rewrite Es; reflexivity). rewrite E1. symmetry. apply (Hus a rest eq_refl). }
  split; [|split].
  - constructor.
    + rewrite Ftn. reflexivity.
    + rewrite Fn, Fhh. intros [|i] L; unfold hs'; rewrite !tm_cons; cbn [consf fst].
      * rewrite Htn. replace (tm hs 0 + hh st - tm hs 0) with (hh st) by ring. lra.
      * assert (G : 0 < (tm hs i - tm hs (S i)) * hh st) by (apply (h_gap _ _ Hh); lia).
        destruct (same_sign_cases _ _ B3) as [(?&?)|(?&?)], (same_sign_cases _ _ G) as [(?&?)|(?&?)]; try lra; nra.
    + intros i a. rewrite Hst. destruct i as [|i]; cbn [nth_error].
      * intros E. injection E as <-. cbn [a_h]. unfold hs'. rewrite !tm_cons. cbn [consf fst]. rewrite Htn. ring.
      * intros E. unfold hs'. rewrite !tm_cons. cbn [consf]. apply (h_size _ _ Hh). exact E.
    + intros i L. apply Epsi. rewrite Fkk in L. lia.
    + rewrite Fku, Fmx, Fph. intros j x L1 L2 Lx.
      set (x1 := tm hs 0 + hh st) in *. set (v := vget (yy (nlp st2)) x).
      pose proof (remainder (tm hs) (yv hs x) x1 v j) as Rm.
      assert (Rm' := Rm ltac:(intros l Ll; apply Hw; lia)). clear Rm.
      assert (Er : rprod j (fun l => tm hs' 0 - tm hs' (S l)) = rprod j (fun l => x1 - tm hs l)).
      { apply rprod_ext. intros l _. unfold hs'. rewrite !tm_cons. cbn [consf fst]. rewrite Htn. reflexivity. }
      assert (Ed : dd (tm hs') (yv hs' x) 0 j = dd (consf x1 (tm hs)) (consf v (yv hs x)) 0 j).
      { apply (dd_ext _ _ _ _ 0 0 j 0). intros l _. unfold hs'. rewrite tm_cons, yv_cons. cbn [fst snd].
        rewrite Htn. split; reflexivity. }
      rewrite Er, Ed.
      assert (Ev : v = rsum (kk st + 1) (fun i => vget (row (phi st1) i) x) + vget (ee st1) x).
      { unfold v. rewrite Eyy, vget_vadd, vget_rowsum by exact Lx. reflexivity. }
      assert (Es : rsum j (fun i => rprod i (fun l => x1 - tm hs l) * dd (tm hs) (yv hs x) 0 i) =
                   rsum j (fun i => vget (row (phi st1) i) x)).
      { apply rsum_ext. intros i Li. rewrite (ac_phi _ _ _ A) by (try exact Lx; lia). reflexivity. }
      rewrite Es in Rm'.
      assert (Ef : rsum (kk st + 1) (fun i => vget (row (phi st1) i) x) =
                   rsum j (fun i => vget (row (phi st1) i) x) +
                   rsum (kk st + 1 - j) (fun i => vget (row (phi st1) (j + i)) x)).
      { rewrite <- rsum_split. f_equal. lia. }
      destruct (le_lt_dec j (kk st)) as [Lj|Lj].
      * rewrite V7 by lia. rewrite vget_tailsum by exact Lx. lra.
      * assert (j = (kk st + 1)%nat) by lia. subst j. rewrite V8 by lia.
        rewrite Nat.sub_diag in Ef. cbn [rsum] in Ef. lra.
    + rewrite Fkk, Fn. destruct V6 as [V6|[(_ & V6)|(_ & V6 & _)]]; lia.
    + intros _. rewrite Fkk, Fku, Fn. split; [|lia].
      assert (kk st <= nst st + 1)%nat by lia.
      destruct V6 as [V6|[(_ & V6)|(_ & V6 & [(P1 & P2)|(P1 & _)])]]; [lia|lia| |].
      * specialize (Hph P1 ltac:(lia)). lia.
      * rewrite Kn in P1. destruct (Hnew ltac:(lia)) as (Q & _). lia.
    + intros _. rewrite Fhh, Fhu. exact B5.
  - rewrite Fns. destruct (le_lt_dec (ns_next st) 1) as [L|L]; [left; exact L|right].
    destruct (Hnew L) as (N1 & N2). split.
    + split; [rewrite Fns, Fn; exact N1|]. rewrite Fns, Fhu. exact N2.
    + split; [rewrite Fku; exact Epsi|]. split.
      * rewrite Fku, Fhu, Fps, Fal, Fsg, Fga. exact (ac_coef _ _ _ A).
      * rewrite Fku, Fbe. intros i Li. rewrite (ac_beta _ _ _ A i Li). apply rprod_ext. intros l _.
        unfold hs'. rewrite !tm_cons. cbn [consf fst]. rewrite Htn. reflexivity.
  - rewrite Fku. exact Epsi.
Qed.
End Hist.
