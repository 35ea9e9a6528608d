(** * InterpR: the values of [get_solution] as polynomials, over the reals *)
Require Import List Arith Bool Lia Reals Lra Psatz.
Import ListNotations.
Require Import Verif.Base Verif.Scalar Verif.ScalarR Verif.Norms Verif.Newton Verif.NewtonSpec Verif.IdaState
  Verif.IdaNls Verif.IdaCore Verif.IdaRoots Verif.IdaSolve Verif.BaseFacts Verif.NewtonFacts
  Verif.IdaFacts Verif.IdaLoops Verif.IdaStep Verif.IdaSpec Verif.IdaShell Verif.IdaReach Verif.IdaInv
  Verif.IdaLife Verif.IdaTrace Verif.RSum Verif.VecR Verif.PolyR Verif.IdaInterp Verif.IdaHist.
Open Scope R_scope.

(** The coefficients c_j are polynomials in t with derivatives d_j. *)
Lemma cdg_R (ps : list R) (tn0 : R) j : exists p, (length p <= j + 1)%nat /\
  forall t, cj_ ps (t - tn0) j = peval p t /\ derivable_pt_lim (peval p) t (dj_ ps (t - tn0) j).
Proof.
  induction j as [|j (p & Hp & IH)].
  - exists [1]. split; [cbn; lia|]. intros t. split; [cbn; ring|].
    change (dj_ ps (t - tn0) 0) with 0. apply (derivable_ext (fun _ => 1)); [intros z; cbn; ring|]. apply derivable_pt_lim_const.
  - set (g := fun t => snd (cdg ps (t - tn0) j)).
    assert (G : exists a, forall t, g t = (t - a) / vget ps j).
    { unfold g. destruct j as [|i].
      - exists tn0. intros t. reflexivity.
      - exists (tn0 - vget ps i). intros t. cbn [cdg]. destruct (cdg ps (t - tn0) i) as ((? & ?) & ?). cbn [snd].
        cbn [sadd sdiv ScalarR]. f_equal. ring. }
    destruct G as (a & G).
    exists (pscal (/ vget ps j) (pshift a p)).
    assert (E : forall t, peval (pscal (/ vget ps j) (pshift a p)) t = peval p t * g t).
    { intros t. rewrite peval_scal, peval_shift, G. unfold Rdiv. ring. }
    split; [rewrite length_pscal, length_pshift; lia|]. intros t. destruct (IH t) as (I1 & I2).
    unfold cj_, dj_ in *. cbn [cdg]. rewrite E. unfold g. destruct (cdg ps (t - tn0) j) as ((c & d) & gg) eqn:Ec. cbn [fst snd] in *.
    cbn [smul sadd sdiv ScalarR]. split; [rewrite I1; reflexivity|].
    apply (derivable_ext (fun t => peval p t * g t)); [intros z; symmetry; apply E|].
    replace (d * gg + c / vget ps j) with (d * g t + peval p t * (1 * / vget ps j)).
    2:{ unfold g. rewrite Ec, <- I1. cbn [snd]. unfold Rdiv. ring. }
    apply derivable_pt_lim_mult; [exact I2|].
    apply (derivable_ext (fun t => (t - a) * / vget ps j)); [intros z; rewrite G; reflexivity|].
    replace (1 * / vget ps j) with ((1 - 0) * / vget ps j + (t - a) * 0) by ring.
    apply (derivable_pt_lim_mult (fun t => t - a) (fun _ => / vget ps j)).
    + apply (derivable_pt_lim_minus id (fun _ => a)); [apply derivable_pt_lim_id|apply derivable_pt_lim_const].
    + apply derivable_pt_lim_const.
Qed.

Section Dense.
Context {LSt NSt : Type} `{LSolver R LSt} `{NLSolver R NSt}.
Variable prob : problem R.
Notation n := (model_size prob).
Notation state := (ida R LSt NSt).

Lemma vget_rowcf f ph lo k x : (x < n)%nat -> vget (rowcf prob f ph lo k) x = rsum k (fun j => f j * vget (row ph (lo + j)) x).
Proof.
  intros Lx. induction k as [|k IH]; [exact (vget_vzero n x)|]. cbn [rowcf rsum]. rewrite vget_vscaled_add by exact Lx.
  rewrite IH. reflexivity.
Qed.

Lemma interp_pol (st : state) x : (x < n)%nat -> exists p, (length p <= kord st + 1)%nat /\
  forall t, vget (interp_y prob st t) x = peval p t /\ derivable_pt_lim (peval p) t (vget (interp_yp prob st t) x).
Proof.
  intros Lx.
  assert (G : forall m, exists p, (length p <= m + 1)%nat /\ forall t,
    peval p t = rsum (S m) (fun j => cj_ (psi st) (t - tn (nlp st)) j * vget (row (phi st) j) x) /\
    derivable_pt_lim (peval p) t (rsum m (fun j => dj_ (psi st) (t - tn (nlp st)) (S j) * vget (row (phi st) (S j)) x))).
  { induction m as [|m (p & Hp & IH)].
    - exists [vget (row (phi st) 0) x]. split; [cbn; lia|]. intros t. split; [cbn; ring|].
      apply (derivable_ext (fun _ => vget (row (phi st) 0) x)); [intros z; cbn; ring|]. apply derivable_pt_lim_const.
    - destruct (cdg_R (psi st) (tn (nlp st)) (S m)) as (q & Hq & Q).
      exists (padd p (pscal (vget (row (phi st) (S m)) x) q)).
      split; [rewrite length_padd, length_pscal; lia|]. intros t. destruct (IH t) as (I1 & I2). destruct (Q t) as (Q1 & Q2).
      split.
      + rewrite peval_add, peval_scal, I1, <- Q1. cbn [rsum]. ring.
      + cbn [rsum]. apply (derivable_ext (fun s => peval p s + vget (row (phi st) (S m)) x * peval q s)).
        { intros z. rewrite peval_add, peval_scal. reflexivity. }
        apply derivable_pt_lim_plus; [exact I2|]. rewrite Rmult_comm. apply derivable_pt_lim_scal. exact Q2. }
  destruct (G (kord st)) as (p & Hp & P). exists p. split; [exact Hp|]. intros t. destruct (P t) as (P1 & P2).
  unfold interp_y, interp_yp. rewrite !vget_rowcf by exact Lx. rewrite Nat.add_1_r. split; [symmetry; exact P1|exact P2].
Qed.

(** At the current time the interpolant is the first row. *)
Lemma interp_now (st : state) x : (x < n)%nat -> vget (interp_y prob st (tn (nlp st))) x = vget (row (phi st) 0) x.
Proof.
  intros Lx. unfold interp_y. rewrite vget_rowcf by exact Lx. rewrite Nat.add_1_r, rsum_first.
  cbn [ssub ScalarR]. replace (tn (nlp st) - tn (nlp st)) with 0 by ring.
  rewrite rsum_0; [cbn; ring|]. intros i _.
  assert (E : cj_ (psi st) 0 (S i) = 0).
  { induction i as [|i IH].
    - unfold cj_. cbn. unfold Rdiv. ring.
    - unfold cj_ in *. cbn [cdg fst] in *. destruct (cdg (psi st) 0 i) as ((c & d) & g). cbn [fst snd smul ScalarR] in *. rewrite IH. ring. }
  rewrite E. ring.
Qed.

(** With psi and phi from a history it is the interpolating polynomial. *)
Lemma interp_npoly hs (st : state) : hist prob hs st -> hh st <> 0 -> nst st <> 0%nat ->
  kused st <> 0%nat -> (kused st <= maxord st)%nat ->
  (forall i, (i < kused st)%nat -> vget (psi st) i = tm hs 0 - tm hs (S i)) ->
  forall x t, (x < n)%nat -> vget (interp_y prob st t) x = npoly (tm hs) (yv hs x) (kused st) t.
Proof.
  intros Hh Hne Hz Hk Hm Hps x t Lx. unfold interp_y. rewrite vget_rowcf by exact Lx.
  assert (Ek : kord st = kused st). { unfold kord. apply Nat.eqb_neq in Hk. rewrite Hk. reflexivity. }
  rewrite Ek, Nat.add_1_r. unfold npoly. apply rsum_ext. intros j Lj.
  change (0 + j)%nat with j. rewrite (h_phi _ _ _ Hh) by lia. pose proof (h_ord _ _ _ Hh Hz) as (_ & Ho).
  assert (Hd : forall l, (l < j)%nat -> tm hs 0 - tm hs (S l) <> 0).
  { intros l Ll. apply (old_psi prob hs st Hh Hne). lia. }
  assert (G : forall m, (m <= kused st)%nat ->
    cj_ (psi st) (t - tn (nlp st))%sc m = rprod m (fun l => (t - tm hs l) / (tm hs 0 - tm hs (S l))) /\
    (forall u, (m < kused st)%nat -> u = snd (cdg (psi st) (t - tn (nlp st))%sc m) -> u = (t - tm hs m) / (tm hs 0 - tm hs (S m)))).
  { induction m as [|m IH]; intros Lm.
    - split; [reflexivity|]. intros u Lu ->. cbn [cdg snd]. rewrite Hps by lia. rewrite (h_now _ _ _ Hh). reflexivity.
    - destruct IH as (I1 & I2); [lia|]. unfold cj_ in *. cbn [cdg rprod]. rewrite <- I1.
      destruct (cdg (psi st) (t - tn (nlp st))%sc m) as ((c & d) & g) eqn:Ec. cbn [fst snd] in *. split.
      + cbn [smul ScalarR]. rewrite (I2 g) by (auto; lia). reflexivity.
      + intros u Lu ->. rewrite !Hps by lia. cbn [sadd sdiv ssub ScalarR]. rewrite (h_now _ _ _ Hh). f_equal. ring. }
  destruct (G j) as (G1 & _); [lia|]. rewrite G1, rprod_div by exact Hd.
  field. apply rprod_neq_0. exact Hd.
Qed.
End Dense.
