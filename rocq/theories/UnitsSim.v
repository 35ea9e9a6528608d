(** * UnitsSim: the integrator run on a problem and on the same problem in other
      units, side by side: the state in other units *)
Require Import List Arith Bool Reals Lia Lra.
Import ListNotations.
Require Import Verif.Base Verif.BaseFacts Verif.Scalar Verif.ScalarR Verif.RSum Verif.Dense Verif.Norms Verif.Newton
  Verif.IdaState Verif.IdaNls Verif.IdaCore Verif.IdaRoots Verif.IdaSolve Verif.IdaFacts Verif.IdaReach Verif.IdaStep Verif.IdaShell Verif.IdaInv Verif.IdaLife Verif.IdaStepR Verif.IdaCallR
  Verif.Units Verif.UnitsRel.
Open Scope R_scope.

(** What is asked of a linear solver: the matrix of the problem in other units
    has its columns divided by the units of the components and is multiplied
    from the left by the matrix that combines the equations.  [RF] relates the
    solver (and the factored matrix) in the two runs. *)
Record solver_in (u : units) (n : nat) {LSt} `{LSolver R LSt}
       (RF : LSt * mat R -> LSt * mat R -> Prop) : Prop := mksolver_in {
  si_new : RF (ls_new n, mkmat n n (fun _ _ => 0)) (ls_new n, mkmat n n (fun _ _ => 0));
  si_setup : forall s M s' M' f f',
    RF (s, M) (s', M') -> (forall i j, f' i j = / u_comp u j * comb n (u_mix u) (fun k => f k j) i) ->
    orel (fun x x' => (snd x = Ok tt <-> snd x' = Ok tt) /\ (snd x = Ok tt -> RF (fst x) (fst x')))
         (ls_setup s (mkmat n n f)) (ls_setup s' (mkmat n n f'));
  si_type : forall s M s' M', RF (s, M) (s', M') ->
    ls_type s' = ls_type s /\ ls_num_iters s' = ls_num_iters s /\
    (ls_type s = Direct \/ forall b, length b = n -> mv (u_mix u) b = sv (u_comp u) b);
  si_solve : forall s M s' M' b tol, RF (s, M) (s', M') -> length b = n ->
    orel (fun x x' => x' = (sv (u_comp u) (fst x), snd x))
         (ls_solve s M (vzero n) b tol) (ls_solve s' M' (vzero n) (mv (u_mix u) b) tol)
}.

Section Sim.
Variable u : units.
Context {LSt : Type} {LS : LSolver R LSt}.
Variable RF : LSt * mat R -> LSt * mat R -> Prop.
Variable nfuel : nat.
Local Instance NLS_U : NLSolver R (newton R) := NewtonNLS nfuel.
Variable prob : problem R.
Hypothesis Hu : units_ok (model_size prob) u.
Hypothesis Hs : solver_in u (model_size prob) RF.
Hypothesis Hn0 : (0 < model_size prob)%nat.
Variable gc : @config R.

Notation L := (u_time u).
Notation m := (u_comp u).
Notation mix := (u_mix u).
Notation dm := (fun i => u_comp u i * / u_time u).
Notation wm := (fun i => / Rabs (u_comp u i)).
Notation n := (model_size prob).
Notation nr := (num_roots prob).
Notation state := (ida R LSt (newton R)).
Notation prob' := (problem_in u prob).

Definition newton_in (s : newton R) : newton R :=
  mknewton (sv m (nw_delta s)) (nw_jcur s) (nw_curiter s) (nw_maxiters s) (nw_niters s) (nw_nconvfails s).

(** The history array; [b]: its second row still holds the initial derivative
    (before the first step has been chosen). *)
Definition phi_in (b : bool) (l : list (list R)) : list (list R) :=
  match b, l with
  | true, p0 :: p1 :: l => sv m p0 :: sv dm p1 :: map (sv m) l
  | _, _ => map (sv m) l
  end.

(** The problem structs and the integrator in the new units; [q] is the linear
    solver with its matrix. *)
Definition lp_in (q : LSt * mat R) (st : lprob R LSt) : lprob R LSt :=
  mklprob
    (fst q) (snd q) (sv m (lp_x st)) (lp_sqrtn st) (lp_eplifac st) (nje st) (nli st) (ncfl st)
    (nst0 st) (nni0 st) (ncfn0 st) (ncfl0 st) (nwarn st) ((cj st) * / L) ((cjold st) * / L)
    (cjratio st) (map (event_in u) (trace st)).

Definition nlp_in (q : LSt * mat R) (st : nlprob R LSt) : nlprob R LSt :=
  mknlprob
    (sv m (yy st)) (sv dm (yp st)) (sv m (yypredict st)) (sv dm (yppredict st)) (sv wm (ewt st))
    (mv mix (savres st)) (L * (tn st)) (ss st) (oldnrm st) (toldel st) (nre st)
    (nsetups st) (lp_in q (lp st)).

Definition st_in (b : bool) (q : LSt * mat R) (st : state) : state :=
  mkida
    (setup_done st) (constraints_set st) (suppressalg st) (phi_in b (phi st))
    (map (Rmult L) (psi st)) (alpha st) (beta st) (sigma st) (map (Rmult (/ L)) (gamma st))
    (sv m (delta st)) (idv st) (sv m (ee st)) (option_map (Rmult L) (tstop st)) (kk st)
    (kused st) (knew st) (phase st) (ns st) (L * (hin st)) (L * (h0u st)) (L * (hh st))
    (L * (hused st)) (rr st) (L * (tretlast st)) ((cjlast st) * / L) (eps_newt st) (epcon st)
    (maxncf st) (maxnef st) (maxord st) (mxstep st) ((hmax_inv st) * / Rabs L) (nst st)
    (ncfn st) (netf st) (nni st) (cvals st) (map (Rmult (/ L)) (dvals st)) (tolsf st) (nrtfn st)
    (iroots st) (rootdir st) (L * (tlo st)) (L * (thi st)) (L * (trout st)) (glo st) (ghi st)
    (grout st) (L * (toutc st)) (Rabs L * (ttol st)) (taskc st) (irfnd st) (nge st) (gactive st)
    (mxgnull st) (newton_in (nls st)) (nlp_in q (nlp st)).

Definition q_of (s : state) : LSt * mat R := (lp_ls (lp (nlp s)), lp_matj (lp (nlp s))).

(** The two runs correspond.  The test at src/lib.rs 655 compares a product of
    two times with one, so a stop time excludes a change of the time unit (but
    not a reversal). *)
Definition sim (b : bool) (s s' : state) : Prop :=
  exists q, s' = st_in b q s /\ RF (q_of s) q.

Lemma HL : L <> 0. Proof. apply Hu. Qed.
Lemma Hm i : m i <> 0. Proof. apply Hu. Qed.
Lemma HL2 : 0 < L * L. Proof. pose proof HL. nra. Qed.
Lemma HLa : 0 < Rabs L. Proof. apply Rabs_pos_lt, HL. Qed.
Lemma Linv : L * / L = 1. Proof. apply Rinv_r, HL. Qed.
Lemma Linv' : / L * L = 1. Proof. apply Rinv_l, HL. Qed.
Lemma iL : / L <> 0. Proof. apply Rinv_neq_0_compat, HL. Qed.
Lemma norm_ok i : (m i * / Rabs (m i)) * (m i * / Rabs (m i)) = 1.
Proof.
  pose proof (Hm i) as H. replace (m i * / Rabs (m i) * (m i * / Rabs (m i)))
    with (m i * m i * / (Rabs (m i) * Rabs (m i))) by (rewrite Rinv_mult; ring).
  rewrite <- Rabs_mult, Rabs_right by nra. apply Rinv_r. nra.
Qed.
Lemma s_setup_done b s s' : sim b s s' -> setup_done s' = setup_done s.
Proof. intros (q & -> & _). reflexivity. Qed.
Lemma s_constraints_set b s s' : sim b s s' -> constraints_set s' = constraints_set s.
Proof. intros (q & -> & _). reflexivity. Qed.
Lemma s_suppressalg b s s' : sim b s s' -> suppressalg s' = suppressalg s.
Proof. intros (q & -> & _). reflexivity. Qed.
Lemma s_phi b s s' : sim b s s' -> phi s' = phi_in b (phi s).
Proof. intros (q & -> & _). reflexivity. Qed.
Lemma s_psi b s s' : sim b s s' -> psi s' = map (Rmult L) (psi s).
Proof. intros (q & -> & _). reflexivity. Qed.
Lemma s_alpha b s s' : sim b s s' -> alpha s' = alpha s.
Proof. intros (q & -> & _). reflexivity. Qed.
Lemma s_beta b s s' : sim b s s' -> beta s' = beta s.
Proof. intros (q & -> & _). reflexivity. Qed.
Lemma s_sigma b s s' : sim b s s' -> sigma s' = sigma s.
Proof. intros (q & -> & _). reflexivity. Qed.
Lemma s_gamma b s s' : sim b s s' -> gamma s' = map (Rmult (/ L)) (gamma s).
Proof. intros (q & -> & _). reflexivity. Qed.
Lemma s_delta b s s' : sim b s s' -> delta s' = sv m (delta s).
Proof. intros (q & -> & _). reflexivity. Qed.
Lemma s_idv b s s' : sim b s s' -> idv s' = idv s.
Proof. intros (q & -> & _). reflexivity. Qed.
Lemma s_ee b s s' : sim b s s' -> ee s' = sv m (ee s).
Proof. intros (q & -> & _). reflexivity. Qed.
Lemma s_tstop b s s' : sim b s s' -> tstop s' = option_map (Rmult L) (tstop s).
Proof. intros (q & -> & _). reflexivity. Qed.
Lemma s_kk b s s' : sim b s s' -> kk s' = kk s.
Proof. intros (q & -> & _). reflexivity. Qed.
Lemma s_kused b s s' : sim b s s' -> kused s' = kused s.
Proof. intros (q & -> & _). reflexivity. Qed.
Lemma s_knew b s s' : sim b s s' -> knew s' = knew s.
Proof. intros (q & -> & _). reflexivity. Qed.
Lemma s_phase b s s' : sim b s s' -> phase s' = phase s.
Proof. intros (q & -> & _). reflexivity. Qed.
Lemma s_ns b s s' : sim b s s' -> ns s' = ns s.
Proof. intros (q & -> & _). reflexivity. Qed.
Lemma s_hin b s s' : sim b s s' -> hin s' = L * (hin s).
Proof. intros (q & -> & _). reflexivity. Qed.
Lemma s_h0u b s s' : sim b s s' -> h0u s' = L * (h0u s).
Proof. intros (q & -> & _). reflexivity. Qed.
Lemma s_hh b s s' : sim b s s' -> hh s' = L * (hh s).
Proof. intros (q & -> & _). reflexivity. Qed.
Lemma s_hused b s s' : sim b s s' -> hused s' = L * (hused s).
Proof. intros (q & -> & _). reflexivity. Qed.
Lemma s_rr b s s' : sim b s s' -> rr s' = rr s.
Proof. intros (q & -> & _). reflexivity. Qed.
Lemma s_tretlast b s s' : sim b s s' -> tretlast s' = L * (tretlast s).
Proof. intros (q & -> & _). reflexivity. Qed.
Lemma s_cjlast b s s' : sim b s s' -> cjlast s' = (cjlast s) * / L.
Proof. intros (q & -> & _). reflexivity. Qed.
Lemma s_eps_newt b s s' : sim b s s' -> eps_newt s' = eps_newt s.
Proof. intros (q & -> & _). reflexivity. Qed.
Lemma s_epcon b s s' : sim b s s' -> epcon s' = epcon s.
Proof. intros (q & -> & _). reflexivity. Qed.
Lemma s_maxncf b s s' : sim b s s' -> maxncf s' = maxncf s.
Proof. intros (q & -> & _). reflexivity. Qed.
Lemma s_maxnef b s s' : sim b s s' -> maxnef s' = maxnef s.
Proof. intros (q & -> & _). reflexivity. Qed.
Lemma s_maxord b s s' : sim b s s' -> maxord s' = maxord s.
Proof. intros (q & -> & _). reflexivity. Qed.
Lemma s_mxstep b s s' : sim b s s' -> mxstep s' = mxstep s.
Proof. intros (q & -> & _). reflexivity. Qed.
Lemma s_hmax_inv b s s' : sim b s s' -> hmax_inv s' = (hmax_inv s) * / Rabs L.
Proof. intros (q & -> & _). reflexivity. Qed.
Lemma s_nst b s s' : sim b s s' -> nst s' = nst s.
Proof. intros (q & -> & _). reflexivity. Qed.
Lemma s_ncfn b s s' : sim b s s' -> ncfn s' = ncfn s.
Proof. intros (q & -> & _). reflexivity. Qed.
Lemma s_netf b s s' : sim b s s' -> netf s' = netf s.
Proof. intros (q & -> & _). reflexivity. Qed.
Lemma s_nni b s s' : sim b s s' -> nni s' = nni s.
Proof. intros (q & -> & _). reflexivity. Qed.
Lemma s_cvals b s s' : sim b s s' -> cvals s' = cvals s.
Proof. intros (q & -> & _). reflexivity. Qed.
Lemma s_dvals b s s' : sim b s s' -> dvals s' = map (Rmult (/ L)) (dvals s).
Proof. intros (q & -> & _). reflexivity. Qed.
Lemma s_tolsf b s s' : sim b s s' -> tolsf s' = tolsf s.
Proof. intros (q & -> & _). reflexivity. Qed.
Lemma s_nrtfn b s s' : sim b s s' -> nrtfn s' = nrtfn s.
Proof. intros (q & -> & _). reflexivity. Qed.
Lemma s_iroots b s s' : sim b s s' -> iroots s' = iroots s.
Proof. intros (q & -> & _). reflexivity. Qed.
Lemma s_rootdir b s s' : sim b s s' -> rootdir s' = rootdir s.
Proof. intros (q & -> & _). reflexivity. Qed.
Lemma s_tlo b s s' : sim b s s' -> tlo s' = L * (tlo s).
Proof. intros (q & -> & _). reflexivity. Qed.
Lemma s_thi b s s' : sim b s s' -> thi s' = L * (thi s).
Proof. intros (q & -> & _). reflexivity. Qed.
Lemma s_trout b s s' : sim b s s' -> trout s' = L * (trout s).
Proof. intros (q & -> & _). reflexivity. Qed.
Lemma s_glo b s s' : sim b s s' -> glo s' = glo s.
Proof. intros (q & -> & _). reflexivity. Qed.
Lemma s_ghi b s s' : sim b s s' -> ghi s' = ghi s.
Proof. intros (q & -> & _). reflexivity. Qed.
Lemma s_grout b s s' : sim b s s' -> grout s' = grout s.
Proof. intros (q & -> & _). reflexivity. Qed.
Lemma s_toutc b s s' : sim b s s' -> toutc s' = L * (toutc s).
Proof. intros (q & -> & _). reflexivity. Qed.
Lemma s_ttol b s s' : sim b s s' -> ttol s' = Rabs L * (ttol s).
Proof. intros (q & -> & _). reflexivity. Qed.
Lemma s_taskc b s s' : sim b s s' -> taskc s' = taskc s.
Proof. intros (q & -> & _). reflexivity. Qed.
Lemma s_irfnd b s s' : sim b s s' -> irfnd s' = irfnd s.
Proof. intros (q & -> & _). reflexivity. Qed.
Lemma s_nge b s s' : sim b s s' -> nge s' = nge s.
Proof. intros (q & -> & _). reflexivity. Qed.
Lemma s_gactive b s s' : sim b s s' -> gactive s' = gactive s.
Proof. intros (q & -> & _). reflexivity. Qed.
Lemma s_mxgnull b s s' : sim b s s' -> mxgnull s' = mxgnull s.
Proof. intros (q & -> & _). reflexivity. Qed.
Lemma s_nls b s s' : sim b s s' -> nls s' = newton_in (nls s).
Proof. intros (q & -> & _). reflexivity. Qed.
Lemma s_yy b s s' : sim b s s' -> yy (nlp s') = sv m (yy (nlp s)).
Proof. intros (q & -> & _). reflexivity. Qed.
Lemma s_yp b s s' : sim b s s' -> yp (nlp s') = sv dm (yp (nlp s)).
Proof. intros (q & -> & _). reflexivity. Qed.
Lemma s_yypredict b s s' : sim b s s' -> yypredict (nlp s') = sv m (yypredict (nlp s)).
Proof. intros (q & -> & _). reflexivity. Qed.
Lemma s_yppredict b s s' : sim b s s' -> yppredict (nlp s') = sv dm (yppredict (nlp s)).
Proof. intros (q & -> & _). reflexivity. Qed.
Lemma s_ewt b s s' : sim b s s' -> ewt (nlp s') = sv wm (ewt (nlp s)).
Proof. intros (q & -> & _). reflexivity. Qed.
Lemma s_savres b s s' : sim b s s' -> savres (nlp s') = mv mix (savres (nlp s)).
Proof. intros (q & -> & _). reflexivity. Qed.
Lemma s_tn b s s' : sim b s s' -> tn (nlp s') = L * (tn (nlp s)).
Proof. intros (q & -> & _). reflexivity. Qed.
Lemma s_ss b s s' : sim b s s' -> ss (nlp s') = ss (nlp s).
Proof. intros (q & -> & _). reflexivity. Qed.
Lemma s_oldnrm b s s' : sim b s s' -> oldnrm (nlp s') = oldnrm (nlp s).
Proof. intros (q & -> & _). reflexivity. Qed.
Lemma s_toldel b s s' : sim b s s' -> toldel (nlp s') = toldel (nlp s).
Proof. intros (q & -> & _). reflexivity. Qed.
Lemma s_nre b s s' : sim b s s' -> nre (nlp s') = nre (nlp s).
Proof. intros (q & -> & _). reflexivity. Qed.
Lemma s_nsetups b s s' : sim b s s' -> nsetups (nlp s') = nsetups (nlp s).
Proof. intros (q & -> & _). reflexivity. Qed.
Lemma s_lp_x b s s' : sim b s s' -> lp_x (lp (nlp s')) = sv m (lp_x (lp (nlp s))).
Proof. intros (q & -> & _). reflexivity. Qed.
Lemma s_lp_sqrtn b s s' : sim b s s' -> lp_sqrtn (lp (nlp s')) = lp_sqrtn (lp (nlp s)).
Proof. intros (q & -> & _). reflexivity. Qed.
Lemma s_lp_eplifac b s s' : sim b s s' -> lp_eplifac (lp (nlp s')) = lp_eplifac (lp (nlp s)).
Proof. intros (q & -> & _). reflexivity. Qed.
Lemma s_nje b s s' : sim b s s' -> nje (lp (nlp s')) = nje (lp (nlp s)).
Proof. intros (q & -> & _). reflexivity. Qed.
Lemma s_nli b s s' : sim b s s' -> nli (lp (nlp s')) = nli (lp (nlp s)).
Proof. intros (q & -> & _). reflexivity. Qed.
Lemma s_ncfl b s s' : sim b s s' -> ncfl (lp (nlp s')) = ncfl (lp (nlp s)).
Proof. intros (q & -> & _). reflexivity. Qed.
Lemma s_nst0 b s s' : sim b s s' -> nst0 (lp (nlp s')) = nst0 (lp (nlp s)).
Proof. intros (q & -> & _). reflexivity. Qed.
Lemma s_nni0 b s s' : sim b s s' -> nni0 (lp (nlp s')) = nni0 (lp (nlp s)).
Proof. intros (q & -> & _). reflexivity. Qed.
Lemma s_ncfn0 b s s' : sim b s s' -> ncfn0 (lp (nlp s')) = ncfn0 (lp (nlp s)).
Proof. intros (q & -> & _). reflexivity. Qed.
Lemma s_ncfl0 b s s' : sim b s s' -> ncfl0 (lp (nlp s')) = ncfl0 (lp (nlp s)).
Proof. intros (q & -> & _). reflexivity. Qed.
Lemma s_nwarn b s s' : sim b s s' -> nwarn (lp (nlp s')) = nwarn (lp (nlp s)).
Proof. intros (q & -> & _). reflexivity. Qed.
Lemma s_cj b s s' : sim b s s' -> cj (lp (nlp s')) = (cj (lp (nlp s))) * / L.
Proof. intros (q & -> & _). reflexivity. Qed.
Lemma s_cjold b s s' : sim b s s' -> cjold (lp (nlp s')) = (cjold (lp (nlp s))) * / L.
Proof. intros (q & -> & _). reflexivity. Qed.
Lemma s_cjratio b s s' : sim b s s' -> cjratio (lp (nlp s')) = cjratio (lp (nlp s)).
Proof. intros (q & -> & _). reflexivity. Qed.
Lemma s_trace b s s' : sim b s s' -> trace (lp (nlp s')) = map (event_in u) (trace (lp (nlp s))).
Proof. intros (q & -> & _). reflexivity. Qed.

Lemma p_setup_done b s s' v v' : sim b s s' -> v' = v -> sim b (set_setup_done v s) (set_setup_done v' s').
Proof. intros (q & -> & H) ->. exists q. split; [reflexivity|exact H]. Qed.
Lemma p_constraints_set b s s' v v' : sim b s s' -> v' = v -> sim b (set_constraints_set v s) (set_constraints_set v' s').
Proof. intros (q & -> & H) ->. exists q. split; [reflexivity|exact H]. Qed.
Lemma p_suppressalg b s s' v v' : sim b s s' -> v' = v -> sim b (set_suppressalg v s) (set_suppressalg v' s').
Proof. intros (q & -> & H) ->. exists q. split; [reflexivity|exact H]. Qed.
Lemma p_psi b s s' v v' : sim b s s' -> v' = map (Rmult L) v -> sim b (set_psi v s) (set_psi v' s').
Proof. intros (q & -> & H) ->. exists q. split; [reflexivity|exact H]. Qed.
Lemma p_alpha b s s' v v' : sim b s s' -> v' = v -> sim b (set_alpha v s) (set_alpha v' s').
Proof. intros (q & -> & H) ->. exists q. split; [reflexivity|exact H]. Qed.
Lemma p_beta b s s' v v' : sim b s s' -> v' = v -> sim b (set_beta v s) (set_beta v' s').
Proof. intros (q & -> & H) ->. exists q. split; [reflexivity|exact H]. Qed.
Lemma p_sigma b s s' v v' : sim b s s' -> v' = v -> sim b (set_sigma v s) (set_sigma v' s').
Proof. intros (q & -> & H) ->. exists q. split; [reflexivity|exact H]. Qed.
Lemma p_gamma b s s' v v' : sim b s s' -> v' = map (Rmult (/ L)) v -> sim b (set_gamma v s) (set_gamma v' s').
Proof. intros (q & -> & H) ->. exists q. split; [reflexivity|exact H]. Qed.
Lemma p_delta b s s' v v' : sim b s s' -> v' = sv m v -> sim b (set_delta v s) (set_delta v' s').
Proof. intros (q & -> & H) ->. exists q. split; [reflexivity|exact H]. Qed.
Lemma p_idv b s s' v v' : sim b s s' -> v' = v -> sim b (set_idv v s) (set_idv v' s').
Proof. intros (q & -> & H) ->. exists q. split; [reflexivity|exact H]. Qed.
Lemma p_ee b s s' v v' : sim b s s' -> v' = sv m v -> sim b (set_ee v s) (set_ee v' s').
Proof. intros (q & -> & H) ->. exists q. split; [reflexivity|exact H]. Qed.
Lemma p_kk b s s' v v' : sim b s s' -> v' = v -> sim b (set_kk v s) (set_kk v' s').
Proof. intros (q & -> & H) ->. exists q. split; [reflexivity|exact H]. Qed.
Lemma p_kused b s s' v v' : sim b s s' -> v' = v -> sim b (set_kused v s) (set_kused v' s').
Proof. intros (q & -> & H) ->. exists q. split; [reflexivity|exact H]. Qed.
Lemma p_knew b s s' v v' : sim b s s' -> v' = v -> sim b (set_knew v s) (set_knew v' s').
Proof. intros (q & -> & H) ->. exists q. split; [reflexivity|exact H]. Qed.
Lemma p_phase b s s' v v' : sim b s s' -> v' = v -> sim b (set_phase v s) (set_phase v' s').
Proof. intros (q & -> & H) ->. exists q. split; [reflexivity|exact H]. Qed.
Lemma p_ns b s s' v v' : sim b s s' -> v' = v -> sim b (set_ns v s) (set_ns v' s').
Proof. intros (q & -> & H) ->. exists q. split; [reflexivity|exact H]. Qed.
Lemma p_hin b s s' v v' : sim b s s' -> v' = L * v -> sim b (set_hin v s) (set_hin v' s').
Proof. intros (q & -> & H) ->. exists q. split; [reflexivity|exact H]. Qed.
Lemma p_h0u b s s' v v' : sim b s s' -> v' = L * v -> sim b (set_h0u v s) (set_h0u v' s').
Proof. intros (q & -> & H) ->. exists q. split; [reflexivity|exact H]. Qed.
Lemma p_hh b s s' v v' : sim b s s' -> v' = L * v -> sim b (set_hh v s) (set_hh v' s').
Proof. intros (q & -> & H) ->. exists q. split; [reflexivity|exact H]. Qed.
Lemma p_hused b s s' v v' : sim b s s' -> v' = L * v -> sim b (set_hused v s) (set_hused v' s').
Proof. intros (q & -> & H) ->. exists q. split; [reflexivity|exact H]. Qed.
Lemma p_rr b s s' v v' : sim b s s' -> v' = v -> sim b (set_rr v s) (set_rr v' s').
Proof. intros (q & -> & H) ->. exists q. split; [reflexivity|exact H]. Qed.
Lemma p_tretlast b s s' v v' : sim b s s' -> v' = L * v -> sim b (set_tretlast v s) (set_tretlast v' s').
Proof. intros (q & -> & H) ->. exists q. split; [reflexivity|exact H]. Qed.
Lemma p_cjlast b s s' v v' : sim b s s' -> v' = v * / L -> sim b (set_cjlast v s) (set_cjlast v' s').
Proof. intros (q & -> & H) ->. exists q. split; [reflexivity|exact H]. Qed.
Lemma p_eps_newt b s s' v v' : sim b s s' -> v' = v -> sim b (set_eps_newt v s) (set_eps_newt v' s').
Proof. intros (q & -> & H) ->. exists q. split; [reflexivity|exact H]. Qed.
Lemma p_epcon b s s' v v' : sim b s s' -> v' = v -> sim b (set_epcon v s) (set_epcon v' s').
Proof. intros (q & -> & H) ->. exists q. split; [reflexivity|exact H]. Qed.
Lemma p_maxncf b s s' v v' : sim b s s' -> v' = v -> sim b (set_maxncf v s) (set_maxncf v' s').
Proof. intros (q & -> & H) ->. exists q. split; [reflexivity|exact H]. Qed.
Lemma p_maxnef b s s' v v' : sim b s s' -> v' = v -> sim b (set_maxnef v s) (set_maxnef v' s').
Proof. intros (q & -> & H) ->. exists q. split; [reflexivity|exact H]. Qed.
Lemma p_maxord b s s' v v' : sim b s s' -> v' = v -> sim b (set_maxord v s) (set_maxord v' s').
Proof. intros (q & -> & H) ->. exists q. split; [reflexivity|exact H]. Qed.
Lemma p_mxstep b s s' v v' : sim b s s' -> v' = v -> sim b (set_mxstep v s) (set_mxstep v' s').
Proof. intros (q & -> & H) ->. exists q. split; [reflexivity|exact H]. Qed.
Lemma p_hmax_inv b s s' v v' : sim b s s' -> v' = v * / Rabs L -> sim b (set_hmax_inv v s) (set_hmax_inv v' s').
Proof. intros (q & -> & H) ->. exists q. split; [reflexivity|exact H]. Qed.
Lemma p_nst b s s' v v' : sim b s s' -> v' = v -> sim b (set_nst v s) (set_nst v' s').
Proof. intros (q & -> & H) ->. exists q. split; [reflexivity|exact H]. Qed.
Lemma p_ncfn b s s' v v' : sim b s s' -> v' = v -> sim b (set_ncfn v s) (set_ncfn v' s').
Proof. intros (q & -> & H) ->. exists q. split; [reflexivity|exact H]. Qed.
Lemma p_netf b s s' v v' : sim b s s' -> v' = v -> sim b (set_netf v s) (set_netf v' s').
Proof. intros (q & -> & H) ->. exists q. split; [reflexivity|exact H]. Qed.
Lemma p_nni b s s' v v' : sim b s s' -> v' = v -> sim b (set_nni v s) (set_nni v' s').
Proof. intros (q & -> & H) ->. exists q. split; [reflexivity|exact H]. Qed.
Lemma p_cvals b s s' v v' : sim b s s' -> v' = v -> sim b (set_cvals v s) (set_cvals v' s').
Proof. intros (q & -> & H) ->. exists q. split; [reflexivity|exact H]. Qed.
Lemma p_dvals b s s' v v' : sim b s s' -> v' = map (Rmult (/ L)) v -> sim b (set_dvals v s) (set_dvals v' s').
Proof. intros (q & -> & H) ->. exists q. split; [reflexivity|exact H]. Qed.
Lemma p_tolsf b s s' v v' : sim b s s' -> v' = v -> sim b (set_tolsf v s) (set_tolsf v' s').
Proof. intros (q & -> & H) ->. exists q. split; [reflexivity|exact H]. Qed.
Lemma p_nrtfn b s s' v v' : sim b s s' -> v' = v -> sim b (set_nrtfn v s) (set_nrtfn v' s').
Proof. intros (q & -> & H) ->. exists q. split; [reflexivity|exact H]. Qed.
Lemma p_iroots b s s' v v' : sim b s s' -> v' = v -> sim b (set_iroots v s) (set_iroots v' s').
Proof. intros (q & -> & H) ->. exists q. split; [reflexivity|exact H]. Qed.
Lemma p_rootdir b s s' v v' : sim b s s' -> v' = v -> sim b (set_rootdir v s) (set_rootdir v' s').
Proof. intros (q & -> & H) ->. exists q. split; [reflexivity|exact H]. Qed.
Lemma p_tlo b s s' v v' : sim b s s' -> v' = L * v -> sim b (set_tlo v s) (set_tlo v' s').
Proof. intros (q & -> & H) ->. exists q. split; [reflexivity|exact H]. Qed.
Lemma p_thi b s s' v v' : sim b s s' -> v' = L * v -> sim b (set_thi v s) (set_thi v' s').
Proof. intros (q & -> & H) ->. exists q. split; [reflexivity|exact H]. Qed.
Lemma p_trout b s s' v v' : sim b s s' -> v' = L * v -> sim b (set_trout v s) (set_trout v' s').
Proof. intros (q & -> & H) ->. exists q. split; [reflexivity|exact H]. Qed.
Lemma p_glo b s s' v v' : sim b s s' -> v' = v -> sim b (set_glo v s) (set_glo v' s').
Proof. intros (q & -> & H) ->. exists q. split; [reflexivity|exact H]. Qed.
Lemma p_ghi b s s' v v' : sim b s s' -> v' = v -> sim b (set_ghi v s) (set_ghi v' s').
Proof. intros (q & -> & H) ->. exists q. split; [reflexivity|exact H]. Qed.
Lemma p_grout b s s' v v' : sim b s s' -> v' = v -> sim b (set_grout v s) (set_grout v' s').
Proof. intros (q & -> & H) ->. exists q. split; [reflexivity|exact H]. Qed.
Lemma p_toutc b s s' v v' : sim b s s' -> v' = L * v -> sim b (set_toutc v s) (set_toutc v' s').
Proof. intros (q & -> & H) ->. exists q. split; [reflexivity|exact H]. Qed.
Lemma p_ttol b s s' v v' : sim b s s' -> v' = Rabs L * v -> sim b (set_ttol v s) (set_ttol v' s').
Proof. intros (q & -> & H) ->. exists q. split; [reflexivity|exact H]. Qed.
Lemma p_taskc b s s' v v' : sim b s s' -> v' = v -> sim b (set_taskc v s) (set_taskc v' s').
Proof. intros (q & -> & H) ->. exists q. split; [reflexivity|exact H]. Qed.
Lemma p_irfnd b s s' v v' : sim b s s' -> v' = v -> sim b (set_irfnd v s) (set_irfnd v' s').
Proof. intros (q & -> & H) ->. exists q. split; [reflexivity|exact H]. Qed.
Lemma p_nge b s s' v v' : sim b s s' -> v' = v -> sim b (set_nge v s) (set_nge v' s').
Proof. intros (q & -> & H) ->. exists q. split; [reflexivity|exact H]. Qed.
Lemma p_gactive b s s' v v' : sim b s s' -> v' = v -> sim b (set_gactive v s) (set_gactive v' s').
Proof. intros (q & -> & H) ->. exists q. split; [reflexivity|exact H]. Qed.
Lemma p_mxgnull b s s' v v' : sim b s s' -> v' = v -> sim b (set_mxgnull v s) (set_mxgnull v' s').
Proof. intros (q & -> & H) ->. exists q. split; [reflexivity|exact H]. Qed.
Lemma p_nls b s s' v v' : sim b s s' -> v' = newton_in v -> sim b (set_nls v s) (set_nls v' s').
Proof. intros (q & -> & H) ->. exists q. split; [reflexivity|exact H]. Qed.

Ltac flds H :=
  rewrite ?(s_setup_done _ _ _ H), ?(s_constraints_set _ _ _ H), ?(s_suppressalg _ _ _ H),
    ?(s_phi _ _ _ H), ?(s_psi _ _ _ H), ?(s_alpha _ _ _ H), ?(s_beta _ _ _ H),
    ?(s_sigma _ _ _ H), ?(s_gamma _ _ _ H), ?(s_delta _ _ _ H), ?(s_idv _ _ _ H),
    ?(s_ee _ _ _ H), ?(s_tstop _ _ _ H), ?(s_kk _ _ _ H), ?(s_kused _ _ _ H), ?(s_knew _ _ _ H),
    ?(s_phase _ _ _ H), ?(s_ns _ _ _ H), ?(s_hin _ _ _ H), ?(s_h0u _ _ _ H), ?(s_hh _ _ _ H),
    ?(s_hused _ _ _ H), ?(s_rr _ _ _ H), ?(s_tretlast _ _ _ H), ?(s_cjlast _ _ _ H),
    ?(s_eps_newt _ _ _ H), ?(s_epcon _ _ _ H), ?(s_maxncf _ _ _ H), ?(s_maxnef _ _ _ H),
    ?(s_maxord _ _ _ H), ?(s_mxstep _ _ _ H), ?(s_hmax_inv _ _ _ H), ?(s_nst _ _ _ H),
    ?(s_ncfn _ _ _ H), ?(s_netf _ _ _ H), ?(s_nni _ _ _ H), ?(s_cvals _ _ _ H),
    ?(s_dvals _ _ _ H), ?(s_tolsf _ _ _ H), ?(s_nrtfn _ _ _ H), ?(s_iroots _ _ _ H),
    ?(s_rootdir _ _ _ H), ?(s_tlo _ _ _ H), ?(s_thi _ _ _ H), ?(s_trout _ _ _ H),
    ?(s_glo _ _ _ H), ?(s_ghi _ _ _ H), ?(s_grout _ _ _ H), ?(s_toutc _ _ _ H),
    ?(s_ttol _ _ _ H), ?(s_taskc _ _ _ H), ?(s_irfnd _ _ _ H), ?(s_nge _ _ _ H),
    ?(s_gactive _ _ _ H), ?(s_mxgnull _ _ _ H), ?(s_nls _ _ _ H), ?(s_yy _ _ _ H),
    ?(s_yp _ _ _ H), ?(s_yypredict _ _ _ H), ?(s_yppredict _ _ _ H), ?(s_ewt _ _ _ H),
    ?(s_savres _ _ _ H), ?(s_tn _ _ _ H), ?(s_ss _ _ _ H), ?(s_oldnrm _ _ _ H),
    ?(s_toldel _ _ _ H), ?(s_nre _ _ _ H), ?(s_nsetups _ _ _ H), ?(s_lp_x _ _ _ H),
    ?(s_lp_sqrtn _ _ _ H), ?(s_lp_eplifac _ _ _ H), ?(s_nje _ _ _ H), ?(s_nli _ _ _ H),
    ?(s_ncfl _ _ _ H), ?(s_nst0 _ _ _ H), ?(s_nni0 _ _ _ H), ?(s_ncfn0 _ _ _ H),
    ?(s_ncfl0 _ _ _ H), ?(s_nwarn _ _ _ H), ?(s_cj _ _ _ H), ?(s_cjold _ _ _ H),
    ?(s_cjratio _ _ _ H), ?(s_trace _ _ _ H).

Lemma p_phi b s s' v v' : sim b s s' -> v' = map (sv m) v -> sim false (set_phi v s) (set_phi v' s').
Proof. intros (q & -> & H) ->. exists q. split; [reflexivity|exact H]. Qed.
Lemma p_tstop b s s' : sim b s s' -> sim b (set_tstop None s) (set_tstop None s').
Proof. intros (q & -> & H). exists q. split; [reflexivity|exact H]. Qed.

Lemma p_on_nlp b s s' g g' : sim b s s' ->
  (forall q, g' (nlp_in q (nlp s)) = nlp_in q (g (nlp s))) ->
  lp_ls (lp (g (nlp s))) = lp_ls (lp (nlp s)) -> lp_matj (lp (g (nlp s))) = lp_matj (lp (nlp s)) ->
  sim b (on_nlp g s) (on_nlp g' s').
Proof.
  intros (q & -> & H) G E1 E2. exists q. split.
  - unfold on_nlp. cbn [nlp st_in]. rewrite G. reflexivity.
  - unfold q_of, on_nlp. cbn [nlp set_nlp]. rewrite E1, E2. exact H.
Qed.

Lemma p_on_lp b s s' g g' : sim b s s' ->
  (forall q, g' (lp_in q (lp (nlp s))) = lp_in q (g (lp (nlp s)))) ->
  lp_ls (g (lp (nlp s))) = lp_ls (lp (nlp s)) -> lp_matj (g (lp (nlp s))) = lp_matj (lp (nlp s)) ->
  sim b (on_lp g s) (on_lp g' s').
Proof.
  intros H G E1 E2. unfold on_lp. apply p_on_nlp; [exact H| |exact E1|exact E2].
  intros q. cbn [lp nlp_in]. rewrite G. reflexivity.
Qed.

Lemma p_push b s s' e e' : sim b s s' -> e' = event_in u e -> sim b (on_lp (push_ev e) s) (on_lp (push_ev e') s').
Proof. intros H ->. apply p_on_lp; [exact H|reflexivity..]. Qed.

Lemma p_tn b s s' v v' : sim b s s' -> v' = L * v -> sim b (on_nlp (set_tn v) s) (on_nlp (set_tn v') s').
Proof. intros H ->. apply p_on_nlp; [exact H|reflexivity..]. Qed.
Lemma p_ss b s s' v v' : sim b s s' -> v' = v -> sim b (on_nlp (set_ss v) s) (on_nlp (set_ss v') s').
Proof. intros H ->. apply p_on_nlp; [exact H|reflexivity..]. Qed.
Lemma p_ewt b s s' v v' : sim b s s' -> v' = sv wm v -> sim b (on_nlp (set_ewt v) s) (on_nlp (set_ewt v') s').
Proof. intros H ->. apply p_on_nlp; [exact H|reflexivity..]. Qed.
Lemma p_toldel b s s' v v' : sim b s s' -> v' = v -> sim b (on_nlp (set_toldel v) s) (on_nlp (set_toldel v') s').
Proof. intros H ->. apply p_on_nlp; [exact H|reflexivity..]. Qed.
Lemma p_yy b s s' v v' : sim b s s' -> v' = sv m v -> sim b (on_nlp (set_yy v) s) (on_nlp (set_yy v') s').
Proof. intros H ->. apply p_on_nlp; [exact H|reflexivity..]. Qed.
Lemma p_yyyp b s s' v v' w w' : sim b s s' -> v' = sv m v -> w' = sv dm w ->
  sim b (on_nlp (fun x => set_yp w (set_yy v x)) s) (on_nlp (fun x => set_yp w' (set_yy v' x)) s').
Proof. intros H -> ->. apply p_on_nlp; [exact H|reflexivity..]. Qed.
Lemma p_pred b s s' v v' w w' : sim b s s' -> v' = sv m v -> w' = sv dm w ->
  sim b (on_nlp (fun x => set_yppredict w (set_yypredict v x)) s)
        (on_nlp (fun x => set_yppredict w' (set_yypredict v' x)) s').
Proof. intros H -> ->. apply p_on_nlp; [exact H|reflexivity..]. Qed.
Lemma p_cj b s s' v v' : sim b s s' -> v' = v * / L -> sim b (on_lp (set_cj v) s) (on_lp (set_cj v') s').
Proof. intros H ->. apply p_on_lp; [exact H|reflexivity..]. Qed.

(** ** Rows of the history array *)

Lemma phi_false l : phi_in false l = map (sv m) l.
Proof. reflexivity. Qed.

Lemma phi_length b l : length (phi_in b l) = length l.
Proof. destruct b, l as [|p0 [|p1 l]]; cbn; rewrite ?map_length; reflexivity. Qed.

Lemma phi_row0 b l : orel (fun p p' => p' = sv m p) (aget l 0) (aget (phi_in b l) 0).
Proof. destruct b, l as [|p0 [|p1 l]]; cbn; auto. Qed.

Lemma phi_row1 l : orel (fun p p' => p' = sv dm p) (aget l 1) (aget (phi_in true l) 1).
Proof. destruct l as [|p0 [|p1 l]]; cbn; auto. Qed.

Lemma phi_row l i : orel (fun p p' => p' = sv m p) (aget l i) (aget (phi_in false l) i).
Proof. apply aget_map. Qed.

Lemma phi_set1 l p p' : p' = sv m p ->
  orel (fun a a' => a' = map (sv m) a) (aset l 1 p) (aset (phi_in true l) 1 p').
Proof. intros ->. destruct l as [|p0 [|p1 l]]; cbn; auto. Qed.

Lemma slice_rel lo hi k k' : k' = k -> orel eq (slice_chk lo hi k) (slice_chk lo hi k').
Proof. intros ->. apply orel_eq. Qed.

(** ** Dense output *)

Lemma time_check_in b s s' t : sim b s s' ->
  time_check s' (L * t) = option_map (err_in u) (time_check s t).
Proof.
  intros H. unfold time_check. flds H. cbn [sabs ssub smul sadd sltb szero ssignum shundred seps ScalarR].
  set (k := 100 * / 4503599627370496). 
  assert (E : Rltb ((L * t - (L * tn (nlp s) - L * hused s - k * (Rabs (L * tn (nlp s)) + Rabs (L * hh s)) * Rsignum (L * hh s))) * (L * hh s)) 0
    = Rltb ((t - (tn (nlp s) - hused s - k * (Rabs (tn (nlp s)) + Rabs (hh s)) * Rsignum (hh s))) * hh s) 0).
  { destruct (Req_dec (hh s) 0) as [Z|Z].
    - rewrite Z, Rmult_0_r, !Rmult_0_r. reflexivity.
    - apply (ltb_mul (L * L)); [apply HL2| |ring].
      rewrite !Rabs_mult. pose proof (signum_mul L (hh s) HL Z) as S.
      replace (k * (Rabs L * Rabs (tn (nlp s)) + Rabs L * Rabs (hh s)) * Rsignum (L * hh s))
        with (k * (Rabs (tn (nlp s)) + Rabs (hh s)) * (Rabs L * Rsignum (L * hh s))) by ring.
      rewrite S. ring. }
  rewrite E. clear E. destruct (Rltb _ 0); cbn; [|reflexivity]. unfold time_in. do 3 f_equal. ring.
Qed.

Lemma gs_body_in ps delt j acc acc' :
  (let '(c, d, gam, cv, dv) := acc in acc' = (c, d * / L, gam, cv, map (Rmult (/ L)) dv)) ->
  orel (fun acc acc' => let '(c, d, gam, cv, dv) := acc in acc' = (c, d * / L, gam, cv, map (Rmult (/ L)) dv))
    (gs_body ps delt j acc) (gs_body (map (Rmult L) ps) (L * delt) j acc').
Proof.
  destruct acc as ((((c & d) & gam) & cv) & dv). intros ->. unfold gs_body.
  eapply orel_bind; [apply aget_map|]. intros p1 p1' ->.
  eapply orel_bind; [apply aget_map|]. intros p p' ->.
  cbn [sadd smul sdiv ScalarR]. unfold Rdiv. rewrite !Rinv_mult.
  eapply orel_bind; [apply orel_eq|]. intros cv1 ? <-.
  eapply orel_bind; [apply aset_map; ring|]. intros dv1 dv1' ->. cbn.
  replace ((L * delt + L * p1) * (/ L * / p)) with ((L * / L) * ((delt + p1) * / p)) by ring.
  rewrite Linv, Rmult_1_l. replace (d * / L * gam + c * (/ L * / p1)) with ((d * gam + c * / p1) * / L) by ring.
  reflexivity.
Qed.

Lemma lincomb_in (f g : nat -> R) cs cs' rows lo cnt k :
  cs' = map (Rmult k) cs -> (forall i, k * m i = f i) ->
  orel (fun v v' => v' = sv f v) (lincomb prob cs rows lo cnt)
    (lincomb prob' cs' (phi_in false rows) lo cnt).
Proof.
  intros -> Hk. unfold lincomb. apply for_range_rel; [|symmetry; apply sv_zero].
  intros i a a' _ ->. eapply orel_bind; [apply aget_map|]. intros c c' ->.
  eapply orel_bind; [apply phi_row|]. intros p p' ->. cbn. apply vscaled_add_sv.
  intros j. rewrite <- Hk. ring.
Qed.

Lemma map_one (l : list R) : map (Rmult 1) l = l.
Proof. rewrite <- (map_id l) at 2. apply map_ext. intros x. ring. Qed.

Definition simr {A} b (x : state * result A (err R)) (x' : state * result A (err R)) : Prop :=
  sim b (fst x) (fst x') /\ snd x' = result_in u (snd x).

Lemma get_solution_in s s' t : sim false s s' ->
  orel (simr false) (get_solution prob s t) (get_solution prob' s' (L * t)).
Proof.
  intros H. unfold get_solution. rewrite (time_check_in _ _ _ _ H).
  destruct (time_check s t) as [e|]; cbn [option_map]; [split; [exact H|reflexivity]|]. cbv zeta.
  flds H. cbn [ssub sdiv sone szero ScalarR].
  eapply orel_bind; [apply aget_map|]. intros p0 p0' ->.
  eapply orel_bind; [apply orel_eq|]. intros cv ? <-.
  replace (L * t - L * tn (nlp s)) with (L * (t - tn (nlp s))) by ring.
  eapply orel_bind; [apply for_range_rel; [intros i a a' _; apply gs_body_in|]|].
  { cbv beta iota. f_equal. f_equal. f_equal; [f_equal; ring|]. unfold Rdiv. rewrite Rinv_mult.
    replace (L * (t - tn (nlp s)) * (/ L * / p0)) with (L * / L * ((t - tn (nlp s)) * / p0)) by ring.
    rewrite Linv. ring. }
  intros ((((c1 & d1) & gam1) & cv1) & dv1) ? ->.
  assert (H1 : sim false (set_dvals dv1 (set_cvals cv1 s)) (set_dvals (map (Rmult (/ L)) dv1) (set_cvals cv1 s'))).
  { apply p_dvals; [apply p_cvals; [exact H|reflexivity]|reflexivity]. }
  revert H1. generalize (set_dvals dv1 (set_cvals cv1 s)) (set_dvals (map (Rmult (/ L)) dv1) (set_cvals cv1 s')).
  intros s1 s1' H1. flds H1.
  eapply orel_bind; [apply (lincomb_in m m) with (k := 1); [symmetry; apply map_one|intros i; ring]|]. intros v v' ->.
  eapply orel_bind; [apply (lincomb_in dm m) with (k := / L); [reflexivity|intros i; ring]|]. intros w w' ->.
  cbn. split; [|reflexivity]. apply p_yyyp; [exact H1|reflexivity..].
Qed.

(** ** Linear and nonlinear problem *)

Lemma t_back t : time_out u (L * t) = t.
Proof. unfold time_out. replace (L * t * / L) with (L * / L * t) by ring. rewrite Linv. ring. Qed.
Lemma y_back y : y_out u (sv m y) = y.
Proof. apply sv_back. intros i. apply Rinv_l, Hm. Qed.
Lemma yp_back y : yp_out u (sv dm y) = y.
Proof.
  apply sv_back. intros i. replace (/ m i * L * (m i * / L)) with (/ m i * m i * (L * / L)) by ring.
  rewrite Linv, Rinv_l by apply Hm. ring.
Qed.
Lemma r_back v : length v = n -> mv (u_unmix u) (mv mix v) = v.
Proof. intros Hv. apply (mv_mv _ _ n _ Hv), Hu. Qed.

Definition ql (l : lprob R LSt) : LSt * mat R := (lp_ls l, lp_matj l).
Definition lsim (l l' : lprob R LSt) : Prop := exists q, l' = lp_in q l /\ RF (ql l) q.
Definition nsim (x x' : nlprob R LSt) : Prop := exists q, x' = nlp_in q x /\ RF (ql (lp x)) q.

Lemma nsim_lp x x' : nsim x x' -> lsim (lp x) (lp x').
Proof. intros (q & -> & H). exists q. split; [reflexivity|exact H]. Qed.

Lemma nsim_set_lp x x' l l' : nsim x x' -> lsim l l' -> nsim (set_lp l x) (set_lp l' x').
Proof. intros (q & -> & H) (q1 & -> & H1). exists q1. split; [reflexivity|exact H1]. Qed.

Lemma lp_setup_in l l' y yp r : lsim l l' -> length r = n ->
  orel lsim (lp_setup prob l y yp r)
            (lp_setup prob' l' (sv m y) (sv dm yp) (mv mix r)).
Proof.
  intros (q & -> & H) Lr. unfold lp_setup. change (model_size prob') with n.
  destruct (Nat.eqb_spec n 0) as [Z|_]; [lia|]. cbv zeta.
  set (l1 := push_ev (CJac szero (cj (set_nje (nje l + 1) l)) y yp) (set_nje (nje l + 1) l)).
  set (l1' := push_ev _ (set_nje _ (lp_in q l))).
  assert (E1 : l1' = lp_in q l1).
  { unfold l1', l1, push_ev, lp_in. cbn [trace set_trace set_nje map event_in cj nje]. unfold time_in.
    cbn [szero ScalarR]. rewrite Rmult_0_r. reflexivity. }
  assert (Eq : ql l1 = ql l) by reflexivity. clearbody l1 l1'. subst l1'.
  set (f := p_jac prob szero (cj l1) y yp r).
  set (f' := p_jac prob' szero (cj (lp_in q l1)) (sv m y) (sv dm yp) (mv mix r)).
  assert (F : forall i j, f' i j = / m j * comb n mix (fun k => f k j) i).
  { intros i j. unfold f', f. cbn [problem_in p_jac cj lp_in szero ScalarR]. rewrite y_back, yp_back, r_back by exact Lr.
    unfold time_out. rewrite Rmult_0_l. replace (cj l1 * / L * L) with (cj l1 * (/ L * L)) by ring.
    rewrite Linv', Rmult_1_r. reflexivity. }
  clearbody f f'. cbn [lp_ls set_lp_matj lp_matj lp_in]. rewrite <- Eq in H. destruct q as (s' & M'). cbn [fst].
  eapply orel_bind; [exact (si_setup _ _ _ Hs _ _ _ _ _ _ H F)|].
  intros ((s1 & M1) & res) ((s1' & M1') & res') (Er & HR). cbn [fst snd] in Er, HR.
  destruct res as [[]|e]; [rewrite (proj1 Er eq_refl)|destruct res' as [[]|e']; [discriminate (proj2 Er eq_refl)|exact I]].
  cbn. exists (s1', M1'). split; [reflexivity|]. apply HR. reflexivity.
Qed.

Lemma ratio_in a b : a * / L / (b * / L) = a / b.
Proof.
  unfold Rdiv. rewrite Rinv_mult, Rinv_inv. replace (a * / L * (/ b * L)) with (L * / L * (a * / b)) by ring.
  rewrite Linv. ring.
Qed.

Lemma lp_solve_in l l' b : lsim l l' -> length b = n ->
  orel (fun x x' => lsim (fst x) (fst x') /\ snd x' = sv m (snd x))
       (lp_solve prob l b) (lp_solve prob' l' (mv mix b)).
Proof.
  intros (q & -> & H) Hb. unfold lp_solve. change (model_size prob') with n. destruct q as (s' & M').
  cbn [lp_ls lp_matj lp_sqrtn lp_eplifac set_lp_x lp_x lp_in fst snd].
  destruct (si_type _ _ _ Hs _ _ _ _ H) as (Ety & Eit & Hty). rewrite Ety.
  eapply orel_bind; [exact (si_solve _ _ _ Hs _ _ _ _ b _ H Hb)|].
  intros (x & rv) ? ->. cbn [fst snd].
  assert (S : forall k v, vscale n k (sv m v) = sv m (vscale n k v)).
  { intros k v. apply vscale_sv. intros i. ring. }
  assert (B : ls_type (lp_ls l) <> Direct -> mv mix b = sv m b).
  { intros D. destruct Hty as [Hty|Hty]; [contradiction|]. apply Hty, Hb. }
  destruct (ls_type (lp_ls l)) eqn:Ty.
  - cbv beta iota zeta. cbn [cjratio lp_x set_lp_x lp_in]. rewrite S.
    destruct (sneqb (cjratio l) sone), rv as [[]|e]; cbn;
      (split; [exists (s', M'); split; [reflexivity|exact H]|reflexivity]).
  - cbv beta iota zeta. cbn [cjratio lp_x set_lp_x lp_in lp_ls set_nli fst]. rewrite Eit.
    specialize (B ltac:(discriminate)). rewrite B.
    destruct (ls_num_iters (lp_ls l) =? 0)%nat, rv as [[]|e]; cbn;
      (split; [exists (s', M'); split; [reflexivity|exact H]|reflexivity]).
  - cbv beta iota zeta. cbn [cjratio lp_x set_lp_x lp_in lp_ls set_nli fst]. rewrite Eit.
    specialize (B ltac:(discriminate)). rewrite B.
    destruct (ls_num_iters (lp_ls l) =? 0)%nat, rv as [[]|e], (sneqb (cjratio l) sone); cbn; rewrite ?S;
      (split; [exists (s', M'); split; [reflexivity|exact H]|reflexivity]).
Qed.

Lemma nlp_sys_in x x' y : nsim x x' ->
  orel (fun a a' => nsim (fst (fst a)) (fst (fst a')) /\ snd (fst a') = mv mix (snd (fst a)) /\ length (snd (fst a)) = n /\ snd a = Ok tt /\ snd a' = Ok tt)
       (nlp_sys prob x y) (nlp_sys prob' x' (sv m y)).
Proof.
  intros (q & -> & H). unfold nlp_sys. change (model_size prob') with n. cbn [orel fst snd].
  set (x1 := set_yp (vscaled_add n (yppredict (set_yy (vadd n (yypredict x) y) x)) (cj (lp (set_yy (vadd n (yypredict x) y) x))) y)
               (set_yy (vadd n (yypredict x) y) x)).
  set (x1' := set_yp _ (set_yy _ (nlp_in q x))).
  assert (E1 : x1' = nlp_in q x1).
  { unfold x1', x1, nlp_in. cbn [yypredict yppredict set_yy set_yp lp cj lp_in].
    rewrite vadd_sv. rewrite (vscaled_add_sv dm m n _ _ (cj (lp x))); [reflexivity|]. intros i. ring. }
  assert (Eq : ql (lp x1) = ql (lp x)) by reflexivity. clearbody x1 x1'. subst x1'.
  assert (Er : vtab n (p_res prob' (tn (nlp_in q x1)) (yy (nlp_in q x1)) (yp (nlp_in q x1)))
               = mv mix (vtab n (p_res prob (tn x1) (yy x1) (yp x1)))).
  { rewrite mv_vtab. apply vtab_ext. intros i Hi. cbn [problem_in p_res tn yy yp nlp_in].
    rewrite t_back, y_back, yp_back. unfold comb. apply Nat.ltb_lt in Hi. rewrite Hi. reflexivity. }
  cbn [tn yy yp set_lp set_nre savres lp nre].
  change (tn (nlp_in q x1)) with (L * tn x1) in *. change (yy (nlp_in q x1)) with (sv m (yy x1)) in *.
  change (yp (nlp_in q x1)) with (sv dm (yp x1)) in *.
  assert (Ln : length (vtab n (p_res prob (tn x1) (yy x1) (yp x1))) = n) by apply vtab_length.
  revert Er Ln. generalize (vtab n (p_res prob (tn x1) (yy x1) (yp x1)))
    (vtab n (p_res prob' (L * tn x1) (sv m (yy x1)) (sv dm (yp x1)))). intros res res' -> Ln.
  split; [|split; [reflexivity|split; [exact Ln|split; reflexivity]]]. exists q. split; [reflexivity|rewrite <- Eq in H; exact H].
Qed.

Lemma nlp_setup_in_ok x x' y r jb : nsim x x' -> length r = n ->
  orel (fun a a' => nsim (fst a) (fst a') /\ snd a = Ok true /\ snd a' = Ok true)
       (nlp_setup prob x y r jb) (nlp_setup prob' x' (sv m y) (mv mix r) jb).
Proof.
  intros (q & -> & H) Lr. unfold nlp_setup. cbv zeta. cbn [lp yy yp set_nsetups nlp_in].
  eapply orel_bind; [apply lp_setup_in; [exists q; split; [reflexivity|exact H]|exact Lr]|].
  intros l l' (q1 & -> & H1). cbn. split; [|auto]. exists q1. split; [reflexivity|exact H1].
Qed.

Lemma nlp_solve_in x x' y b : nsim x x' -> length b = n ->
  orel (fun a a' => nsim (fst (fst a)) (fst (fst a')) /\ snd (fst a') = sv m (snd (fst a)) /\ snd a' = snd a)
       (nlp_solve prob x y b) (nlp_solve prob' x' (sv m y) (mv mix b)).
Proof.
  intros H Hb. unfold nlp_solve. eapply orel_bind; [apply lp_solve_in; [apply nsim_lp, H|exact Hb]|].
  intros (l & d) (l' & d') (H1 & E). cbn in *. split; [|split; [exact E|reflexivity]].
  apply nsim_set_lp; assumption.
Qed.

Lemma nlp_ctest_in x x' k y d tol w : nsim x x' ->
  orel (fun a a' => nsim (fst a) (fst a') /\ snd a' = snd a)
       (nlp_ctest x k y d tol w) (nlp_ctest x' k (sv m y) (sv m d) tol (sv wm w)).
Proof.
  intros (q & -> & H). unfold nlp_ctest. rewrite norm_wrms_sv by apply norm_ok. cbv zeta.
  destruct (k =? 0)%nat.
  - cbn [toldel set_oldnrm nlp_in]. destruct (sleb _ _); cbn; (split; [|reflexivity]);
      (exists q; split; [reflexivity|exact H]).
  - cbn [oldnrm nlp_in]. destruct (sltb _ _); cbn; (split; [|reflexivity]);
      (exists q; split; [reflexivity|exact H]).
Qed.

(** ** Newton's method *)

Definition nw_in (f : list R -> list R) (s : newton R) : newton R :=
  mknewton (f (nw_delta s)) (nw_jcur s) (nw_curiter s) (nw_maxiters s) (nw_niters s) (nw_nconvfails s).

Notation P := (ida_nlproblem prob).
Notation P' := (ida_nlproblem prob').
Definition nwres (a a' : newton R * nlprob R LSt * list R * result unit nlerr) : Prop :=
  let '(s, x, y, r) := a in let '(s', x', y', r') := a' in
  s' = nw_in (sv m) s /\ nsim x x' /\ y' = sv m y /\ r' = r.

Lemma inner_in fuel w tol s x x' y : nsim x x' -> length (nw_delta s) = n ->
  orel nwres (inner_loop P n fuel w tol s x y)
             (inner_loop P' n fuel (sv wm w) tol (nw_in (mv mix) s) x' (sv m y)).
Proof.
  revert s x x' y. induction fuel as [|fuel IH]; intros s x x' y H Ld; cbn [inner_loop]; [exact I|].
  cbn [np_solve np_ctest np_sys ida_nlproblem]. 
  set (s1 := Newton.set_delta (vneg n (nw_delta (inc_niters s))) (inc_niters s)).
  set (s1' := Newton.set_delta _ (inc_niters (nw_in _ s))).
  assert (E : s1' = nw_in (mv mix) s1).
  { unfold s1', s1, Newton.set_delta, nw_in. cbn. rewrite mv_neg by exact Ld. reflexivity. }
  assert (Hb : length (nw_delta s1) = n).
  { unfold s1. cbn [nw_delta Newton.set_delta]. unfold vneg, vtab. rewrite map_length. apply seq_length. }
  clearbody s1 s1'. subst s1'. cbn [nw_delta nw_in].
  eapply orel_bind; [apply nlp_solve_in; [exact H|exact Hb]|].
  intros ((x1 & d) & r) ((x1' & d') & r') (H1 & E1 & E2). cbn [fst snd] in *. subst d' r'.
  destruct r as [[]|e]; [|cbn; split; [reflexivity|split; [exact H1|auto]]].
  set (s2 := Newton.set_delta d s1). change (Newton.set_delta (sv m d) (nw_in (mv mix) s1)) with (nw_in (sv m) s2).
  clearbody s2. cbn [nw_delta nw_in nw_curiter]. rewrite vadd_sv.
  eapply orel_bind; [apply nlp_ctest_in; exact H1|].
  intros (x2 & r) (x2' & r') (H2 & E2). cbn [fst snd] in *. subst r'.
  destruct r as [[|]|e]; [cbn; split; [reflexivity|split; [exact H2|auto]]| |cbn; split; [reflexivity|split; [exact H2|auto]]].
  set (s3 := set_curiter (nw_curiter s2 + 1) s2).
  change (set_curiter (nw_curiter s2 + 1) (nw_in (sv m) s2)) with (nw_in (sv m) s3).
  cbn [nw_maxiters nw_in nw_curiter]. destruct (_ <=? _)%nat; [cbn; split; [reflexivity|split; [exact H2|auto]]|].
  eapply orel_bind; [apply nlp_sys_in; exact H2|].
  intros ((x3 & d3) & r) ((x3' & d3') & r') (H3 & E3 & L3 & E4 & E5). cbn [fst snd] in *. subst d3' r r'.
  change (Newton.set_delta (mv mix d3) (nw_in (sv m) s3)) with (nw_in (mv mix) (Newton.set_delta d3 s3)).
  apply IH; [exact H3|exact L3].
Qed.

Lemma nwattempt_in y0 w tol cl jb f s x x' y : nsim x x' ->
  orel nwres (Newton.attempt P n y0 w tol cl jb s x y)
             (Newton.attempt P' n (sv m y0) (sv wm w) tol cl jb (nw_in f s) x' (sv m y)).
Proof.
  intros H. unfold Newton.attempt. cbn [np_sys np_setup ida_nlproblem].
  eapply orel_bind; [apply nlp_sys_in; exact H|].
  intros ((x1 & d) & r) ((x1' & d') & r') (H1 & E1 & Ld & E2 & E3). cbn [fst snd] in *. subst d' r r'.
  change (Newton.set_delta (mv mix d) (nw_in f s)) with (nw_in (mv mix) (Newton.set_delta d s)).
  assert (L1 : length (nw_delta (Newton.set_delta d s)) = n) by exact Ld. revert L1.
  generalize (Newton.set_delta d s). intros s1 L1. cbn [nw_delta nw_in].
  eapply orel_bind with (P := fun a a' => (fst (fst a') = nw_in (mv mix) (fst (fst a)) /\ length (nw_delta (fst (fst a))) = n) /\
     nsim (snd (fst a)) (snd (fst a')) /\ snd a = Ok tt /\ snd a' = Ok tt).
  - destruct cl; [|cbn; auto]. eapply orel_bind; [apply nlp_setup_in_ok; [exact H1|exact L1]|].
    intros (x2 & r) (x2' & r') (H2 & E2 & E3). cbn [fst snd] in *. subst r r'. cbn. auto.
  - intros ((s2 & x2) & r) ((s2' & x2') & r') ((E1 & L2) & H2 & E2 & E3). cbn [fst snd] in *. subst s2' r r'.
    change (set_curiter 0 (nw_in (mv mix) s2)) with (nw_in (mv mix) (set_curiter 0 s2)).
    apply inner_in; [exact H2|exact L2].
Qed.

Lemma outer_in fuel y0 w tol cl jb s x x' y : nsim x x' ->
  orel nwres (outer_loop P n fuel y0 w tol cl jb s x y)
             (outer_loop P' n fuel (sv m y0) (sv wm w) tol cl jb (nw_in (sv m) s) x' (sv m y)).
Proof.
  revert cl jb s x x' y. induction fuel as [|fuel IH]; intros cl jb s x x' y H; cbn [outer_loop]; [exact I|].
  eapply orel_bind; [apply nwattempt_in; exact H|].
  intros (((s1 & x1) & y1) & r) (((s1' & x1') & y1') & r') (-> & H1 & -> & ->).
  destruct r as [[]|e]; [cbn; auto|]. cbn [nw_jcur nw_in].
  destruct e; try (cbn; auto; fail). destruct (negb (nw_jcur s1)).
  - change (inc_nconvfails (nw_in (sv m) s1)) with (nw_in (sv m) (inc_nconvfails s1)). apply IH. exact H1.
  - apply IH. exact H1.
Qed.

(** ** One internal step *)

Lemma bump_ns_in b s s' : sim b s s' -> sim b (bump_ns s) (bump_ns s').
Proof.
  intros H. unfold bump_ns. cbv zeta. flds H. rewrite (neqb_mul L (hh s) (hused s) _ _ HL eq_refl eq_refl).
  assert (H1 : sim b (if sneqb (hh s) (hused s) || negb (kk s =? kused s)%nat then set_ns 0 s else s)
                     (if sneqb (hh s) (hused s) || negb (kk s =? kused s)%nat then set_ns 0 s' else s')).
  { destruct (_ || _); [apply p_ns; [exact H|reflexivity]|exact H]. }
  apply p_ns; [exact H1|]. rewrite (s_ns _ _ _ H1), (s_kused _ _ _ H1). reflexivity.
Qed.

Definition coeff_rel (a a' : list R * list R * list R * list R * list R * R) : Prop :=
  let '(ps, be, al, sg, ga, t) := a in
  a' = (map (Rmult L) ps, be, al, sg, map (Rmult (/ L)) ga, L * t).

Lemma quot_in a b : L * a / (L * b) = a / b.
Proof.
  unfold Rdiv. rewrite Rinv_mult. replace (L * a * (/ L * / b)) with (L * / L * (a * / b)) by ring.
  rewrite Linv. ring.
Qed.

Lemma coeff_body_in h i a a' : coeff_rel a a' -> orel coeff_rel (coeff_body h i a) (coeff_body (L * h) i a').
Proof.
  destruct a as (((((ps & be) & al) & sg) & ga) & t). intros ->. unfold coeff_body.
  eapply orel_bind; [apply aget_map|]. intros t2 t2' ->.
  eapply orel_bind; [apply aset_map; reflexivity|]. intros ps1 ps1' ->.
  eapply orel_bind; [apply orel_eq|]. intros be1 ? <-.
  eapply orel_bind; [apply aget_map|]. intros p1 p1' ->.
  cbn [sadd smul sdiv ScalarR].
  replace (be1 * (L * p1) / (L * t2)) with (be1 * p1 / t2)
    by (replace (be1 * (L * p1)) with (L * (be1 * p1)) by ring; symmetry; apply quot_in).
  replace (L * t2 + L * h) with (L * (t2 + h)) by ring. rewrite quot_in.
  eapply orel_bind; [apply orel_eq|]. intros be2 ? <-.
  eapply orel_bind; [apply orel_eq|]. intros al2 ? <-.
  eapply orel_bind; [apply orel_eq|]. intros sg1 ? <-.
  eapply orel_bind; [apply orel_eq|]. intros ali ? <-.
  eapply orel_bind; [apply orel_eq|]. intros sg2 ? <-.
  eapply orel_bind; [apply aget_map|]. intros g1 g1' ->.
  eapply orel_bind; [apply orel_eq|]. intros al1 ? <-.
  eapply orel_bind; [apply aset_map|]. { unfold Rdiv. rewrite Rinv_mult. ring. }
  intros ga2 ga2' ->. reflexivity.
Qed.

Lemma compute_coeffs_in b s s' : sim b s s' -> orel (sim b) (compute_coeffs s) (compute_coeffs s').
Proof.
  intros H. unfold compute_coeffs. flds H. destruct (_ <=? _)%nat; [|exact H].
  eapply orel_bind; [apply orel_eq|]. intros be ? <-.
  eapply orel_bind; [apply orel_eq|]. intros al ? <-.
  eapply orel_bind; [apply (aset_map (Rmult (/ L))); cbn; ring|]. intros ga ga' ->.
  eapply orel_bind; [apply orel_eq|]. intros sg ? <-.
  eapply orel_bind; [apply for_range_rel with (P := coeff_rel); [intros i a a' _; apply coeff_body_in|reflexivity]|].
  intros (((((ps & be2) & al2) & sg2) & ga2) & t) ? ->.
  eapply orel_bind; [apply aset_map; reflexivity|]. intros ps2 ps2' ->. cbn.
  apply p_gamma; [|reflexivity]. apply p_sigma; [|reflexivity]. apply p_alpha; [|reflexivity].
  apply p_beta; [|reflexivity]. apply p_psi; [exact H|reflexivity].
Qed.

Definition sims {A} b (f : A -> A) (a a' : state * A) : Prop := sim b (fst a) (fst a') /\ snd a' = f (snd a).

Lemma leading_coeff_in b s s' : sim b s s' -> orel (sims b (fun x => x)) (leading_coeff s) (leading_coeff s').
Proof.
  intros H. unfold leading_coeff. flds H.
  eapply orel_bind; [apply orel_eq|]. intros (al & al0) ? <-. cbv zeta.
  assert (H1 : sim b (on_lp (set_cj (sdiv (sneg al) (hh (set_cjlast (cj (lp (nlp s))) s)))) (set_cjlast (cj (lp (nlp s))) s))
     (on_lp (set_cj (sdiv (sneg al) (hh (set_cjlast (cj (lp (nlp s)) * / L) s')))) (set_cjlast (cj (lp (nlp s)) * / L) s'))).
  { apply p_cj; [apply p_cjlast; [exact H|reflexivity]|]. change (hh (set_cjlast (cj (lp (nlp s)) * / L) s')) with (hh s').
    flds H. cbn [sneg sdiv ScalarR]. change (hh (set_cjlast (cj (lp (nlp s))) s)) with (hh s). unfold Rdiv. rewrite Rinv_mult. ring. }
  revert H1. generalize (on_lp (set_cj (sdiv (sneg al) (hh (set_cjlast (cj (lp (nlp s))) s)))) (set_cjlast (cj (lp (nlp s))) s))
     (on_lp (set_cj (sdiv (sneg al) (hh (set_cjlast (cj (lp (nlp s)) * / L) s')))) (set_cjlast (cj (lp (nlp s)) * / L) s')).
  intros s1 s1' H1. flds H1. eapply orel_bind; [apply orel_eq|]. intros ak ? <-. cbn. split; [exact H1|reflexivity].
Qed.

Lemma scale_rows_in cs lo hi rows :
  orel (fun l l' => l' = map (sv m) l) (scale_rows prob cs lo hi rows) (scale_rows prob' cs lo hi (map (sv m) rows)).
Proof.
  unfold scale_rows. rewrite map_length.
  eapply orel_bind; [apply orel_eq|]. intros _ _ _.
  eapply orel_bind; [apply orel_eq|]. intros _ _ _.
  apply for_range_rel; [|reflexivity]. intros i a a' _ ->.
  eapply orel_bind; [apply orel_eq|]. intros c ? <-.
  eapply orel_bind; [apply aget_map|]. intros p p' ->. apply aset_map. apply vscale_sv. intros j. ring.
Qed.

Lemma scale_phi_in s s' : sim false s s' -> orel (sim false) (scale_phi prob s) (scale_phi prob' s').
Proof.
  intros H. unfold scale_phi. flds H. rewrite phi_false. destruct (_ <=? _)%nat; [|exact H].
  eapply orel_bind; [apply scale_rows_in|]. intros ph ph' ->. cbn. apply (p_phi false); [exact H|reflexivity].
Qed.

Lemma set_coeffs_in s s' : sim false s s' -> orel (sims false (fun x => x)) (set_coeffs prob s) (set_coeffs prob' s').
Proof.
  intros H. unfold set_coeffs. eapply orel_bind; [apply compute_coeffs_in, bump_ns_in, H|]. intros s1 s1' H1.
  eapply orel_bind; [apply leading_coeff_in, H1|]. intros (s2 & ck) (s2' & ck') (H2 & E). cbn [fst snd] in *. subst ck'.
  eapply orel_bind; [apply scale_phi_in, H2|]. intros s3 s3' H3. cbn. split; [exact H3|reflexivity].
Qed.

Lemma predict_in s s' : sim false s s' -> orel (sim false) (predict prob s) (predict prob' s').
Proof.
  intros H. unfold predict. flds H. rewrite phi_length, map_length. change (model_size prob') with n.
  eapply orel_bind; [apply orel_eq|]. intros _ _ _.
  eapply orel_bind with (P := fun v v' => v' = sv m v).
  { apply for_range_rel; [|symmetry; apply sv_zero]. intros i a a' _ ->.
    eapply orel_bind; [apply phi_row|]. intros p p' ->. cbn. apply vadd_sv. }
  intros v v' ->. eapply orel_bind; [apply orel_eq|]. intros _ _ _.
  eapply orel_bind with (P := fun v v' => v' = sv dm v).
  { apply for_range_rel; [|symmetry; apply sv_zero]. intros i a a' _ ->.
    eapply orel_bind; [apply aget_map|]. intros g g' ->.
    eapply orel_bind; [apply phi_row|]. intros p p' ->. cbn. apply vscaled_add_sv. intros j. ring. }
  intros w w' ->. cbn. apply p_pred; [exact H|reflexivity..].
Qed.

(** The step to be attempted does not pass the stop time (so the comparison at
    src/lib.rs 655, whose constant has the dimension of a squared time, fails in
    both runs). *)
Definition room (s : state) : Prop := forall ts, tstop s = Some ts -> (tn (nlp s) + hh s - ts) * hh s <= 0.

Lemma advance_tn_in b s s' : sim b s s' -> room s -> sim b (advance_tn s) (advance_tn s').
Proof.
  intros H Hr. unfold advance_tn. cbv zeta.
  assert (H1 : sim b (on_nlp (fun x => set_tn (tn x + hh s)%sc x) s) (on_nlp (fun x => set_tn (tn x + hh s')%sc x) s')).
  { change (sim b (on_nlp (set_tn (tn (nlp s) + hh s)) s) (on_nlp (set_tn (tn (nlp s') + hh s')) s')).
    apply p_tn; [exact H|]. flds H. ring. }
  assert (Hr1 : forall ts, tstop (on_nlp (fun x => set_tn (tn x + hh s)%sc x) s) = Some ts ->
    (tn (nlp (on_nlp (fun x => set_tn (tn x + hh s)%sc x) s)) - ts) * hh (on_nlp (fun x => set_tn (tn x + hh s)%sc x) s) <= 0) by exact Hr.
  revert H1 Hr1. generalize (on_nlp (fun x => set_tn (tn x + hh s)%sc x) s) (on_nlp (fun x => set_tn (tn x + hh s')%sc x) s').
  clear H Hr. intros s1 s1' H Hr. rewrite (s_tstop _ _ _ H). destruct (tstop s1) as [ts|] eqn:Ts; cbn [option_map]; [|exact H].
  specialize (Hr ts eq_refl). flds H. cbn [sltb sone smul ssub ScalarR].
  replace ((L * tn (nlp s1) - L * ts) * (L * hh s1)) with (L * L * ((tn (nlp s1) - ts) * hh s1)) by ring.
  pose proof HL2 as P. rewrite (proj2 (Rltb_false 1 ((tn (nlp s1) - ts) * hh s1))) by lra.
  rewrite (proj2 (Rltb_false 1 (L * L * ((tn (nlp s1) - ts) * hh s1)))) by nra. exact H.
Qed.

Lemma nls_prepare_in s s' : sim false s s' ->
  sim false (fst (nls_prepare s)) (fst (nls_prepare s')) /\ snd (nls_prepare s') = snd (nls_prepare s).
Proof.
  intros H. unfold nls_prepare. cbv zeta. flds H.
  set (s1 := if (nst s =? 0)%nat then on_nlp (set_ss stwenty) (on_lp (fun l => set_cjold (cj l) l) s) else s).
  set (s1' := if (nst s =? 0)%nat then on_nlp (set_ss stwenty) (on_lp (fun l => set_cjold (cj l) l) s') else s').
  assert (H1 : sim false s1 s1').
  { unfold s1, s1'. destruct (_ =? _)%nat; [|exact H]. apply p_ss; [|reflexivity]. apply p_on_lp; [exact H|reflexivity..]. }
  clearbody s1 s1'.
  set (s2 := on_lp (fun l => set_cjratio (cj l / cjold l)%sc l) s1).
  set (s2' := on_lp (fun l => set_cjratio (cj l / cjold l)%sc l) s1').
  assert (H2 : sim false s2 s2').
  { unfold s2, s2'. apply p_on_lp; [exact H1| |reflexivity..]. intros q. unfold lp_in. cbn. rewrite ratio_in. reflexivity. }
  clearbody s2 s2'. clear H H1. flds H2. cbn [fst snd]. split; [|reflexivity].
  rewrite (neqb_mul (/ L) (cj (lp (nlp s2))) (cjlast s2) _ _ iL (Rmult_comm _ _) (Rmult_comm _ _)).
  destruct (sneqb _ _); [apply p_ss; [exact H2|reflexivity]|exact H2].
Qed.

Lemma nonlinear_solve_in s s' : sim false s s' ->
  orel (simr false) (nonlinear_solve prob s) (nonlinear_solve prob' s').
Proof.
  intros H. unfold nonlinear_solve. destruct (nls_prepare_in s s' H) as (H1 & E1).
  destruct (nls_prepare s) as (s1 & cl), (nls_prepare s') as (s1' & cl'). cbn [fst snd] in *. subst cl'.
  change (model_size prob') with n.
  assert (H2 : sim false (set_delta (vzero n) s1) (set_delta (vzero n) s1')).
  { apply p_delta; [exact H1|symmetry; apply sv_zero]. }
  clear H H1. revert H2. generalize (set_delta (vzero n) s1) (set_delta (vzero n) s1'). clear s1 s1'.
  intros s1 s1' H. cbn [nls_setup nls_solve NLS_U NewtonNLS bind].
  change (set_delta (delta s1) (set_nls (nls s1) s1)) with (set_delta (delta s1) (set_nls (nls s1) s1)).
  assert (H2 : sim false (set_delta (delta s1) (set_nls (nls s1) s1)) (set_delta (delta s1') (set_nls (nls s1') s1'))).
  { apply p_delta; [apply p_nls; [exact H|apply (s_nls _ _ _ H)]|apply (s_delta _ _ _ H)]. }
  revert H2. generalize (set_delta (delta s1) (set_nls (nls s1) s1)) (set_delta (delta s1') (set_nls (nls s1') s1')).
  clear s1 s1' H. intros s1 s1' H. flds H. unfold newton_solve.
  assert (N : nsim (nlp s1) (nlp s1')).
  { destruct H as (q & -> & HR). exists q. split; [reflexivity|exact HR]. }
  eapply orel_bind; [apply outer_in; exact N|].
  intros (((w & x) & e) & r) (((w' & x') & e') & r') (-> & (q & -> & HR) & -> & ->).
  assert (H2 : sim false (set_ee e (set_nlp x (set_nls w s1))) (set_ee (sv m e) (set_nlp (nlp_in q x) (set_nls (nw_in (sv m) w) s1')))).
  { apply p_ee; [|reflexivity]. destruct H as (q0 & -> & _). exists q. split; [reflexivity|exact HR]. }
  revert H2. generalize (set_ee e (set_nlp x (set_nls w s1))) (set_ee (sv m e) (set_nlp (nlp_in q x) (set_nls (nw_in (sv m) w) s1'))).
  clear s1 s1' H N. intros s1 s1' H. cbv zeta.
  assert (H2 : sim false (on_nlp (fun x => set_yy (vadd n (yypredict x) (ee s1)) x) s1)
                         (on_nlp (fun x => set_yy (vadd n (yypredict x) (ee s1')) x) s1')).
  { apply (p_yy false s1 s1' (vadd n (yypredict (nlp s1)) (ee s1)) (vadd n (yypredict (nlp s1')) (ee s1'))); [exact H|].
    flds H. apply vadd_sv. }
  revert H2. generalize (on_nlp (fun x => set_yy (vadd n (yypredict x) (ee s1)) x) s1)
                         (on_nlp (fun x => set_yy (vadd n (yypredict x) (ee s1')) x) s1').
  clear s1 s1' H. intros s1 s1' H.
  assert (H2 : sim false (on_nlp (fun x => set_yp (vscaled_add n (yppredict x) (cj (lp x)) (ee s1)) x) s1)
                         (on_nlp (fun x => set_yp (vscaled_add n (yppredict x) (cj (lp x)) (ee s1')) x) s1')).
  { apply p_on_nlp; [exact H| |reflexivity..]. intros q1. unfold nlp_in. cbn [set_yp yppredict lp cj lp_in yy yypredict ewt savres tn ss oldnrm toldel nre nsetups].
    rewrite (s_ee _ _ _ H). rewrite (vscaled_add_sv dm m n _ _ (cj (lp (nlp s1)))); [reflexivity|]. intros i. ring. }
  revert H2. generalize (on_nlp (fun x => set_yp (vscaled_add n (yppredict x) (cj (lp x)) (ee s1)) x) s1)
                         (on_nlp (fun x => set_yp (vscaled_add n (yppredict x) (cj (lp x)) (ee s1')) x) s1').
  clear s1 s1' H. intros s1 s1' H. destruct r as [[]|er]; [|split; [exact H|reflexivity]].
  flds H. destruct (constraints_set s1); cbn; [exact I|]. split; [exact H|reflexivity].
Qed.

Lemma wn id x w b : wrms_norm id (sv m x) (sv wm w) b = wrms_norm id x w b.
Proof. apply wrms_norm_sv. intros i. apply norm_ok. Qed.

Definition te_rel (a a' : state * R * R * result unit (err R)) : Prop :=
  let '(s, ek, ek1, r) := a in let '(s', ek', ek1', r') := a' in
  sim false s s' /\ ek' = ek /\ ek1' = ek1 /\ r' = r /\ (forall e, r = Err e -> e = EIda TestFail).

Lemma test_error_in s s' ck : sim false s s' -> orel te_rel (test_error prob s ck) (test_error prob' s' ck).
Proof.
  intros H. unfold test_error. flds H. rewrite wn. change (model_size prob') with n. cbv zeta.
  eapply orel_bind; [apply orel_eq|]. intros sgk ? <-.
  eapply orel_bind with (P := fun a a' => sim false (fst (fst a)) (fst (fst a')) /\ snd (fst a') = snd (fst a) /\ snd a' = snd a).
  - destruct (1 <? kk s)%nat; [|cbn; auto].
    eapply orel_bind; [apply phi_row|]. intros pk pk' ->. rewrite vadd_sv.
    assert (H1 : sim false (set_delta (vadd n pk (ee s)) s) (set_delta (sv m (vadd n pk (ee s))) s')).
    { apply p_delta; [exact H|reflexivity]. }
    revert H1. generalize (set_delta (vadd n pk (ee s)) s) (set_delta (sv m (vadd n pk (ee s))) s').
    intros s1 s1' H1. flds H1. rewrite wn.
    eapply orel_bind; [apply orel_eq|]. intros sg1 ? <-.
    destruct (2 <? kk s1)%nat; [|cbn; auto].
    eapply orel_bind; [apply phi_row|]. intros pk1 pk1' ->. rewrite vadd_sv.
    assert (H2 : sim false (set_delta (vadd n (delta s1) pk1) s1) (set_delta (sv m (vadd n (delta s1) pk1)) s1')).
    { apply p_delta; [exact H1|reflexivity]. }
    revert H2. generalize (set_delta (vadd n (delta s1) pk1) s1) (set_delta (sv m (vadd n (delta s1) pk1)) s1').
    intros s2 s2' H2. flds H2. rewrite wn.
    eapply orel_bind; [apply orel_eq|]. intros sg2 ? <-. cbn. auto.
  - intros ((s1 & e1) & kn) ((s1' & e1') & kn') (H1 & E1 & E2). cbn [fst snd] in *. subst e1' kn'.
    assert (H2 : sim false (set_knew kn s1) (set_knew kn s1')) by (apply p_knew; [exact H1|reflexivity]).
    destruct (sleb _ _).
    + repeat (split; [first [exact H2|reflexivity]|]). discriminate.
    + split; [apply p_push; [exact H2|reflexivity]|]. repeat (split; [reflexivity|]). congruence.
Qed.

Lemma restore_in s s' t : sim false s s' -> orel (sim false) (restore prob s t) (restore prob' s' (L * t)).
Proof.
  intros H. unfold restore. cbv zeta.
  assert (H1 : sim false (on_nlp (set_tn t) s) (on_nlp (set_tn (L * t)) s')) by (apply p_tn; [exact H|reflexivity]).
  revert H1. generalize (on_nlp (set_tn t) s) (on_nlp (set_tn (L * t)) s'). clear s s' H. intros s s' H. flds H.
  eapply orel_bind with (P := fun l l' => l' = map (Rmult L) l).
  { apply for_range_rel; [|reflexivity]. intros i a a' _ ->. eapply orel_bind; [apply aget_map|]. intros p p' ->.
    apply aset_map. cbn. ring. }
  intros ps ps' ->.
  assert (H1 : sim false (set_psi ps s) (set_psi (map (Rmult L) ps) s')) by (apply p_psi; [exact H|reflexivity]).
  revert H1. generalize (set_psi ps s) (set_psi (map (Rmult L) ps) s'). clear s s' H. intros s s' H. flds H.
  destruct (_ <=? _)%nat; [|exact H].
  eapply orel_bind; [apply orel_eq|]. intros _ _ _.
  eapply orel_bind; [apply orel_eq|]. intros _ _ _.
  eapply orel_bind; [apply orel_eq|]. intros cv ? <-.
  assert (H1 : sim false (set_cvals cv s) (set_cvals cv s')) by (apply p_cvals; [exact H|reflexivity]).
  revert H1. generalize (set_cvals cv s) (set_cvals cv s'). clear s s' H. intros s s' H. flds H.
  rewrite phi_length, phi_false. change (model_size prob') with n.
  eapply orel_bind; [apply orel_eq|]. intros _ _ _.
  eapply orel_bind with (P := fun l l' => l' = map (sv m) l).
  { apply for_range_rel; [|reflexivity]. intros i a a' _ ->. eapply orel_bind; [apply orel_eq|]. intros c ? <-.
    eapply orel_bind; [apply aget_map|]. intros p p' ->. apply aset_map. apply vscale_sv. intros j. ring. }
  intros ph ph' ->. cbn. apply (p_phi false); [exact H|reflexivity].
Qed.

Definition hn_rel (a a' : state * nat * nat * result unit (err R)) : Prop :=
  let '(s, ncf, nef, r) := a in let '(s', ncf', nef', r') := a' in
  sim false s s' /\ ncf' = ncf /\ nef' = nef /\ r' = result_in u r.

Lemma hh_scaled s s' : sim false s s' -> sim false (set_hh (hh s * rr s) s) (set_hh (hh s' * rr s') s').
Proof. intros H. apply p_hh; [exact H|]. flds H. ring. Qed.

Lemma handle_n_flag_in s s' e ek ek1 ncf nef : sim false s s' ->
  orel hn_rel (handle_n_flag s e ek ek1 ncf nef) (handle_n_flag s' (err_in u e) ek ek1 ncf nef).
Proof.
  intros H. unfold handle_n_flag. cbv zeta.
  assert (H1 : sim false (set_phase 1 s) (set_phase 1 s')) by (apply p_phase; [exact H|reflexivity]).
  revert H1. generalize (set_phase 1 s) (set_phase 1 s'). clear s s' H. intros s s' H.
  destruct e as [e|e|]; cbn [err_in].
  - destruct e; cbn [ida_error_in]; try exact I.
    + assert (H1 : sim false (set_netf (netf s + 1) s) (set_netf (netf s' + 1) s')).
      { apply p_netf; [exact H|]. flds H. reflexivity. }
      revert H1. generalize (set_netf (netf s + 1) s) (set_netf (netf s' + 1) s'). clear s s' H. intros s s' H.
      destruct (nef + 1 =? 1)%nat; [|destruct (nef + 1 =? 2)%nat; [|flds H; destruct (_ <? _)%nat]].
      * assert (H1 : sim false (set_kk (knew s) s) (set_kk (knew s') s')) by (apply p_kk; [exact H|apply (s_knew _ _ _ H)]).
        flds H. rewrite (s_knew _ _ _ H) in H1.
        revert H1. generalize (set_kk (knew s) s) (set_kk (knew s) s'). intros s1 s1' H1. flds H1.
        match goal with |- orel _ (Ret (set_hh (hh (set_rr ?x _) * _)%sc _, _, _, _)) _ => set (rx := x) end.
        assert (H2 : sim false (set_rr rx s1) (set_rr rx s1')) by (apply p_rr; [exact H1|reflexivity]).
        split; [apply hh_scaled; exact H2|repeat split; reflexivity].
      * assert (H1 : sim false (set_rr squarter (set_kk (knew s) s)) (set_rr squarter (set_kk (knew s') s'))).
        { apply p_rr; [apply p_kk; [exact H|apply (s_knew _ _ _ H)]|reflexivity]. }
        split; [apply hh_scaled; exact H1|repeat split; reflexivity].
      * assert (H1 : sim false (set_rr squarter (set_kk 1 s)) (set_rr squarter (set_kk 1 s'))).
        { apply p_rr; [apply p_kk; [exact H|reflexivity]|reflexivity]. }
        split; [apply hh_scaled; exact H1|repeat split; reflexivity].
      * split; [exact H|repeat split; reflexivity].
    + assert (H1 : sim false (set_ncfn (ncfn s + 1) s) (set_ncfn (ncfn s' + 1) s')).
      { apply p_ncfn; [exact H|]. flds H. reflexivity. }
      revert H1. generalize (set_ncfn (ncfn s + 1) s) (set_ncfn (ncfn s' + 1) s'). clear s s' H. intros s s' H.
      assert (H1 : sim false (match r with RecConstraint => s | _ => set_rr squarter s end)
                             (match r with RecConstraint => s' | _ => set_rr squarter s' end)).
      { destruct r; first [exact H|apply p_rr; [exact H|reflexivity]]. }
      revert H1. generalize (match r with RecConstraint => s | _ => set_rr squarter s end)
                            (match r with RecConstraint => s' | _ => set_rr squarter s' end). clear s s' H. intros s s' H.
      pose proof (hh_scaled _ _ H) as H1. cbn [smul ScalarR].
      revert H1. generalize (set_hh (hh s * rr s) s) (set_hh (hh s' * rr s') s'). clear s s' H. intros s s' H.
      flds H. destruct (_ <? _)%nat; (split; [exact H|]); (split; [reflexivity|]); (split; [reflexivity|]); [reflexivity|].
      destruct r; reflexivity.
  - split; [|repeat split; reflexivity]. apply p_ncfn; [exact H|]. flds H. reflexivity.
  - split; [|repeat split; reflexivity]. apply p_ncfn; [exact H|]. flds H. reflexivity.
Qed.

Lemma reset_in s s' : sim false s s' -> orel (sim false) (reset prob s) (reset prob' s').
Proof.
  intros H. unfold reset. flds H. change (model_size prob') with n.
  eapply orel_bind; [apply aset_map; reflexivity|]. intros ps ps' ->. cbn [orel].
  apply (p_phi false); [apply p_psi; [exact H|reflexivity]|]. rewrite phi_false, !map_map. apply map_ext. intros p.
  apply vscale_sv. intros i. ring.
Qed.

Lemma choose_order_in s s' ek ek1 kd : sim false s s' ->
  orel eq (choose_order prob s ek ek1 kd) (choose_order prob' s' ek ek1 kd).
Proof.
  intros H. unfold choose_order. flds H. change (model_size prob') with n.
  eapply orel_bind; [apply orel_eq|]. intros km ? <-.
  destruct (_ =? _)%nat; [reflexivity|]. destruct (_ =? _)%nat; [reflexivity|]. destruct (_ || _); [reflexivity|].
  eapply orel_bind; [apply phi_row|]. intros p p' ->. rewrite vsub_sv, wn. apply orel_eq.
Qed.

Lemma doubled_in s s' : sim false s s' -> doubled s' = L * doubled s.
Proof.
  intros H. unfold doubled. flds H. cbn [stwo smul sabs sone sltb sdiv ScalarR].
  replace (Rabs (2 * (L * hh s)) * (hmax_inv s * / Rabs L)) with (Rabs (2 * hh s) * hmax_inv s).
  - destruct (Rltb _ _); unfold Rdiv; ring.
  - rewrite !Rabs_mult. replace (Rabs 2 * (Rabs L * Rabs (hh s)) * (hmax_inv s * / Rabs L))
      with (Rabs L * / Rabs L * (Rabs 2 * Rabs (hh s) * hmax_inv s)) by ring.
    rewrite Rinv_r by (pose proof HLa; lra). ring.
Qed.

Lemma choose_step_in s s' act ek ek1 ekp : sim false s s' ->
  orel (sim false) (choose_step s act ek ek1 ekp) (choose_step s' act ek ek1 ekp).
Proof.
  intros H. unfold choose_step.
  eapply orel_bind with (P := sims false (fun x => x)).
  { destruct act; flds H.
    - eapply orel_bind; [apply orel_eq|]. intros k ? <-. split; [apply p_kk; [exact H|reflexivity]|reflexivity].
    - split; [exact H|reflexivity].
    - split; [apply p_kk; [exact H|reflexivity]|reflexivity]. }
  clear s s' H. intros (s & e) (s' & e') (H & E). cbn [fst snd] in *. subst e'. cbv zeta. flds H.
  match goal with |- context [set_rr ?x s] => set (rx := x) end.
  assert (H1 : sim false (set_rr rx s) (set_rr rx s')) by (apply p_rr; [exact H|reflexivity]).
  revert H1. generalize (set_rr rx s) (set_rr rx s'). clear H. intros s1 s1' H1. flds H1.
  destruct (sleb _ _); [apply p_hh; [exact H1|apply doubled_in, H1]|].
  destruct (sleb _ _); [|exact H1].
  match goal with |- context [set_rr ?x s1] => set (ry := x) end.
  assert (H2 : sim false (set_rr ry s1) (set_rr ry s1')) by (apply p_rr; [exact H1|reflexivity]).
  apply hh_scaled. exact H2.
Qed.

Lemma update_phi_in s s' : sim false s s' -> orel (sim false) (update_phi prob s) (update_phi prob' s').
Proof.
  intros H. unfold update_phi. flds H. change (model_size prob') with n. rewrite phi_false.
  eapply orel_bind with (P := fun l l' => l' = map (sv m) l).
  { destruct (_ <? _)%nat; [|reflexivity]. apply aset_map. reflexivity. }
  intros ph ph' ->. rewrite map_length. eapply orel_bind; [apply orel_eq|]. intros _ _ _.
  eapply orel_bind with (P := fun a a' => fst a' = map (sv m) (fst a) /\ snd a' = sv m (snd a)).
  { apply for_range_rev_rel; [|split; reflexivity]. intros i (l & t) (l' & t') _ (E1 & E2). cbn [fst snd] in *. subst l' t'.
    eapply orel_bind; [apply aget_map|]. intros p p' ->. rewrite vadd_sv.
    eapply orel_bind; [apply aset_map; reflexivity|]. intros l2 l2' ->. split; reflexivity. }
  intros (l & t) (l' & t') (E1 & E2). cbn [fst snd] in *. subst l' t'. apply (p_phi false); [exact H|reflexivity].
Qed.

Lemma complete_step_in s s' ek ek1 : sim false s s' ->
  orel (sim false) (complete_step prob s ek ek1) (complete_step prob' s' ek ek1).
Proof.
  intros H. unfold complete_step. cbv zeta.
  assert (H1 : sim false (set_nst (nst s + 1) s) (set_nst (nst s' + 1) s')).
  { apply p_nst; [exact H|]. flds H. reflexivity. }
  revert H1. generalize (set_nst (nst s + 1) s) (set_nst (nst s' + 1) s'). clear s s' H. intros s s' H. flds H.
  assert (H1 : sim false (set_hused (hh s) (set_kused (kk s) s)) (set_hused (hh (set_kused (kk s) s')) (set_kused (kk s) s'))).
  { apply p_hused; [apply p_kused; [exact H|reflexivity]|]. apply (s_hh _ _ _ H). }
  change (hh (set_kused (kk s) s')) with (hh s') in *. change (hh (set_kused (kk s) s)) with (hh s).
  rewrite (s_hh _ _ _ H) in *. generalize (kk s =? kused s + 1)%nat. intros kd.
  revert H1. generalize (set_hused (hh s) (set_kused (kk s) s)) (set_hused (L * hh s) (set_kused (kk s) s')).
  clear s s' H. intros s s' H. flds H.
  eapply orel_bind; [apply orel_eq|]. intros km ? <-.
  match goal with |- context [if ?c then set_phase 1 s else s] => set (cc := c) end.
  assert (H1 : sim false (if cc then set_phase 1 s else s) (if cc then set_phase 1 s' else s')).
  { destruct cc; [apply p_phase; [exact H|reflexivity]|exact H]. }
  revert H1. generalize (if cc then set_phase 1 s else s) (if cc then set_phase 1 s' else s').
  clear H. clear cc. intros s1 s1' H1. flds H1.
  eapply orel_bind with (P := sim false); [|intros s2 s2' H2; apply update_phi_in, H2].
  destruct (phase s1 =? 0)%nat.
  - destruct (_ <? _)%nat; [|exact H1].
    assert (H2 : sim false (set_kk (kk s1 + 1) s1) (set_kk (kk s1 + 1) s1')) by (apply p_kk; [exact H1|reflexivity]).
    apply p_hh; [exact H2|apply doubled_in, H2].
  - eapply orel_bind; [apply choose_order_in, H1|]. intros (act & ekp) ? <-. apply choose_step_in, H1.
Qed.

Lemma step_init_in s s' : sim false s s' -> orel (sim false) (step_init s) (step_init s').
Proof.
  intros H. unfold step_init. flds H. destruct (_ =? _)%nat; [|exact H].
  eapply orel_bind; [apply aset_map; reflexivity|]. intros ps ps' ->. cbv zeta.
  assert (H1 : sim false (set_psi ps (set_hused szero (set_kused 0 (set_kk 1 s))))
                         (set_psi (map (Rmult L) ps) (set_hused szero (set_kused 0 (set_kk 1 s'))))).
  { apply p_psi; [|reflexivity]. apply p_hused; [|cbn; ring]. apply p_kused; [|reflexivity]. apply p_kk; [exact H|reflexivity]. }
  revert H1. generalize (set_psi ps (set_hused szero (set_kused 0 (set_kk 1 s))))
                        (set_psi (map (Rmult L) ps) (set_hused szero (set_kused 0 (set_kk 1 s')))).
  clear s s' H. intros s s' H. flds H. cbn [orel]. apply p_ns; [|reflexivity]. apply p_phase; [|reflexivity].
  apply p_cj; [exact H|]. unfold srecip. cbn. unfold Rdiv. rewrite Rinv_mult. ring.
Qed.

Definition ts_rel (a a' : state * R * R * R * result unit (err R)) : Prop :=
  let '(s, ck, ek, ek1, r) := a in let '(s', ck', ek', ek1', r') := a' in
  sim false s s' /\ ck' = ck /\ ek' = ek /\ ek1' = ek1 /\ r' = result_in u r.

Lemma try_step_in s s' : sim false s s' -> room s -> orel ts_rel (try_step prob s) (try_step prob' s').
Proof.
  intros H Hr. unfold try_step. flds H. cbv zeta.
  assert (H1 : sim false (on_lp (push_ev (CTry (tn (nlp s)) (hh s) (kk s))) s)
                         (on_lp (push_ev (CTry (L * tn (nlp s)) (L * hh s) (kk s))) s')).
  { apply p_push; [exact H|reflexivity]. }
  assert (Hr1 : room (on_lp (push_ev (CTry (tn (nlp s)) (hh s) (kk s))) s)) by exact Hr.
  revert H1 Hr1. generalize (on_lp (push_ev (CTry (tn (nlp s)) (hh s) (kk s))) s)
                         (on_lp (push_ev (CTry (L * tn (nlp s)) (L * hh s) (kk s))) s').
  clear s s' H Hr. intros s s' H Hr.
  eapply orel_bind_eq; [apply set_coeffs_in, H|]. clear s' H. intros (s1 & ck) (s' & ck') Ec (H & E). cbn [fst snd] in *. subst ck'.
  assert (Hr1 : room s1).
  { apply set_coeffs_frame in Ec. destruct Ec as (_ & E1 & _ & _ & _ & _ & E2 & _ & E3). intros ts Ht.
    injection E2 as E2 _ _ _ _. rewrite E2, E3. apply Hr. rewrite <- Ht. unfold outer in E1. injection E1. congruence. }
  eapply orel_bind; [apply predict_in, advance_tn_in; [exact H|exact Hr1]|]. clear s s1 s' H Hr Hr1 Ec. intros s s' H.
  eapply orel_bind; [apply nonlinear_solve_in, H|]. clear s s' H. intros (s & r) (s' & r') (H & E). cbn [fst snd] in *. subst r'.
  destruct r as [[]|e]; cbn [result_in]; [|repeat split; exact H].
  eapply orel_bind; [apply test_error_in, H|]. clear s s' H.
  intros (((s & ek) & ek1) & r) (((s' & ek') & ek1') & r') (H & -> & -> & -> & HE). cbn. 
  split; [exact H|]. repeat (split; [reflexivity|]). destruct r as [|e]; [reflexivity|]. rewrite (HE e eq_refl). reflexivity.
Qed.

Definition at_rel (a a' : state * nat * nat * result (option (R * R * R)) (err R)) : Prop :=
  let '(s, ncf, nef, r) := a in let '(s', ncf', nef', r') := a' in
  sim false s s' /\ ncf' = ncf /\ nef' = nef /\ r' = result_in u r.

Lemma attempt_step_in s s' t ncf nef : sim false s s' -> room s ->
  orel at_rel (attempt_step prob s t ncf nef) (attempt_step prob' s' (L * t) ncf nef).
Proof.
  intros H Hr. unfold attempt_step. eapply orel_bind; [apply try_step_in; [exact H|exact Hr]|]. clear s s' H Hr.
  intros ((((s & ck) & ek) & ek1) & r) ((((s' & ck') & ek') & ek1') & r') (H & -> & -> & -> & ->).
  destruct r as [[]|e]; cbn [result_in]; [repeat split; exact H|].
  eapply orel_bind; [apply restore_in, H|]. clear s s' H. intros s s' H.
  eapply orel_bind; [apply handle_n_flag_in, H|]. clear s s' H.
  intros (((s & ncf1) & nef1) & r) (((s' & ncf1') & nef1') & r') (H & -> & -> & ->).
  destruct r as [[]|e1]; cbn [result_in]; [|repeat split; exact H]. flds H.
  eapply orel_bind with (P := sim false).
  { destruct (_ =? _)%nat; [apply reset_in, H|exact H]. }
  clear s s' H. intros s s' H. repeat split; exact H.
Qed.

(** Inside a step of the old run, with the invariant of IdaStepR. *)
Definition inside (t : R) (nef : nat) (s : state) : Prop := instep s /\ J prob gc (Some (t, nef)) s.

Lemma inside_room t nef s : inside t nef s -> room s.
Proof.
  intros (_ & _ & Hr) ts Ht. assert (X : Some (t, nef) <> None) by discriminate.
  exact (proj2 (rl_stop _ _ _ Hr ts Ht (or_intror X)) X).
Qed.

Lemma step_loop_in fuel s s' t ncf nef : sim false s s' -> inside t nef s ->
  orel (simr false) (step_loop prob fuel s t ncf nef) (step_loop prob' fuel s' (L * t) ncf nef).
Proof.
  revert s s' ncf nef. induction fuel as [|fuel IH]; intros s s' ncf nef H Hi; cbn [step_loop]; [exact I|].
  eapply orel_bind_eq; [apply attempt_step_in; [exact H|exact (inside_room _ _ _ Hi)]|]. clear s' H.
  intros (((s1 & ncf1) & nef1) & r) (((s' & ncf1') & nef1') & r') Ea (H & -> & -> & ->).
  destruct r as [[x|]|e]; cbn [result_in]; [split; [exact H|reflexivity]| |split; [exact H|reflexivity]].
  apply IH; [exact H|]. destruct Hi as (Hi & HJ). pose proof (is_kk _ Hi) as K1. pose proof (is_max _ Hi) as K2.
  destruct (attempt_spec prob (newton_lawful nfuel) _ _ _ _ _ _ _ _ (is_arr _ Hi) (Nat.le_trans _ _ _ (proj2 K1) K2) Ea)
    as (sa & ck & ek & ek1 & r1 & Et & Ht & _ & [(_ & _ & _ & X)|[(-> & Hm & Hrt & -> & _ & _)|(e & _ & _ & [(_ & _ & _ & X & _)|(_ & X & _)])]]);
    try discriminate X.
  split; [exact (instep_retry prob _ _ _ _ _ _ Hi Ht Hrt)|].
  assert (At : attempted prob s sa (Err (EIda TestFail))).
  { eapply (try_step_calls prob (newton_lawful nfuel)); [apply Hi| |exact Et]. lia. }
  exact (J_retry prob (fun y => y) gc s t nef sa ck ek ek1 s1 Hi HJ Et Ht At Hm Hrt).
Qed.

Lemma step_in fuel s s' : sim false s s' -> ordok s -> inside (tn (nlp s)) 0 (st_init s) ->
  orel (simr false) (step prob fuel s) (step prob' fuel s').
Proof.
  intros H Ho Hi. unfold step. flds H.
  assert (H1 : sim false (on_lp (push_ev (begin_ev s)) s) (on_lp (push_ev (begin_ev s')) s')).
  { apply p_push; [exact H|]. unfold begin_ev. flds H. rewrite phi_false. cbn [event_in]. unfold y_in, w_in.
    f_equal. destruct (phi s); reflexivity. }
  eapply orel_bind_eq; [apply step_init_in, H1|]. clear H1. intros s1 s1' E1 H1.
  rewrite step_init_eq in E1 by (destruct Ho as ((_ & -> & _) & _); lia). apply ret_inj in E1. subst s1.
  eapply orel_bind; [apply step_loop_in; [exact H1|exact Hi]|]. clear s1' H1. intros (s1 & r) (s1' & r') (H1 & E). cbn [fst snd] in *. subst r'.
  destruct r as [((ck & ek) & ek1)|e]; cbn [result_in]; [|split; [exact H1|reflexivity]].
  eapply orel_bind; [apply complete_step_in, H1|]. clear s1 s1' H1. intros s1 s1' H1. flds H1. change (model_size prob') with n.
  set (s2 := on_lp _ s1). set (s2' := on_lp _ s1').
  assert (H2 : sim false s2 s2') by (apply p_push; [exact H1|reflexivity]). clearbody s2 s2'.
  split; [|reflexivity]. cbn [fst]. apply p_ee; [exact H2|]. flds H2. apply vscale_sv. intros i. ring.
Qed.

(** ** Root finding *)

Lemma call_root_in b s s' t y yp : sim b s s' ->
  exists g, snd (call_root prob s t y yp) = g /\
    sim b (fst (call_root prob s t y yp)) (fst (call_root prob' s' (L * t) (sv m y) (sv dm yp))) /\
    snd (call_root prob' s' (L * t) (sv m y) (sv dm yp)) = g.
Proof.
  intros H. exists (vtab nr (p_root prob t y yp)). unfold call_root. cbn [fst snd]. split; [reflexivity|].
  split; [apply p_push; [exact H|reflexivity]|]. cbn [problem_in p_root num_roots].
  apply vtab_ext. intros i _. rewrite t_back, y_back, yp_back. reflexivity.
Qed.

Ltac root_call H s g :=
  match goal with
  | |- context [call_root prob ?a ?t ?y ?yp] =>
      match goal with |- context [call_root prob' ?a' ?t' ?y' ?yp'] =>
        let E := fresh in
        destruct (call_root_in _ a a' t y yp H) as (g & E & s);
        destruct (call_root prob a t y yp), (call_root prob' a' t' y' yp'); cbn [fst snd] in E, s;
        let E2 := fresh in destruct s as (s & E2); subst
      end
  end.

Lemma root_ttol_in b s s' : sim b s s' -> root_ttol s' = Rabs L * root_ttol s.
Proof. intros H. unfold root_ttol. flds H. cbn. rewrite !Rabs_mult. ring. Qed.

Lemma r_check1_in s s' : sim true s s' -> orel (sim true) (r_check1 prob s) (r_check1 prob' s').
Proof.
  intros H. unfold r_check1. cbv zeta. change (num_roots prob') with nr. change (model_size prob') with n.
  assert (H1 : sim true (set_iroots (vzero nr) s) (set_iroots (vzero nr) s')) by (apply p_iroots; [exact H|reflexivity]).
  revert H1. generalize (set_iroots (vzero nr) s) (set_iroots (vzero nr) s'). clear s s' H. intros s s' H.
  assert (H1 : sim true (set_tlo (tn (nlp s)) s) (set_tlo (tn (nlp s')) s')) by (apply p_tlo; [exact H|apply (s_tn _ _ _ H)]).
  revert H1. generalize (set_tlo (tn (nlp s)) s) (set_tlo (tn (nlp s')) s'). clear s s' H. intros s s' H.
  assert (H1 : sim true (set_ttol (root_ttol s) s) (set_ttol (root_ttol s') s')).
  { apply p_ttol; [exact H|apply (root_ttol_in _ _ _ H)]. }
  revert H1. generalize (set_ttol (root_ttol s) s) (set_ttol (root_ttol s') s'). clear s s' H. intros s s' H. flds H.
  eapply orel_bind; [apply phi_row0|]. intros p0 p0' ->.
  eapply orel_bind; [apply phi_row1|]. intros p1 p1' ->.
  root_call H H1 g. clear H. rename i into s1, i0 into s1'.
  match goal with |- orel _ (if existsb ?f _ then _ else _) _ => idtac end.
  assert (H2 : sim true (set_nge 1 (set_glo g s1)) (set_nge 1 (set_glo g s1'))).
  { apply p_nge; [apply p_glo; [exact H1|reflexivity]|reflexivity]. }
  revert H2. generalize (set_nge 1 (set_glo g s1)) (set_nge 1 (set_glo g s1')). clear s1 s1' H1. clear s s'. intros s s' H. flds H.
  match goal with |- context [set_gactive ?x s] => set (ga := x) end.
  assert (H1 : sim true (set_gactive ga s) (set_gactive ga s')) by (apply p_gactive; [exact H|reflexivity]).
  generalize (existsb (fun i => (sabs (vget (glo s) i) =? szero)%sc) (seq 0 nr)). intros zr. clearbody ga.
  revert H1. generalize (set_gactive ga s) (set_gactive ga s'). clear s s' H. intros s s' H. flds H.
  destruct zr; [|exact H].
  assert (Eh : Rmax (Rabs L * ttol s / Rabs (L * hh s)) (/ 10) = Rmax (ttol s / Rabs (hh s)) (/ 10)).
  { f_equal. rewrite Rabs_mult. unfold Rdiv. rewrite Rinv_mult.
    replace (Rabs L * ttol s * (/ Rabs L * / Rabs (hh s))) with (Rabs L * / Rabs L * (ttol s * / Rabs (hh s))) by ring.
    rewrite Rinv_r by (pose proof HLa; lra). ring. }
  cbn [smax sdiv sabs spt1 smul sadd ScalarR]. rewrite Eh. set (hr := Rmax _ _).
  replace (hr * (L * hh s)) with (L * (hr * hh s)) by ring. set (sh := hr * hh s).
  replace (L * tlo s + L * sh) with (L * (tlo s + sh)) by ring.
  rewrite (vscaled_add_sv m dm n p0 (L * sh) sh p1)
    by (intros i; replace (L * sh * (m i * / L)) with (L * / L * (m i * sh)) by ring; rewrite Linv; ring).
  assert (H1 : sim true (on_nlp (set_yy (vscaled_add n p0 sh p1)) s) (on_nlp (set_yy (sv m (vscaled_add n p0 sh p1))) s')).
  { apply p_yy; [exact H|reflexivity]. }
  revert H1. generalize (on_nlp (set_yy (vscaled_add n p0 sh p1)) s) (on_nlp (set_yy (sv m (vscaled_add n p0 sh p1))) s').
  intros s1 s1' H1. flds H1. clear Eh.
  root_call H1 H2 g2. clear H1. 
  assert (H3 : sim true (set_nge (nge i + 1) (set_ghi g2 i)) (set_nge (nge i0 + 1) (set_ghi g2 i0))).
  { apply p_nge; [apply p_ghi; [exact H2|reflexivity]|]. flds H2. reflexivity. }
  change (nge (set_ghi g2 i)) with (nge i). change (nge (set_ghi g2 i0)) with (nge i0).
  revert H3. generalize (set_nge (nge i + 1) (set_ghi g2 i)) (set_nge (nge i0 + 1) (set_ghi g2 i0)).
  clear i i0 H2. intros s2 s2' H2. flds H2. cbn [orel].
  apply p_glo; [|reflexivity]. apply p_gactive; [exact H2|reflexivity].
Qed.

Lemma get_solution_in_h s s' t : sim false s s' ->
  orel (fun a a' => simr false a a' /\ hh (fst a) = hh s) (get_solution prob s t) (get_solution prob' s' (L * t)).
Proof.
  intros H. pose proof (get_solution_in s s' t H) as G.
  destruct (get_solution prob s t) as [(a & r)| |] eqn:Eg, (get_solution prob' s' (L * t)) as [(a' & r')| |];
    cbn [orel] in *; try tauto. split; [exact G|]. apply get_solution_frame in Eg. destruct Eg as (_ & _ & _ & E & _).
  unfold stepst in E. cbn [fst]. congruence.
Qed.

Lemma r_check2_in s s' : sim false s s' -> hh s <> 0 ->
  orel (simr false) (r_check2 prob s) (r_check2 prob' s').
Proof.
  intros H Hh. unfold r_check2. cbv zeta. flds H. change (num_roots prob') with nr. change (model_size prob') with n.
  destruct (negb (irfnd s)); [split; [exact H|reflexivity]|].
  eapply orel_bind; [apply get_solution_in_h, H|]. intros (s1 & r1) (s1' & r1') ((H1 & _) & E1). cbn [fst snd] in *.
  rewrite <- E1 in Hh. clear s s' H E1 r1 r1'. flds H1.
  assert (Hh2 : hh (fst (call_root prob s1 (tlo s1) (yy (nlp s1)) (yp (nlp s1)))) <> 0) by exact Hh.
  root_call H1 H2 g. cbn [fst] in Hh2. clear H1 s1 s1' Hh. rename i into s, i0 into s', H2 into H, Hh2 into Hh.
  change (nge (set_glo g s)) with (nge s). change (nge (set_glo g s')) with (nge s').
  assert (H1 : sim false (set_nge (nge s + 1) (set_glo g s)) (set_nge (nge s' + 1) (set_glo g s'))).
  { apply p_nge; [apply p_glo; [exact H|reflexivity]|]. flds H. reflexivity. }
  assert (Hh1 : hh (set_nge (nge s + 1) (set_glo g s)) <> 0) by exact Hh.
  revert H1 Hh1. generalize (set_nge (nge s + 1) (set_glo g s)) (set_nge (nge s' + 1) (set_glo g s')).
  clear s s' H Hh. intros s s' H Hh. flds H.
  generalize (existsb (fun i => bget (gactive s) i && (sabs (vget (glo s) i) =? szero)%sc) (seq 0 nr)). intros zr.
  match goal with |- context [set_iroots ?x s] => set (ir := x) end.
  assert (H1 : sim false (set_iroots ir s) (set_iroots ir s')) by (apply p_iroots; [exact H|reflexivity]).
  assert (Hh1 : hh (set_iroots ir s) <> 0) by exact Hh. clearbody ir.
  revert H1 Hh1. generalize (set_iroots ir s) (set_iroots ir s'). clear s s' H Hh. intros s s' H Hh.
  destruct zr; [|split; [exact H|reflexivity]].
  assert (H1 : sim false (set_ttol (root_ttol s) s) (set_ttol (root_ttol s') s')).
  { apply p_ttol; [exact H|apply (root_ttol_in _ _ _ H)]. }
  assert (Hh1 : hh (set_ttol (root_ttol s) s) <> 0) by exact Hh.
  revert H1 Hh1. generalize (set_ttol (root_ttol s) s) (set_ttol (root_ttol s') s'). clear s s' H Hh. intros s s' H Hh.
  flds H. cbn [smul ssignum sadd ssub sleb szero sdiv ScalarR].
  pose proof (signum_mul L (hh s) HL Hh) as S. set (sg := Rsignum (hh s)) in *. 
  replace (Rabs L * ttol s * Rsignum (L * hh s)) with (L * (ttol s * sg))
    by (replace (Rabs L * ttol s * Rsignum (L * hh s)) with (ttol s * (Rabs L * Rsignum (L * hh s))) by ring; rewrite S; ring).
  set (sh := ttol s * sg).
  replace (L * tlo s + L * sh) with (L * (tlo s + sh)) by ring. set (tp := tlo s + sh).
  rewrite (leb_mul (L * L) 0 ((tp - tn (nlp s)) * hh s) 0 ((L * tp - L * tn (nlp s)) * (L * hh s)) HL2) by ring.
  rewrite quot_in. clearbody sh tp.
  eapply orel_bind with (P := sim false).
  { destruct (Rleb _ _).
    - eapply orel_bind; [apply phi_row|]. intros p p' ->. cbn [orel]. apply p_on_nlp; [exact H| |reflexivity..].
      intros q. unfold nlp_in. cbn [set_yy yy]. rewrite (vscaled_add_sv m m n _ _ (sh / hh s)); [reflexivity|]. intros j. ring.
    - eapply orel_bind; [apply get_solution_in, H|]. intros (s1 & r1) (s1' & r1') (H1 & _). exact H1. }
  clear s s' H Hh S sg. intros s s' H. flds H.
  root_call H H1 g2. clear s s' H. rename i into s, i0 into s', H1 into H.
  change (nge (set_ghi g2 s)) with (nge s). change (nge (set_ghi g2 s')) with (nge s').
  assert (H1 : sim false (set_nge (nge s + 1) (set_ghi g2 s)) (set_nge (nge s' + 1) (set_ghi g2 s'))).
  { apply p_nge; [apply p_ghi; [exact H|reflexivity]|]. flds H. reflexivity. }
  revert H1. generalize (set_nge (nge s + 1) (set_ghi g2 s)) (set_nge (nge s' + 1) (set_ghi g2 s')).
  clear s s' H. intros s s' H. flds H.
  destruct (close_scan _ _ _ _ _ _) as (((ir2 & gl2) & close) & zr).
  assert (H1 : sim false (set_glo gl2 (set_iroots ir2 s)) (set_glo gl2 (set_iroots ir2 s'))).
  { apply p_glo; [apply p_iroots; [exact H|reflexivity]|reflexivity]. }
  revert H1. generalize (set_glo gl2 (set_iroots ir2 s)) (set_glo gl2 (set_iroots ir2 s')).
  clear s s' H. intros s s' H. flds H.
  destruct close; [split; [exact H|reflexivity]|]. destruct zr; (split; [exact H|reflexivity]).
Qed.

Lemma fracsub_in lo hi tol : fracsub (L * lo) (L * hi) (Rabs L * tol) = fracsub lo hi tol.
Proof.
  unfold fracsub. cbn [sabs ssub sdiv sltb sfive spt1 shalf ScalarR].
  replace (L * hi - L * lo) with (L * (hi - lo)) by ring. rewrite Rabs_mult.
  replace (Rabs L * Rabs (hi - lo) / (Rabs L * tol)) with (Rabs (hi - lo) / tol); [reflexivity|].
  unfold Rdiv. rewrite Rinv_mult.
  replace (Rabs L * Rabs (hi - lo) * (/ Rabs L * / tol)) with (Rabs L * / Rabs L * (Rabs (hi - lo) * / tol)) by ring.
  rewrite Rinv_r by (pose proof HLa; lra). ring.
Qed.

Lemma next_tmid_in lo hi tol al gl gh :
  next_tmid (L * lo) (L * hi) (Rabs L * tol) al gl gh = L * next_tmid lo hi tol al gl gh.
Proof.
  unfold next_tmid. rewrite fracsub_in. cbn [sabs ssub sdiv sltb smul sadd shalf ScalarR].
  replace (L * hi - (L * hi - L * lo) * gh / (gh - al * gl)) with (L * (hi - (hi - lo) * gh / (gh - al * gl)))
    by (unfold Rdiv; ring).
  set (t0 := hi - (hi - lo) * gh / (gh - al * gl)). set (f := fracsub lo hi tol).
  assert (C : forall a b, Rltb (Rabs (L * a - L * b)) (/ 2 * (Rabs L * tol)) = Rltb (Rabs (a - b)) (/ 2 * tol)).
  { intros a b. apply (ltb_mul (Rabs L)); [apply HLa| |ring]. rewrite <- Rabs_mult. f_equal. ring. }
  rewrite C. set (t1 := if Rltb (Rabs (t0 - lo)) (/ 2 * tol) then lo + f * (hi - lo) else t0).
  replace (if Rltb (Rabs (t0 - lo)) (/ 2 * tol) then L * lo + f * (L * hi - L * lo) else L * t0) with (L * t1)
    by (unfold t1; destruct (Rltb _ _); ring).
  clearbody t1. rewrite C. destruct (Rltb _ _); ring.
Qed.

Lemma width_in b s s' : sim b s s' ->
  Rleb (Rabs (thi s' - tlo s')) (ttol s') = Rleb (Rabs (thi s - tlo s)) (ttol s).
Proof.
  intros H. flds H. apply (leb_mul (Rabs L)); [apply HLa| |reflexivity]. rewrite <- Rabs_mult. f_equal. ring.
Qed.

Lemma root_loop_in fuel s s' al sp sd im : sim false s s' ->
  orel (sim false) (root_loop prob fuel s al sp sd im) (root_loop prob' fuel s' al sp sd im).
Proof.
  revert s s' al sp sd im. induction fuel as [|fuel IH]; intros s s' al sp sd im H; cbn [root_loop]; [exact I|].
  cbn [sleb sabs ssub ScalarR]. rewrite (width_in _ _ _ H). destruct (Rleb _ _); [exact H|]. cbv zeta. flds H.
  eapply orel_bind; [apply orel_eq|]. intros gh ? <-. eapply orel_bind; [apply orel_eq|]. intros gl ? <-.
  rewrite next_tmid_in. set (tm := next_tmid _ _ _ _ _ _). clearbody tm.
  eapply orel_bind; [apply get_solution_in, H|]. clear s s' H. intros (s & r) (s' & r') (H & _). cbn [fst] in H. flds H.
  root_call H H1 g. clear s s' H. rename i into s, i0 into s', H1 into H.
  change (nge (set_grout g s)) with (nge s). change (nge (set_grout g s')) with (nge s').
  assert (H1 : sim false (set_nge (nge s + 1) (set_grout g s)) (set_nge (nge s' + 1) (set_grout g s'))).
  { apply p_nge; [apply p_grout; [exact H|reflexivity]|]. flds H. reflexivity. }
  revert H1. generalize (set_nge (nge s + 1) (set_grout g s)) (set_nge (nge s' + 1) (set_grout g s')).
  clear s s' H. intros s s' H. flds H. change (scan2 prob') with (scan2 prob).
  destruct (scan2 prob _ _ _ _ _) as (((zr & sc) & mf) & im2).
  change (grout (set_thi tm s)) with (grout s). change (grout (set_thi (L * tm) s')) with (grout s').
  change (grout (set_tlo tm s)) with (grout s). change (grout (set_tlo (L * tm) s')) with (grout s'). flds H.
  assert (Ha : sim false (set_ghi (grout s) (set_thi tm s)) (set_ghi (grout s) (set_thi (L * tm) s'))).
  { apply p_ghi; [apply p_thi; [exact H|reflexivity]|reflexivity]. }
  assert (Hb : sim false (set_glo (grout s) (set_tlo tm s)) (set_glo (grout s) (set_tlo (L * tm) s'))).
  { apply p_glo; [apply p_tlo; [exact H|reflexivity]|reflexivity]. }
  destruct sc; [|destruct zr].
  - rewrite (width_in _ _ _ Ha). destruct (Rleb _ _); [exact Ha|]. apply IH, Ha.
  - exact Ha.
  - rewrite (width_in _ _ _ Hb). destruct (Rleb _ _); [exact Hb|]. apply IH, Hb.
Qed.

Definition simx {A} b (a a' : state * A) : Prop := sim b (fst a) (fst a') /\ snd a' = snd a.

Lemma root_find_in fuel s s' : sim false s s' ->
  orel (simx false) (root_find prob fuel s) (root_find prob' fuel s').
Proof.
  intros H. unfold root_find. change (scan1 prob') with (scan1 prob). change (num_roots prob') with nr.
  replace (scan1 prob (gactive s') (rootdir s') (glo s') (ghi s')) with (scan1 prob (gactive s) (rootdir s) (glo s) (ghi s))
    by (flds H; reflexivity).
  destruct (scan1 prob _ _ _ _) as (((zr & sc) & mf) & im). cbv zeta.
  assert (G : forall s s', sim false s s' -> sim false (set_grout (ghi s) (set_trout (thi s) s)) (set_grout (ghi s') (set_trout (thi s') s'))).
  { intros a a' Ha. apply p_grout; [apply p_trout; [exact Ha|apply (s_thi _ _ _ Ha)]|apply (s_ghi _ _ _ Ha)]. }
  destruct (negb sc).
  - specialize (G _ _ H).
    revert G. generalize (set_grout (ghi s) (set_trout (thi s) s)) (set_grout (ghi s') (set_trout (thi s') s')).
    clear s s' H. intros s s' H. destruct (negb zr); [split; [exact H|reflexivity]|]. flds H.
    split; [|reflexivity]. cbn [fst]. apply p_iroots; [exact H|reflexivity].
  - eapply orel_bind; [apply root_loop_in, H|]. clear s s' H. intros s s' H. specialize (G _ _ H).
    revert G. generalize (set_grout (ghi s) (set_trout (thi s) s)) (set_grout (ghi s') (set_trout (thi s') s')).
    clear s s' H. intros s s' H. flds H. split; [|reflexivity]. cbn [fst]. apply p_iroots; [exact H|reflexivity].
Qed.

Lemma r_check3_in fuel s s' : sim false s s' ->
  orel (simx false) (r_check3 prob fuel s) (r_check3 prob' fuel s').
Proof.
  intros H. unfold r_check3. cbv zeta. flds H. change (num_roots prob') with nr.
  set (hi := match taskc s with OneStep => tn (nlp s) | Normal => _ end).
  match goal with |- orel _ _ (let* (st, _) := get_solution prob' (set_thi ?x s') _ in _) => replace x with (L * hi) end.
  2:{ unfold hi. destruct (taskc s); [|reflexivity]. cbn [sleb szero ssub smul ScalarR].
      rewrite (leb_mul (L * L) 0 ((toutc s - tn (nlp s)) * hh s) 0 ((L * toutc s - L * tn (nlp s)) * (L * hh s)) HL2) by ring.
      destruct (Rleb _ _); reflexivity. }
  clearbody hi.
  assert (H1 : sim false (set_thi hi s) (set_thi (L * hi) s')) by (apply p_thi; [exact H|reflexivity]).
  revert H1. generalize (set_thi hi s) (set_thi (L * hi) s'). clear s s' H. intros s s' H. flds H.
  eapply orel_bind; [apply get_solution_in, H|]. clear s s' H. intros (s & r) (s' & r') (H & _). cbn [fst] in H. flds H.
  root_call H H1 g. clear s s' H. rename i into s, i0 into s', H1 into H.
  change (nge (set_ghi g s)) with (nge s). change (nge (set_ghi g s')) with (nge s').
  assert (H1 : sim false (set_nge (nge s + 1) (set_ghi g s)) (set_nge (nge s' + 1) (set_ghi g s'))).
  { apply p_nge; [apply p_ghi; [exact H|reflexivity]|]. flds H. reflexivity. }
  revert H1. generalize (set_nge (nge s + 1) (set_ghi g s)) (set_nge (nge s' + 1) (set_ghi g s')).
  clear s s' H. intros s s' H.
  assert (H1 : sim false (set_ttol (root_ttol s) s) (set_ttol (root_ttol s') s')).
  { apply p_ttol; [exact H|apply (root_ttol_in _ _ _ H)]. }
  revert H1. generalize (set_ttol (root_ttol s) s) (set_ttol (root_ttol s') s'). clear s s' H. intros s s' H.
  eapply orel_bind; [apply root_find_in, H|]. clear s s' H. intros (s & ier) (s' & ier') (H & E). cbn [fst snd] in *. subst ier'.
  flds H. match goal with |- context [set_gactive ?x s] => set (ga := x) end. clearbody ga.
  assert (H1 : sim false (set_gactive ga s) (set_gactive ga s')) by (apply p_gactive; [exact H|reflexivity]).
  revert H1. generalize (set_gactive ga s) (set_gactive ga s'). clear s s' H. intros s s' H.
  change (grout (set_tlo (trout s) s)) with (grout s). change (grout (set_tlo (trout s') s')) with (grout s').
  assert (H1 : sim false (set_glo (grout s) (set_tlo (trout s) s)) (set_glo (grout s') (set_tlo (trout s') s'))).
  { apply p_glo; [apply p_tlo; [exact H|apply (s_trout _ _ _ H)]|apply (s_grout _ _ _ H)]. }
  revert H1. generalize (set_glo (grout s) (set_tlo (trout s) s)) (set_glo (grout s') (set_tlo (trout s') s')).
  clear s s' H. intros s s' H. destruct ier; [|split; [exact H|reflexivity]]. flds H.
  eapply orel_bind; [apply get_solution_in, H|]. clear s s' H. intros (s & r1) (s' & r1') (H & _). cbn [fst] in H.
  split; [exact H|reflexivity].
Qed.

(** ** Stop tests *)
Definition simans b (a a' : state * R * result solve_status (err R)) : Prop :=
  sim b (fst (fst a)) (fst (fst a')) /\ snd (fst a') = L * snd (fst a) /\ snd a' = result_in u (snd a).

Lemma simans_ret b s s' t t' r r' : sim b s s' -> t' = L * t -> r' = result_in u r -> simans b (s, t, r) (s', t', r').
Proof. intros. split; [assumption|]. split; assumption. Qed.

Lemma at_tstop_in b s s' ts : sim b s s' -> at_tstop s' (L * ts) = at_tstop s ts.
Proof.
  intros H. unfold at_tstop. flds H. cbn [sabs ssub smul sadd sleb shundred seps ScalarR].
  apply (leb_mul (Rabs L)); [apply HLa| |rewrite !Rabs_mult; ring].
  rewrite <- Rabs_mult. f_equal. ring.
Qed.

Lemma limit_in b s s' ts : sim b s s' -> sim b (limit_to_tstop s ts) (limit_to_tstop s' (L * ts)).
Proof.
  intros H. unfold limit_to_tstop. flds H. cbn [sabs ssub smul sadd sltb szero ScalarR].
  rewrite (ltb_mul (L * L) 0 ((tn (nlp s) + hh s - ts) * hh s) 0 ((L * tn (nlp s) + L * hh s - L * ts) * (L * hh s)) HL2) by ring.
  destruct (Rltb _ _); [|exact H]. apply p_hh; [exact H|]. cbn [sone sfour seps ssub ScalarR]. ring.
Qed.

Lemma prod_ltb a b c : Rltb 0 ((L * a - L * b) * (L * c)) = Rltb 0 ((a - b) * c).
Proof. apply (ltb_mul (L * L)); [apply HL2|ring|ring]. Qed.
Lemma prod_leb a b c : Rleb 0 ((L * a - L * b) * (L * c)) = Rleb 0 ((a - b) * c).
Proof. apply (leb_mul (L * L)); [apply HL2|ring|ring]. Qed.

Lemma stop_test1_in s s' tout tret task : sim false s s' ->
  orel (simans false) (stop_test1 prob s tout tret task) (stop_test1 prob' s' (L * tout) (L * tret) task).
Proof.
  intros H. unfold stop_test1. cbv zeta. flds H.
  cbn [sltb sleb szero ssub smul seqb ScalarR].
  set (past := match tstop s with Some ts => Rltb 0 ((tn (nlp s) - ts) * hh s) | None => false end).
  replace (match option_map (Rmult L) (tstop s) with
           | Some ts => Rltb 0 ((L * tn (nlp s) - ts) * (L * hh s)) | None => false end) with past
    by (unfold past; destruct (tstop s); cbn [option_map]; [rewrite prod_ltb|]; reflexivity).
  rewrite !prod_leb, !prod_ltb. rewrite (eqb_mul L tout (tretlast s) _ _ HL eq_refl eq_refl).
  assert (G : orel (simans false)
    match task with
    | Normal => if Reqb tout (tretlast s) then Ret (set_tretlast tout s, tout, Ok Success)
      else if Rleb 0 ((tn (nlp s) - tout) * hh s)
      then let* (st, r) := get_solution prob s tout in
           match r with Ok _ => Ret (set_tretlast tout st, tout, Ok Success) | Err e => Ret (st, tret, Err e) end
      else match tstop s with
           | Some ts => if at_tstop s ts
               then let* (st, r) := get_solution prob s ts in
                    match r with
                    | Ok _ => Ret (set_tstop None (set_tretlast ts st), ts, Ok TStop)
                    | Err _ => Ret (st, tret, Err (EIda (BadStopTime ts (tn (nlp st))))) end
               else Ret (limit_to_tstop s ts, tret, Ok ContinueSteps)
           | None => Ret (s, tret, Ok ContinueSteps) end
    | OneStep => if Rltb 0 ((tn (nlp s) - tretlast s) * hh s)
      then let* (st, _) := get_solution prob s (tn (nlp s)) in Ret (set_tretlast (tn (nlp st)) st, tn (nlp st), Ok Success)
      else match tstop s with
           | Some ts => if at_tstop s ts
               then let* (st, r) := get_solution prob s ts in
                    match r with Ok _ => Ret (set_tretlast ts st, ts, Ok TStop) | Err e => Ret (st, tret, Err e) end
               else Ret (limit_to_tstop s ts, tret, Ok ContinueSteps)
           | None => Ret (s, tret, Ok ContinueSteps) end
    end
    match task with
    | Normal => if Reqb tout (tretlast s) then Ret (set_tretlast (L * tout) s', L * tout, Ok Success)
      else if Rleb 0 ((tn (nlp s) - tout) * hh s)
      then let* (st, r) := get_solution prob' s' (L * tout) in
           match r with Ok _ => Ret (set_tretlast (L * tout) st, L * tout, Ok Success) | Err e => Ret (st, L * tret, Err e) end
      else match option_map (Rmult L) (tstop s) with
           | Some ts => if at_tstop s' ts
               then let* (st, r) := get_solution prob' s' ts in
                    match r with
                    | Ok _ => Ret (set_tstop None (set_tretlast ts st), ts, Ok TStop)
                    | Err _ => Ret (st, L * tret, Err (EIda (BadStopTime ts (tn (nlp st))))) end
               else Ret (limit_to_tstop s' ts, L * tret, Ok ContinueSteps)
           | None => Ret (s', L * tret, Ok ContinueSteps) end
    | OneStep => if Rltb 0 ((tn (nlp s) - tretlast s) * hh s)
      then let* (st, _) := get_solution prob' s' (L * tn (nlp s)) in Ret (set_tretlast (tn (nlp st)) st, tn (nlp st), Ok Success)
      else match option_map (Rmult L) (tstop s) with
           | Some ts => if at_tstop s' ts
               then let* (st, r) := get_solution prob' s' ts in
                    match r with Ok _ => Ret (set_tretlast ts st, ts, Ok TStop) | Err e => Ret (st, L * tret, Err e) end
               else Ret (limit_to_tstop s' ts, L * tret, Ok ContinueSteps)
           | None => Ret (s', L * tret, Ok ContinueSteps) end
    end).
  { destruct task.
    - destruct (Reqb _ _). { apply simans_ret; [apply p_tretlast; [exact H|]|..]; reflexivity. }
      destruct (Rleb _ _).
      { eapply orel_bind; [apply get_solution_in, H|]. intros (s1 & r1) (s1' & r1') (H1 & E). cbn [fst snd] in *. subst r1'.
        destruct r1; cbn [result_in]; (apply simans_ret; [try (apply p_tretlast; [|reflexivity]); exact H1|reflexivity..]). }
      destruct (tstop s) as [ts|]; cbn [option_map]; [|apply simans_ret; [exact H|reflexivity..]].
      rewrite (at_tstop_in _ _ _ _ H). destruct (at_tstop s ts); [|apply simans_ret; [apply limit_in, H|reflexivity..]].
      eapply orel_bind; [apply get_solution_in, H|]. intros (s1 & r1) (s1' & r1') (H1 & E). cbn [fst snd] in *. subst r1'.
      destruct r1; cbn [result_in]; (apply simans_ret; [|reflexivity|]);
        [apply p_tstop, p_tretlast; [exact H1|reflexivity]|reflexivity|exact H1|flds H1; reflexivity].
    - destruct (Rltb _ _).
      { eapply orel_bind; [apply get_solution_in, H|]. intros (s1 & r1) (s1' & r1') (H1 & E). cbn [fst snd] in *. subst r1'.
        apply simans_ret; [apply p_tretlast; [exact H1|]|..]; flds H1; reflexivity. }
      destruct (tstop s) as [ts|]; cbn [option_map]; [|apply simans_ret; [exact H|reflexivity..]].
      rewrite (at_tstop_in _ _ _ _ H). destruct (at_tstop s ts); [|apply simans_ret; [apply limit_in, H|reflexivity..]].
      eapply orel_bind; [apply get_solution_in, H|]. intros (s1 & r1) (s1' & r1') (H1 & E). cbn [fst snd] in *. subst r1'.
      destruct r1; cbn [result_in]; (apply simans_ret; [try (apply p_tretlast; [|reflexivity]); exact H1|reflexivity..]). }
  destruct past; [|destruct (tstop s); exact G].
  destruct (tstop s) as [ts|]; [|exact G]. cbn [option_map].
  apply simans_ret; [exact H|reflexivity..].
Qed.

Definition sum_rel {A A' B B'} (P : A -> A' -> Prop) (Q : B -> B' -> Prop) (x : A + B) (y : A' + B') : Prop :=
  match x, y with inl a, inl a' => P a a' | inr b, inr b' => Q b b' | _, _ => False end.

Lemma stop2_tstop_in s s' : sim false s s' ->
  orel (sum_rel (simans false) (sim false)) (stop2_tstop prob s) (stop2_tstop prob' s').
Proof.
  intros H. unfold stop2_tstop. flds H. destruct (tstop s) as [ts|]; cbn [option_map]; [|exact H].
  rewrite (at_tstop_in _ _ _ _ H). destruct (at_tstop s ts); [|cbn [orel sum_rel]; apply limit_in, H].
  eapply orel_bind; [apply get_solution_in, H|]. intros (s1 & r1) (s1' & r1') (H1 & E).
  cbn [orel sum_rel]. apply simans_ret; [apply p_tstop, p_tretlast; [exact H1|reflexivity]|reflexivity..].
Qed.

Lemma stop_test2_in s s' tout tret task : sim false s s' ->
  orel (simans false) (stop_test2 prob s tout tret task) (stop_test2 prob' s' (L * tout) (L * tret) task).
Proof.
  intros H. unfold stop_test2. destruct task.
  - flds H. cbn [sleb szero ssub smul ScalarR]. rewrite prod_leb. destruct (Rleb _ _).
    + eapply orel_bind; [apply get_solution_in, p_tretlast; [exact H|reflexivity]|].
      intros (s1 & r1) (s1' & r1') (H1 & E). apply simans_ret; [exact H1|reflexivity..].
    + eapply orel_bind; [apply stop2_tstop_in, H|]. intros [a|a] [a'|a'] X; try contradiction.
      * exact X.
      * apply simans_ret; [exact X|reflexivity..].
  - eapply orel_bind; [apply stop2_tstop_in, H|]. intros [a|a] [a'|a'] X; try contradiction.
      * exact X.
      * apply simans_ret; [apply p_tretlast; [exact X|]|..]; flds X; reflexivity.
Qed.

(** ** The first call *)
Variables ewt_set ewt_set' : list R -> list R.
Hypothesis Hw : forall y, ewt_set' (sv m y) = sv wm (ewt_set y).

Lemma initial_setup_in s s' : sim true s s' -> orel (sim true) (initial_setup ewt_set s) (initial_setup ewt_set' s').
Proof.
  intros H. unfold initial_setup. flds H. eapply orel_bind; [apply phi_row0|]. intros p p' ->.
  cbn [orel]. apply p_ewt; [exact H|apply Hw].
Qed.

Lemma ypnorm_in id p w b : wrms_norm id (sv dm p) (sv wm w) b = / Rabs L * wrms_norm id p w b.
Proof.
  replace (sv dm p) with (sv m (sv (fun _ => / L) p)) by (rewrite sv_sv; reflexivity).
  rewrite wn, wrms_norm_scal. f_equal. apply Rabs_inv.
Qed.

Lemma first_step_in s s' tout : sim true s s' ->
  orel (sum_rel (simx true) (sim true)) (first_step s tout) (first_step s' (L * tout)).
Proof.
  intros H. unfold first_step. cbv zeta. flds H. pose proof HL as HL0. pose proof HLa as HLa0.
  cbn [sltb sleb seqb szero sone stwo shalf ssub smul sadd sabs sdiv sneg ScalarR].
  change (hh (set_hh (hin s) s)) with (hin s). change (hh (set_hh (L * hin s) s')) with (L * hin s).
  change (nlp (set_hh (hin s) s)) with (nlp s). change (nlp (set_hh (L * hin s) s')) with (nlp s').
  rewrite (s_tn _ _ _ H).
  replace (Rabs (L * tout - L * tn (nlp s))) with (Rabs L * Rabs (tout - tn (nlp s))) by (rewrite <- Rabs_mult; f_equal; ring).
  rewrite (eqb_mul (Rabs L) (Rabs (tout - tn (nlp s))) 0 (Rabs L * Rabs (tout - tn (nlp s))) 0) by (try ring; lra).
  rewrite (ltb_mul (Rabs L) (Rabs (tout - tn (nlp s))) (2 * seps * (Rabs (tn (nlp s)) + Rabs tout))
     (Rabs L * Rabs (tout - tn (nlp s))) (2 * seps * (Rabs (L * tn (nlp s)) + Rabs (L * tout))))
    by (try rewrite !Rabs_mult; try ring; lra).
  destruct (Reqb (Rabs (tout - tn (nlp s))) 0) eqn:Z; [split; [exact H|reflexivity]|]. apply Reqb_false in Z.
  destruct (Rltb _ _); [split; [exact H|reflexivity]|].
  assert (H1 : sim true (set_hh (hin s) s) (set_hh (L * hin s) s')) by (apply p_hh; [exact H|reflexivity]).
  rewrite (neqb_mul L (hin s) 0 (L * hin s) 0) by (try ring; exact HL0).
  rewrite (ltb_mul (L * L) ((tout - tn (nlp s)) * hin s) 0 ((L * tout - L * tn (nlp s)) * (L * hin s)) 0) by (try ring; apply HL2).
  destruct (sneqb _ _ && _); [split; [exact H1|reflexivity]|].
  rewrite (eqb_mul L (hin s) 0 (L * hin s) 0) by (try ring; exact HL0).
  eapply orel_bind with (P := sim true).
  { destruct (Reqb (hin s) 0); [|exact H1].
    change (phi (set_hh _ (set_hh (hin s) s))) with (phi s). change (phi (set_hh _ (set_hh (L * hin s) s'))) with (phi s').
    flds H. eapply orel_bind; [apply phi_row1|]. intros p p' ->. cbn [orel].
    repeat match goal with |- context [set_hh ?a (set_hh ?b ?x)] => change (set_hh a (set_hh b x)) with (set_hh a x) end.
    repeat match goal with |- context [idv (set_hh ?a ?x)] => change (idv (set_hh a x)) with (idv x) end.
    repeat match goal with |- context [suppressalg (set_hh ?a ?x)] => change (suppressalg (set_hh a x)) with (suppressalg x) end.
    repeat match goal with |- context [nlp (set_hh ?a ?x)] => change (nlp (set_hh a x)) with (nlp x) end.
    repeat match goal with |- context [hh (set_hh ?a ?x)] => change (hh (set_hh a x)) with a end.
    flds H. rewrite ypnorm_in. set (yn := wrms_norm _ p _ _). set (d := spt001 * Rabs (tout - tn (nlp s))).
    replace (spt001 * (Rabs L * Rabs (tout - tn (nlp s)))) with (Rabs L * d) by (unfold d; ring).
    replace (2 / (Rabs L * d)) with (/ Rabs L * (2 / d)) by (unfold Rdiv; rewrite Rinv_mult; ring).
    rewrite (ltb_mul (/ Rabs L) (2 / d) yn (/ Rabs L * (2 / d)) (/ Rabs L * yn)) by (try reflexivity; apply Rinv_0_lt_compat, HLa).
    set (h := if Rltb (2 / d) yn then / 2 / yn else d).
    assert (E1 : (if Rltb (2 / d) yn then set_hh (/ 2 / yn) (set_hh d s) else set_hh d s) = set_hh h s)
      by (unfold h; destruct (Rltb _ _); reflexivity).
    assert (E2 : (if Rltb (2 / d) yn then set_hh (/ 2 / (/ Rabs L * yn)) (set_hh (Rabs L * d) s') else set_hh (Rabs L * d) s')
                 = set_hh (Rabs L * h) s').
    { unfold h; destruct (Rltb _ _); [|reflexivity].
      replace (/ 2 / (/ Rabs L * yn)) with (Rabs L * (/ 2 / yn)) by (unfold Rdiv; rewrite Rinv_mult, Rinv_inv; ring). reflexivity. }
    change (set_hh (/ 2 / yn) (set_hh d s)) with (set_hh (/ 2 / yn) s) in E1.
    change (set_hh (/ 2 / (/ Rabs L * yn)) (set_hh (Rabs L * d) s')) with (set_hh (/ 2 / (/ Rabs L * yn)) s') in E2.
    rewrite E1, E2. clear E1 E2. clearbody h.
    change (nlp (set_hh h s)) with (nlp s). change (nlp (set_hh (Rabs L * h) s')) with (nlp s'). flds H.
    change (hh (set_hh h s)) with h. change (hh (set_hh (Rabs L * h) s')) with (Rabs L * h).
    change (set_hh (- h) (set_hh h s)) with (set_hh (- h) s).
    change (set_hh (- (Rabs L * h)) (set_hh (Rabs L * h) s')) with (set_hh (- (Rabs L * h)) s').
    assert (Z2 : tout - tn (nlp s) <> 0) by (intros E; apply Z; rewrite E; apply Rabs_R0).
    destruct (Rlt_or_le 0 L) as [P|P].
    - rewrite (ltb_mul L tout (tn (nlp s)) _ _ P eq_refl eq_refl). rewrite (Rabs_right L) by lra.
      destruct (Rltb _ _); (apply p_hh; [exact H|ring]).
    - rewrite (Rabs_left L) by lra.
      assert (E : Rltb (L * tout) (L * tn (nlp s)) = negb (Rltb tout (tn (nlp s)))).
      { destruct (Rltb tout (tn (nlp s))) eqn:A; cbn [negb].
        - apply Rltb_true in A. apply Rltb_false. nra.
        - apply Rltb_false in A. apply Rltb_true. nra. }
      rewrite E. destruct (Rltb tout (tn (nlp s))); cbn [negb]; (apply p_hh; [exact H|ring]). }
  clear s s' H H1 Z. intros s s' H. flds H.
  replace (Rabs (L * hh s) * (hmax_inv s * / Rabs L)) with (Rabs (hh s) * hmax_inv s).
  2:{ rewrite Rabs_mult. replace (Rabs L * Rabs (hh s) * (hmax_inv s * / Rabs L)) with (Rabs L * / Rabs L * (Rabs (hh s) * hmax_inv s)) by ring.
      rewrite Rinv_r by lra. ring. }
  set (rh := Rabs (hh s) * hmax_inv s).
  assert (H1 : sim true (if Rltb 1 rh then set_hh (hh s / rh) s else s) (if Rltb 1 rh then set_hh (L * hh s / rh) s' else s')).
  { destruct (Rltb _ _); [|exact H]. apply p_hh; [exact H|unfold Rdiv; ring]. }
  clearbody rh. revert H1.
  generalize (if Rltb 1 rh then set_hh (hh s / rh) s else s) (if Rltb 1 rh then set_hh (L * hh s / rh) s' else s').
  clear s s' H. intros s s' H. flds H.
  destruct (tstop s) as [ts|]; cbn [option_map]; [|exact H].
  rewrite (leb_mul (L * L) ((ts - tn (nlp s)) * hh s) 0 ((L * ts - L * tn (nlp s)) * (L * hh s)) 0) by (try ring; apply HL2).
  destruct (Rleb _ _); [split; [exact H|reflexivity]|]. cbn [orel sum_rel]. apply limit_in, H.
Qed.

Lemma first_call_in s s' tout : sim true s s' ->
  orel (sum_rel (simx true) (sim false)) (first_call prob ewt_set s tout) (first_call prob' ewt_set' s' (L * tout)).
Proof.
  intros H. unfold first_call. flds H.
  eapply orel_bind with (P := sim true).
  { destruct (setup_done s); [exact H|]. eapply orel_bind; [apply initial_setup_in, H|].
    intros a a' Ha. cbn [orel]. apply p_setup_done; [exact Ha|reflexivity]. }
  clear s s' H. intros s s' H. eapply orel_bind; [apply first_step_in, H|].
  clear s s' H. intros [e|s] [e'|s'] H; try contradiction; [exact H|]. cbn [sum_rel] in H. flds H.
  assert (H1 : sim true (set_kused 0 (set_kk 0 (set_h0u (hh s) s))) (set_kused 0 (set_kk 0 (set_h0u (L * hh s) s')))).
  { apply p_kused; [apply p_kk; [apply p_h0u; [exact H|]|]|]; reflexivity. }
  revert H1. generalize (set_kused 0 (set_kk 0 (set_h0u (hh s) s))) (set_kused 0 (set_kk 0 (set_h0u (L * hh s) s'))).
  clear s s' H. intros s s' H. flds H.
  eapply orel_bind with (P := sim true). { destruct (0 <? nrtfn s)%nat; [apply r_check1_in, H|exact H]. }
  clear s s' H. intros s s' H. flds H. change (model_size prob') with n.
  eapply orel_bind; [apply phi_row1|]. intros p p' ->.
  eapply orel_bind; [apply phi_set1, (vscale_sv dm m n (L * hh s) (hh s) p)|].
  { intros i. replace (m i * / L * (L * hh s)) with (m i * hh s * (L * / L)) by ring. rewrite Linv. ring. }
  intros ph ph' ->. cbn [orel sum_rel].
  assert (H1 : sim false (set_phi ph s) (set_phi (map (sv m) ph) s')) by (eapply p_phi; [exact H|reflexivity]).
  revert H1. change (epcon (set_phi ph s)) with (epcon s). change (epcon (set_phi (map (sv m) ph) s')) with (epcon s'). flds H.
  generalize (epcon s) as ep. generalize (set_phi ph s) (set_phi (map (sv m) ph) s'). clear s s' H. intros s s' ep H.
  apply p_toldel; [apply p_eps_newt; [exact H|reflexivity]|reflexivity].
Qed.

(** ** Later calls *)
Lemma perf_in b s s' f : sim b s s' ->
  orel (fun l l' => sim b (on_lp (fun _ => l) s) (on_lp (fun _ => l') s'))
    (ls_perf (lp (nlp s)) (nst s) (nni s) (ncfn s) f) (ls_perf (lp (nlp s')) (nst s') (nni s') (ncfn s') f).
Proof.
  intros (q & -> & HR).
  assert (G : forall l, lp_ls l = lp_ls (lp (nlp s)) -> lp_matj l = lp_matj (lp (nlp s)) ->
    sim b (on_lp (fun _ => l) s) (on_lp (fun _ => lp_in q l) (st_in b q s))).
  { intros l E1 E2. exists q. split; [reflexivity|]. unfold q_of in *. cbn. rewrite E1, E2. exact HR. }
  unfold ls_perf. cbn [st_in nlp nst nni ncfn nlp_in lp]. cbn [lp_in nst0 nni0 ncfn0 ncfl0 ncfl].
  destruct (negb f). { cbn [orel]. apply (G (set_nwarn 0 (set_ncfl0 (ncfl (lp (nlp s))) (set_ncfn0 (ncfn s) (set_nni0 (nni s) (set_nst0 (nst s) (lp (nlp s)))))))); reflexivity. }
  eapply orel_bind; [apply orel_eq|]. intros nstd ? <-. eapply orel_bind; [apply orel_eq|]. intros nnid ? <-.
  destruct (_ || _). { cbn [orel]. apply G; reflexivity. }
  eapply orel_bind; [apply orel_eq|]. intros dcfn ? <-. eapply orel_bind; [apply orel_eq|]. intros dcfl ? <-. cbv zeta.
  destruct (negb _). { cbn [orel]. apply G; reflexivity. }
  change (nwarn (set_nwarn ?a ?b)) with a. cbn [lp_in nwarn].
  set (l1 := set_nwarn (nwarn (lp (nlp s)) + 1) (lp (nlp s))).
  match goal with |- context [set_nwarn (nwarn (lp (nlp s)) + 1) ?x] => change (set_nwarn (nwarn (lp (nlp s)) + 1) x) with (lp_in q l1) end.
  destruct (10 <? _)%nat. { cbn [orel]. apply G; reflexivity. }
  match goal with |- context [if ?a then push_ev CWarn l1 else _] => destruct a end;
    match goal with |- context [if ?a then push_ev CWarn _ else _] => destruct a end; cbn [orel].
  - apply (G (push_ev CWarn (push_ev CWarn l1))); reflexivity.
  - apply (G (push_ev CWarn l1)); reflexivity.
  - apply (G (push_ev CWarn l1)); reflexivity.
  - apply (G l1); reflexivity.
Qed.

Lemma later_call_in fuel s s' tout tret task : sim false s s' -> hh s <> 0 ->
  orel (sum_rel (simans false) (fun a a' => sim false (fst a) (fst a') /\ snd a' = L * snd a))
    (later_call prob fuel s tout tret task) (later_call prob' fuel s' (L * tout) (L * tret) task).
Proof.
  intros H Hh. unfold later_call. flds H.
  eapply orel_bind with (P := sum_rel (simans false) (sim false)).
  { destruct (0 <? nrtfn s)%nat; [|exact H]. cbv zeta. generalize (irfnd s) as ip. intros ip.
    eapply orel_bind; [apply r_check2_in; assumption|]. clear s s' H Hh.
    intros (s & r) (s' & r') (H & E). cbn [fst snd] in *. subst r'.
    destruct r as [[|]|e]; cbn [result_in].
    { cbn [orel sum_rel]. apply simans_ret; [apply p_tretlast; [exact H|]|..]; flds H; reflexivity. }
    2:{ cbn [orel sum_rel]. apply simans_ret; [exact H|reflexivity..]. }
    rewrite (root_ttol_in _ _ _ H). flds H. cbn [sltb sabs ssub ScalarR].
    rewrite (ltb_mul (Rabs L) (root_ttol s) (Rabs (tn (nlp s) - tretlast s)) _ (Rabs (L * tn (nlp s) - L * tretlast s)) HLa eq_refl)
      by (rewrite <- Rabs_mult; f_equal; ring).
    destruct (Rltb _ _); [|exact H].
    eapply orel_bind; [apply r_check3_in, H|]. clear s s' H. intros (s & r) (s' & r') (H & E). cbn [fst snd] in *. subst r'.
    destruct r.
    - assert (H1 : sim false (set_irfnd true s) (set_irfnd true s')) by (apply p_irfnd; [exact H|reflexivity]).
      revert H1. generalize (set_irfnd true s) (set_irfnd true s'). clear s s' H. intros s s' H.
      cbn [orel sum_rel]. apply simans_ret; [apply p_tretlast; [exact H|]|..]; flds H; reflexivity.
    - assert (H1 : sim false (set_irfnd false s) (set_irfnd false s')) by (apply p_irfnd; [exact H|reflexivity]).
      revert H1. generalize (set_irfnd false s) (set_irfnd false s'). clear s s' H. intros s s' H.
      destruct task, ip; try exact H.
      eapply orel_bind.
      { replace (tn (nlp (set_tretlast (tn (nlp s')) s'))) with (L * tn (nlp (set_tretlast (tn (nlp s)) s)))
          by (symmetry; apply (s_tn _ _ _ H)).
        apply get_solution_in, p_tretlast; [exact H|apply (s_tn _ _ _ H)]. }
      clear s s' H. intros (s & r) (s' & r') (H & E). cbn [fst snd] in *. cbn [orel sum_rel].
      apply simans_ret; [exact H|apply (s_tn _ _ _ H)|reflexivity]. }
  clear s s' H Hh. intros [a|s] [a'|s'] H; try contradiction; [exact H|]. cbn [sum_rel] in H.
  eapply orel_bind; [apply stop_test1_in, H|]. intros ((a & t) & r) ((a' & t') & r') (Ha & E1 & E2). cbn [fst snd] in *. subst t' r'.
  destruct r as [[| | |]|e]; cbn [result_in orel sum_rel]; try (apply simans_ret; [exact Ha|reflexivity..]).
  split; [exact Ha|reflexivity].
Qed.

Lemma existsb_ewt w : existsb (fun x => Rleb x 0) (sv wm w) = existsb (fun x => Rleb x 0) w.
Proof.
  assert (G : forall l, existsb (fun x => Rleb x 0) l = true <-> exists i, (i < length l)%nat /\ vget l i <= 0).
  { induction l as [|x l IH]; cbn [existsb length].
    - split; [discriminate|]. intros (i & Hi & _). lia.
    - rewrite orb_true_iff, IH, Rleb_true. split.
      + intros [E|(i & Hi & E)]; [exists 0%nat; split; [lia|exact E]|exists (S i); split; [lia|exact E]].
      + intros ([|i] & Hi & E); [left; exact E|right; exists i; split; [lia|exact E]]. }
  apply eq_true_iff_eq. rewrite !G, sv_length.
  assert (P : forall i, 0 < / Rabs (m i)) by (intros i; apply Rinv_0_lt_compat, Rabs_pos_lt, Hm).
  split; intros (i & Hi & E); exists i; (split; [exact Hi|]); rewrite ?sv_get in *; specialize (P i); nra.
Qed.

Lemma pre_step_in s s' tret k : sim false s s' ->
  orel (sum_rel (simans false) (sim false)) (pre_step prob ewt_set s tret k) (pre_step prob' ewt_set' s' (L * tret) k).
Proof.
  intros H. unfold pre_step. rewrite (s_mxstep _ _ _ H).
  destruct (_ && _).
  { cbn [orel sum_rel]. apply simans_ret; [apply p_tretlast; [exact H|]|..]; flds H; reflexivity. }
  eapply orel_bind; [apply perf_in, H|]. cbv beta zeta. intros l l'.
  generalize (on_lp (fun _ => l) s) (on_lp (fun _ => l') s'). clear s s' H l l'. intros s s' H. flds H.
  eapply orel_bind with (P := sum_rel (simans false) (sim false)).
  { destruct (0 <? nst s)%nat; [|exact H]. eapply orel_bind; [apply phi_row0|]. intros p p' ->.
    assert (H1 : sim false (on_nlp (set_ewt (ewt_set p)) s) (on_nlp (set_ewt (ewt_set' (sv m p))) s'))
      by (apply p_ewt; [exact H|apply Hw]).
    revert H1. generalize (on_nlp (set_ewt (ewt_set p)) s) (on_nlp (set_ewt (ewt_set' (sv m p))) s').
    clear s s' H. intros s s' H. flds H.
    cbn [sleb szero ScalarR]. rewrite existsb_ewt. destruct (existsb _ _); [|exact H].
    eapply orel_bind; [apply get_solution_in, H|]. clear s s' H. intros (s & r) (s' & r') (H & E). cbn [fst snd] in *.
    cbn [orel sum_rel]. apply simans_ret; [apply p_tretlast; [exact H|]|..]; flds H; reflexivity. }
  clear s s' H. intros [a|s] [a'|s'] H; try contradiction; [exact H|]. cbn [sum_rel] in H. flds H.
  eapply orel_bind; [apply phi_row0|]. intros p p' ->. rewrite wn.
  set (nm := wrms_norm _ p _ _).
  assert (H1 : sim false (set_tolsf (smul seps nm) s) (set_tolsf (smul seps nm) s')) by (apply p_tolsf; [exact H|reflexivity]).
  clearbody nm. revert H1. generalize (set_tolsf (smul seps nm) s) (set_tolsf (smul seps nm) s'). clear s s' H. intros s s' H. flds H.
  destruct (sltb sone (tolsf s)); [|exact H].
  set (v := smul (tolsf s) sten). clearbody v.
  assert (H1 : sim false (set_tolsf v s) (set_tolsf v s')) by (apply p_tolsf; [exact H|reflexivity]).
  revert H1. generalize (set_tolsf v s) (set_tolsf v s'). clear s s' H. intros s s' H.
  assert (H1 : sim false (set_tretlast (tn (nlp s)) s) (set_tretlast (tn (nlp s')) s')).
  { apply p_tretlast; [exact H|]. flds H. reflexivity. }
  revert H1. generalize (set_tretlast (tn (nlp s)) s) (set_tretlast (tn (nlp s')) s'). clear s s' H. intros s s' H. flds H.
  eapply orel_bind with (P := sim false).
  { destruct (0 <? nst s)%nat; [|exact H]. eapply orel_bind; [apply get_solution_in, H|].
    intros (s1 & r) (s1' & r') (H1 & _). exact H1. }
  clear s s' H. intros s s' H. cbn [orel sum_rel].
  apply simans_ret; [exact H|..]; flds H; reflexivity.
Qed.

Lemma step_failed_in s s' tret e : sim false s s' ->
  orel (simans false) (step_failed prob s tret e) (step_failed prob' s' (L * tret) (err_in u e)).
Proof.
  intros H. unfold step_failed. flds H. eapply orel_bind; [apply get_solution_in, H|].
  clear s s' H. intros (s & r) (s' & r') (H & E). cbn [fst snd] in *. subst r'.
  destruct r; cbn [result_in orel]; (apply simans_ret; [try apply p_tretlast; try exact H|..]); flds H; reflexivity.
Qed.

Lemma post_step_in fuel s s' tout tret task : sim false s s' ->
  orel (simans false) (post_step prob fuel s tout tret task) (post_step prob' fuel s' (L * tout) (L * tret) task).
Proof.
  intros H. unfold post_step. flds H.
  eapply orel_bind with (P := sum_rel (simans false) (sim false)).
  { destruct (0 <? nrtfn s)%nat; [|exact H]. eapply orel_bind; [apply r_check3_in, H|].
    clear s s' H. intros (s & r) (s' & r') (H & E). cbn [fst snd] in *. subst r'. destruct r; [|exact H].
    assert (H1 : sim false (set_irfnd true s) (set_irfnd true s')) by (apply p_irfnd; [exact H|reflexivity]).
    revert H1. generalize (set_irfnd true s) (set_irfnd true s'). clear s s' H. intros s s' H.
    cbn [orel sum_rel]. apply simans_ret; [apply p_tretlast; [exact H|]|..]; flds H; reflexivity. }
  clear s s' H. intros [a|s] [a'|s'] H; try contradiction; [exact H|]. apply stop_test2_in, H.
Qed.

(** A state of the old run in which a step may begin. *)
Definition ready (s : state) : Prop := ordok s /\ J prob gc None s /\ limited s /\ fresh prob ewt_set s.

Lemma ready_inside s : ready s -> inside (tn (nlp s)) 0 (st_init s).
Proof.
  intros (Ho & HJ & Hli & Hf). split; [exact (instep_init s Ho)|]. exact (J_begin prob ewt_set gc s Ho HJ Hli Hf).
Qed.

Lemma solve_loop_in fuel rfuel s s' tout tret task k : sim false s s' -> ready s ->
  orel (simans false) (solve_loop prob ewt_set fuel rfuel s tout tret task k)
    (solve_loop prob' ewt_set' fuel rfuel s' (L * tout) (L * tret) task k).
Proof.
  revert s s' tret k. induction fuel as [|fuel IH]; intros s s' tret k H Hd; cbn [solve_loop]; [exact I|].
  eapply orel_bind_eq; [apply pre_step_in, H|]. clear s' H.
  intros [a|s1] [a'|s'] Ep H; try contradiction; [exact H|]. cbn [sum_rel] in H.
  assert (Hd1 : ready s1).
  { apply pre_step_shell in Ep. destruct Ep as (S1 & _). destruct Hd as (Ho & HJ & Hli & Hf).
    destruct (pieces_J prob ewt_set (newton_lawful nfuel) gc s s1 Ho HJ (piece1 prob ewt_set _ _ (IdaReach.p_shell prob ewt_set _ _ S1))) as (Ho1 & HJ1).
    split; [exact Ho1|]. split; [exact HJ1|]. split; [exact (shell_limited prob _ _ S1 Hli)|exact (shell_fresh prob ewt_set _ _ S1 Hf)]. }
  clear s Ep Hd. rename s1 into s, Hd1 into Hd.
  eapply orel_bind_eq; [apply step_in; [exact H|apply Hd|exact (ready_inside s Hd)]|].
  clear s' H. intros (s1 & r) (s' & r') Es (H & E). cbn [fst snd] in *. subst r'.
  destruct r as [x|e]; cbn [result_in]; [|apply step_failed_in, H].
  eapply orel_bind_eq; [apply post_step_in, H|]. intros ((a & t) & r) ((a' & t') & r') Ef (Ha & E1 & E2). cbn [fst snd] in *. subst t' r'.
  destruct r as [[| | |]|e]; cbn [result_in orel]; try (apply simans_ret; [exact Ha|reflexivity..]).
  apply IH; [exact Ha|].
  apply post_step_shell in Ef. destruct Ef as (s3 & S3 & Hc). pose proof (step_ok_nst prob _ _ _ _ Es) as Hz.
  assert (Hz3 : nst s3 <> 0%nat) by (rewrite (shell_nst prob _ _ S3); exact Hz).
  destruct Hc as [(_ & Hlim & _)|(Hne & _)]; [|congruence].
  destruct Hd as (Ho & HJ & Hli & Hf).
  assert (P : pieces prob ewt_set s a).
  { eapply pieces_snoc; [|apply p_lims; [exact Hz3|exact Hlim]]. eapply pieces_shell; [|exact S3].
    apply piece1. eapply p_step; [exact Hli|exact Hf|exact Es]. }
  destruct (pieces_J prob ewt_set (newton_lawful nfuel) gc s a Ho HJ P) as (Ho1 & HJ1).
  split; [exact Ho1|]. split; [exact HJ1|]. split; [exact (lims_limited _ _ Hlim)|].
  left. rewrite (lims_nst _ _ Hlim). exact Hz3.
Qed.

Lemma solve_rest fuel rfuel s s' tout tret task : sim false s s' -> ordok s -> J prob gc None s ->
  (nst s = 0%nat -> limited s /\ fresh prob ewt_set s) ->
  orel (simans false)
   (let* l := ls_perf (lp (nlp s)) (nst s) (nni s) (ncfn s) false in
    let st := on_lp (fun _ => l) s in
    let* r := (if (0 <? nst st)%nat then later_call prob rfuel st tout tret task else Ret (inr (st, tret))) in
    match r with inl a => Ret a | inr (st, tret) => solve_loop prob ewt_set fuel rfuel st tout tret task 0 end)
   (let* l := ls_perf (lp (nlp s')) (nst s') (nni s') (ncfn s') false in
    let st := on_lp (fun _ => l) s' in
    let* r := (if (0 <? nst st)%nat then later_call prob' rfuel st (L * tout) (L * tret) task else Ret (inr (st, L * tret))) in
    match r with inl a => Ret a | inr (st, tret) => solve_loop prob' ewt_set' fuel rfuel st (L * tout) tret task 0 end).
Proof.
  intros H Ho HJ Hf. eapply orel_bind_eq; [apply (perf_in _ _ _ false H)|]. cbv beta zeta. intros l l' El H1.
  pose proof (ls_perf_false_shell prob s l El) as S1.
  assert (X : ordok (on_lp (fun _ => l) s) /\ J prob gc None (on_lp (fun _ => l) s) /\
    (nst (on_lp (fun _ => l) s) = 0%nat -> limited (on_lp (fun _ => l) s) /\ fresh prob ewt_set (on_lp (fun _ => l) s))).
  { destruct (pieces_J prob ewt_set (newton_lawful nfuel) gc _ _ Ho HJ (piece1 prob ewt_set _ _ (IdaReach.p_shell prob ewt_set _ _ S1))) as (O1 & J1).
    split; [exact O1|]. split; [exact J1|]. intros Hz. rewrite (shell_nst prob _ _ S1) in Hz. destruct (Hf Hz) as (A & B).
    split; [exact (shell_limited prob _ _ S1 A)|exact (shell_fresh prob ewt_set _ _ S1 B)]. }
  revert H1 X. generalize (on_lp (fun _ => l) s) (on_lp (fun _ => l') s'). clear s s' H l l' El S1 Ho HJ Hf. intros s s' H (Ho & HJ & Hf). flds H.
  eapply orel_bind_eq with (P := sum_rel (simans false) (fun a a' => sim false (fst a) (fst a') /\ snd a' = L * snd a)).
  { destruct (Nat.ltb_spec 0 (nst s)) as [Hz|Hz]; [|split; [exact H|reflexivity]].
    apply later_call_in; [exact H|]. destruct HJ as (_ & HJ). apply (rl_h _ _ _ HJ). left. lia. }
  intros [a|(s1 & t)] [a'|(s1' & t')] E1 X; try contradiction; [exact X|].
  destruct X as (X & E). cbn [fst snd] in *. subst t'. apply solve_loop_in; [exact X|].
  destruct (Nat.ltb_spec 0 (nst s)) as [Hz|Hz].
  - apply later_call_shell in E1. destruct E1 as (_ & s2 & S2 & _ & Li & _).
    assert (Hz1 : nst s2 <> 0%nat) by (rewrite (shell_nst prob _ _ S2); lia).
    destruct (pieces_J prob ewt_set (newton_lawful nfuel) gc s s1 Ho HJ) as (O1 & J1).
    { eapply pieces_snoc; [apply piece1, IdaReach.p_shell, S2|apply p_lims; [exact Hz1|exact Li]]. }
    split; [exact O1|]. split; [exact J1|]. split; [exact (lims_limited _ _ Li)|]. left. rewrite (lims_nst _ _ Li). exact Hz1.
  - apply ret_inj in E1. injection E1 as <- _. destruct (Hf ltac:(lia)) as (A & B).
    split; [exact Ho|]. split; [exact HJ|]. split; [exact A|exact B].
Qed.

(** First call on an object; it passes the first-call block or is rejected there. *)
Definition passed (s : state) tout task : Prop := exists s1,
  first_call prob ewt_set (set_taskc task (match task with Normal => set_toutc tout s | OneStep => s end)) tout = Ret (inr s1).

Lemma solve_first fuel rfuel s s' tout tret task : sim true s s' -> ordok s -> J prob gc None s -> nst s = 0%nat ->
  orel (fun a a' => (simans true a a' /\ nst (fst (fst a)) = 0%nat) \/ (simans false a a' /\ passed s tout task))
    (solve prob ewt_set fuel rfuel s tout tret task) (solve prob' ewt_set' fuel rfuel s' (L * tout) (L * tret) task).
Proof.
  intros H Ho HJ Hn. unfold solve, passed. cbv zeta. pose proof (task_shell prob s tout task) as S0.
  destruct (pieces_J prob ewt_set (newton_lawful nfuel) gc _ _ Ho HJ (piece1 prob ewt_set _ _ (IdaReach.p_shell prob ewt_set _ _ S0))) as (O1 & J1).
  clear S0. revert O1 J1.
  set (s1 := set_taskc task _). set (s1' := set_taskc task _). intros O1 J1.
  assert (H1 : sim true s1 s1').
  { apply p_taskc; [|reflexivity]. destruct task; [|exact H]. apply p_toutc; [exact H|reflexivity]. }
  assert (Hn1 : nst s1 = 0%nat) by (unfold s1; destruct task; exact Hn).
  clearbody s1 s1'. clear s s' H Hn Ho HJ. rename s1 into s, s1' into s', H1 into H, Hn1 into Hn, O1 into Ho, J1 into HJ. flds H. rewrite Hn. cbn [Nat.eqb].
  pose proof (first_call_in s s' tout H) as F. pose proof (first_call_frame prob ewt_set s tout) as N.
  destruct (first_call prob ewt_set s tout) as [[(s1 & e)|s1]| |] eqn:Ef, (first_call prob' ewt_set' s' (L * tout)) as [[(s1' & e')|s1']| |];
    cbn [orel sum_rel bind] in *; try contradiction; try exact I;
    destruct (N _ eq_refl) as (N1 & _); assert (N2 : nst s1 = 0%nat) by (unfold fkeep in N1; congruence).
  { destruct F as (F & E). cbn [fst snd] in *. subst e'. left. split; [apply simans_ret; [exact F|reflexivity..]|exact N2]. }
  destruct (pieces_J prob ewt_set (newton_lawful nfuel) gc _ _ Ho HJ (piece1 prob ewt_set _ _ (p_first_ok prob ewt_set _ _ _ Hn Ef))) as (O1 & J1).
  eapply orel_mono; [apply solve_rest; [exact F|exact O1|exact J1|]|intros a a' X; right; split; [exact X|exists s1; reflexivity]].
  intros _. split; [destruct (first_call_frame prob ewt_set _ _ _ Ef) as (_ & _ & _ & _ & _ & _ & Li & _); exact Li|].
  right. exists s, tout, s1. split; [exact Hn|]. split; [exact Ef|apply shell_refl].
Qed.

(** Later calls. *)
Lemma solve_in fuel rfuel s s' tout tret task : sim false s s' -> ordok s -> J prob gc None s -> nst s <> 0%nat ->
  orel (simans false)
    (solve prob ewt_set fuel rfuel s tout tret task) (solve prob' ewt_set' fuel rfuel s' (L * tout) (L * tret) task).
Proof.
  intros H Ho HJ Hn. unfold solve. cbv zeta. pose proof (task_shell prob s tout task) as S0.
  destruct (pieces_J prob ewt_set (newton_lawful nfuel) gc _ _ Ho HJ (piece1 prob ewt_set _ _ (IdaReach.p_shell prob ewt_set _ _ S0))) as (O1 & J1).
  clear S0. revert O1 J1.
  set (s1 := set_taskc task _). set (s1' := set_taskc task _). intros O1 J1.
  assert (H1 : sim false s1 s1').
  { apply p_taskc; [|reflexivity]. destruct task; [|exact H]. apply p_toutc; [exact H|reflexivity]. }
  assert (Hn1 : nst s1 <> 0%nat) by (unfold s1; destruct task; exact Hn).
  clearbody s1 s1'. clear s s' H Hn Ho HJ. rename s1 into s, s1' into s', H1 into H, Hn1 into Hn.
  rewrite (s_nst _ _ _ H). rewrite (proj2 (Nat.eqb_neq _ _) Hn). cbn [bind].
  apply (solve_rest fuel rfuel s s' tout tret task H O1 J1). intros X. destruct (Hn X).
Qed.

(** ** Derivatives of the interpolant *)
Definition ip (i j : nat) : R := (/ L) ^ (Nat.min i j).

Lemma ip_le i j : (i <= j)%nat -> ip i j = (/ L) ^ i. Proof. intros. unfold ip. f_equal. lia. Qed.
Lemma ip_ge i j : (j <= i)%nat -> ip i j = (/ L) ^ j. Proof. intros. unfold ip. f_equal. lia. Qed.
Lemma pow_S_L i : (/ L) ^ i * / L = (/ L) ^ (S i). Proof. cbn. ring. Qed.
Lemma div_in a b : a / (L * b) = / L * (a / b). Proof. unfold Rdiv. rewrite Rinv_mult. ring. Qed.

(** Before iteration [i] of the outer loop. *)
Definition dky_rel (d i : nat) (a a' : list R * list R * R) : Prop :=
  let '(c, c1, p) := a in
  a' = (sv (fun j => ip (i - 1) j) c, sv (fun j => ip (i - 1) (j - 1)) c1, L * p) /\
  (forall j, (Nat.max (i - 1) (d + 1) < j)%nat -> vget c j = 0) /\
  (forall j, (d + 1 < j)%nat -> vget c1 j = 0) /\
  (i = 0%nat -> (forall j, vget c j = 0) /\ (forall j, vget c1 j = 0)).

Lemma dky_body_in ps delt kus k i a a' : dky_rel (kus - k) i a a' ->
  orel (dky_rel (kus - k) (S i)) (dky_body ps delt kus k i a) (dky_body (map (Rmult L) ps) (L * delt) kus k i a').
Proof.
  destruct a as ((c & c1) & p). intros (-> & Z & Z1 & Z0). unfold dky_body. cbv zeta.
  replace (S i - 1)%nat with i in * by lia.
  eapply orel_bind with (P := fun x x' => 
    x' = (sv (fun j => if (j <=? i)%nat then ip i j else ip (i - 1) j) (fst x), L * snd x) /\
    (forall j, (Nat.max i (kus - k + 1) < j)%nat -> vget (fst x) j = 0)).
  { destruct (Nat.eqb_spec i 0) as [->|Hi].
    - destruct (Z0 eq_refl) as (Zc & _).
      eapply orel_bind.
      { apply (aset_sv _ (fun j => if (j <=? 0)%nat then ip 0 j else ip (0 - 1) j)).
        - cbn. ring.
        - intros j _. rewrite Zc. ring. }
      intros x x' (-> & E). cbn [orel fst snd]. split; [reflexivity|]. intros j Hj. rewrite E.
      destruct (Nat.eqb_spec j 0); [lia|apply Zc].
    - eapply orel_bind; [apply aget_sv|]. intros ci ci' ->.
      eapply orel_bind; [apply aget_map|]. intros pp pp' ->.
      eapply orel_bind.
      { apply (aset_sv _ (fun j => if (j <=? i)%nat then ip i j else ip (i - 1) j)).
        - rewrite Nat.leb_refl, !ip_ge by lia. cbn [smul sdiv ScalarR]. rewrite div_in.
          replace i with (S (i - 1))%nat at 3 by lia. rewrite <- pow_S_L. unfold Rdiv. ring.
        - intros j Hj. destruct (Nat.leb_spec j i); [|reflexivity]. rewrite !ip_ge by lia. reflexivity. }
      intros x x' (-> & E). cbn [orel fst snd]. split; [reflexivity|]. intros j Hj. rewrite E.
      destruct (Nat.eqb_spec j i); [lia|]. apply Z. lia. }
  clear c p Z Z0. intros (c & p) x' (-> & Z). cbn [fst snd] in *.
  assert (Ed : usub kus k = Ret (kus - k)%nat \/ usub kus k = Panic) by (unfold usub; destruct (_ <=? _)%nat; auto).
  destruct Ed as [-> | ->]; [|exact I]. cbn [bind]. set (d := (kus - k)%nat) in *. clearbody d.
  rewrite (for_range_max (i + 1) (d + 1 + 1)), (for_range_max (i + 1) (d + 1 + 1)).
  set (hi := Nat.max (i + 1) (d + 1 + 1)).
  eapply orel_bind.
  { apply (for_range_rel_i (fun b x x' => 
      x' = (sv (fun j => if (j <? b)%nat then ip i j else ip (i - 1) j) (fst x), L * snd x) /\
      (forall j, (Nat.max i (d + 1) < j)%nat -> vget (fst x) j = 0)) (i + 1) hi); [unfold hi; lia| |].
    2:{ cbn [fst snd]. split; [|exact Z]. f_equal. apply sv_ext. intros j.
        destruct (Nat.leb_spec j i), (Nat.ltb_spec j (i + 1)); try reflexivity; lia. }
    intros j (x & q) x' Hj (-> & Zx). cbn [fst snd] in *.
    eapply orel_bind; [apply aget_sv|]. intros y1 y1' ->.
    eapply orel_bind; [apply aget_sv|]. intros y2 y2' ->.
    eapply orel_bind; [apply aget_map|]. intros y3 y3' ->.
    eapply orel_bind.
    { apply (aset_sv _ (fun x => if (x <? S j)%nat then ip i x else ip (i - 1) x)).
      - destruct (Nat.ltb_spec (j - 1) j); [|lia]. destruct (Nat.ltb_spec j (S j)); [|lia].
        rewrite (ip_le i (j - 1)), (ip_le i j), (ip_le (i - 1) (j - 1 - 1)) by lia.
        cbn [smul sdiv sadd ScalarR]. rewrite div_in. destruct i as [|i].
        + change (sofnat 0) with 0. cbn [pow Nat.sub].
          replace (0 * (1 * y1) + 1 * y2 * (L * delt + L * q)) with (L * (0 * y1 + y2 * (delt + q))) by ring.
          unfold Rdiv. replace (/ L * (L * (0 * y1 + y2 * (delt + q)) * / y3)) with (/ L * L * ((0 * y1 + y2 * (delt + q)) * / y3)) by ring.
          rewrite Linv'. ring.
        + replace (S i - 1)%nat with i by lia. rewrite <- pow_S_L.
          unfold Rdiv. generalize (sofnat (S i)). intros si.
          replace (/ L * ((si * ((/ L) ^ i * y1) + (/ L) ^ i * / L * y2 * (L * delt + L * q)) * / y3))
            with ((/ L) ^ i * / L * ((si * y1 + (/ L * L) * (y2 * (delt + q))) * / y3)) by ring.
          rewrite Linv'. ring.
      - intros z Hz. destruct (Nat.ltb_spec z j), (Nat.ltb_spec z (S j)); try reflexivity; lia. }
    intros z z' (-> & E). cbn [orel fst snd]. split; [reflexivity|]. intros w Hw'. rewrite E.
    destruct (Nat.eqb_spec w j) as [->|]; [unfold hi in Hj; lia|apply Zx, Hw']. }
  clear c p Z. intros (c & p) x' (-> & Z). cbn [fst snd] in *.
  rewrite (for_range_max (i + 1) (d + 1 + 1)), (for_range_max (i + 1) (d + 1 + 1)). fold hi.
  eapply orel_bind.
  { apply (for_range_rel_i (fun b x x' => 
      x' = sv (fun j => if (j <? b)%nat then ip i (j - 1) else ip (i - 1) (j - 1)) x /\
      (forall j, (d + 1 < j)%nat -> vget x j = 0)) (i + 1) hi); [unfold hi; lia| |].
    2:{ split; [|exact Z1]. apply sv_ext. intros j. destruct (Nat.ltb_spec j (i + 1)); [|reflexivity].
        destruct i as [|i]; [unfold ip; destruct j; reflexivity|]. rewrite !ip_ge by lia. reflexivity. }
    intros j x x' Hj (-> & Zx).
    eapply orel_bind; [apply aget_sv|]. intros y1 y1' ->.
    eapply orel_mono.
    { apply (aset_sv _ (fun x => if (x <? S j)%nat then ip i (x - 1) else ip (i - 1) (x - 1))).
      - destruct (Nat.ltb_spec j (S j)); [|lia]. destruct (Nat.ltb_spec j hi); [|lia]. rewrite !ip_le by lia. reflexivity.
      - intros z Hz. destruct (Nat.ltb_spec z j), (Nat.ltb_spec z (S j)); try reflexivity; lia. }
    cbv beta. intros z z' (-> & E). split; [reflexivity|]. intros w Hw'. rewrite E.
    destruct (Nat.eqb_spec w j) as [->|]; [unfold hi in Hj; lia|apply Zx, Hw']. }
  intros z z' (-> & Zz). cbn [orel]. unfold dky_rel. replace (S i - 1)%nat with i by lia.
  assert (Zc : forall j, (hi <= j)%nat -> vget c j = 0) by (intros j Hj; apply Z; unfold hi in Hj; lia).
  assert (Zd : forall j, (hi <= j)%nat -> vget z j = 0) by (intros j Hj; apply Zz; unfold hi in Hj; lia).
  split; [|split; [exact Z|split; [exact Zz|discriminate]]].
  apply (f_equal2 pair); [apply (f_equal2 pair)|reflexivity]; (apply vget_ext_list; [rewrite !sv_length; reflexivity|]);
    intros j; rewrite !sv_get; destruct (Nat.ltb_spec j hi) as [Hj|Hj]; try reflexivity; rewrite ?Zc, ?Zd by exact Hj; ring.
Qed.

(** The [k]-th derivative in the new units: unit of the component over the
    [k]-th power of the unit of time. *)
Lemma get_dky_in s s' t k : sim false s s' ->
  orel (fun a a' => fst a' = sv (fun i => m i * (/ L) ^ k) (fst a) /\ snd a' = result_in u (snd a))
    (get_dky prob s t k (vzero n)) (get_dky prob' s' (L * t) k (vzero n)).
Proof.
  intros H. unfold get_dky. rewrite (time_check_in _ _ _ t H). flds H. change (model_size prob') with n.
  destruct (kused s <? k)%nat. { cbn [orel fst snd]. split; [symmetry; apply sv_zero|reflexivity]. }
  destruct (time_check s t) as [e|]; cbn [option_map].
  { cbn [orel fst snd]. split; [symmetry; apply sv_zero|reflexivity]. }
  cbv zeta. cbn [ssub ScalarR]. replace (L * t - L * tn (nlp s)) with (L * (t - tn (nlp s))) by ring.
  eapply orel_bind.
  { apply (for_range_rel_i (dky_rel (kused s - k)) 0 (k + 1)); [lia| |].
    - intros i a a' _. apply dky_body_in.
    - unfold dky_rel. assert (Zr : forall j, vget (repeat (szero : R) MXORDP1) j = 0).
      { intros j. unfold vget. apply nth_repeat. }
      split; [|split; [|split]]; [|intros; apply Zr|intros; apply Zr|intros _; split; exact Zr].
      apply (f_equal2 pair); [apply (f_equal2 pair); symmetry; apply (sv_zero _ MXORDP1)|cbn; ring]. }
  intros ((c & c1) & p) x' (-> & _). replace (k + 1 - 1)%nat with k by lia.
  rewrite phi_length, sv_length.
  eapply orel_bind; [apply orel_eq|]. intros _ _ _. eapply orel_bind; [apply orel_eq|]. intros _ _ _.
  eapply orel_bind.
  { apply (for_range_rel (fun a a' => a' = sv (fun i => m i * (/ L) ^ k) a)).
    - intros i a a' Hi ->. eapply orel_bind; [apply phi_row|]. intros y y' ->.
      eapply orel_bind; [apply aget_sv|]. intros w w' ->. cbn [orel]. rewrite sv_vtab. apply vtab_ext. intros x _.
      rewrite !sv_get. cbn [sadd smul ScalarR]. rewrite ip_le by lia. ring.
    - symmetry. apply sv_zero. }
  intros a a' ->. cbn [orel fst snd]. split; reflexivity.
Qed.

(** ** Calls of the public interface *)
Definition simrep b (a a' : state * @reply R) : Prop :=
  sim b (fst a) (fst a') /\ snd a' = reply_in u (snd a).

Lemma api_first fuel rfuel s s' tout tret task : sim true s s' -> ordok s -> J prob gc None s -> nst s = 0%nat ->
  orel (fun a a' => (simrep true a a' /\ nst (fst a) = 0%nat) \/ (simrep false a a' /\ passed s tout task))
    (api_call prob ewt_set fuel rfuel s (CallSolve tout tret task))
    (api_call prob' ewt_set' fuel rfuel s' (call_in u (CallSolve tout tret task))).
Proof.
  intros H Ho HJ Hn. cbn [api_call call_in]. eapply orel_bind; [apply solve_first; assumption|].
  intros ((a & t) & r) ((a' & t') & r') X. cbn [orel fst snd] in *.
  destruct X as [((Ha & E1 & E2) & N)|((Ha & E1 & E2) & N)]; cbn [fst snd] in *; subst t' r'; [left|right]; (split; [|exact N]); (split; [exact Ha|reflexivity]).
Qed.

Lemma api_in fuel rfuel s s' c : sim false s s' -> ordok s -> J prob gc None s -> nst s <> 0%nat ->
  orel (simrep false) (api_call prob ewt_set fuel rfuel s c) (api_call prob' ewt_set' fuel rfuel s' (call_in u c)).
Proof.
  intros H Ho HJ Hn. destruct c as [tout tret task|t|t k]; cbn [api_call call_in].
  - eapply orel_bind; [apply solve_in; assumption|].
    intros ((a & t) & r) ((a' & t') & r') (Ha & E1 & E2). cbn [orel fst snd] in *. subst t' r'. split; [exact Ha|reflexivity].
  - eapply orel_bind; [apply get_solution_in, H|]. intros (a & r) (a' & r') (Ha & E). cbn [orel fst snd] in *. subst r'.
    split; [exact Ha|reflexivity].
  - change (model_size prob') with n. eapply orel_bind; [apply get_dky_in, H|]. intros (a & r) (a' & r') (_ & E). cbn [orel fst snd] in *. subst r'.
    split; [exact H|reflexivity].
Qed.

End Sim.
