(** * IdaExact: solutions that are linear in time, over the reals: the Newton
      iteration from an exact prediction, and the predictions *)
Require Import List Arith Bool Lia Reals Lra.
Import ListNotations.
Require Import Verif.Base Verif.Scalar Verif.ScalarR Verif.Dense Verif.RSum Verif.DenseSpec Verif.Norms Verif.NormsR Verif.VecR
  Verif.Newton Verif.NewtonSpec Verif.IdaState Verif.IdaNls Verif.IdaCore Verif.IdaRoots Verif.IdaSolve Verif.BaseFacts
  Verif.DenseSolveR Verif.NewtonFacts Verif.IdaFacts Verif.IdaLoops Verif.IdaStep Verif.IdaSpec Verif.IdaShell Verif.IdaReach Verif.IdaInv
  Verif.IdaCount Verif.IdaLife Verif.IdaTrace Verif.IdaAccept Verif.IdaStepR Verif.PolyR Verif.HistSpec Verif.IdaHist Verif.IdaHistLife
  Verif.IdaSafe Verif.IdaLinear.
Open Scope R_scope.

(** A direct linear solver that, after a successful set-up, answers a zero
    right-hand side with the zero vector. *)
Definition zero_ls {LSt} `{LSolver R LSt} (n : nat) (okls : LSt -> Prop) : Prop :=
  okls (ls_new n) /\
  (forall s, okls s -> ls_type s = Direct) /\
  (forall s A s' m, okls s -> ls_setup s (mkmat n n A) = Ret (s', m, Ok tt) ->
     okls s' /\ forall x0 tol, exists r, ls_solve s' m x0 (vzero n) tol = Ret (vzero n, r)).

Lemma vget_nil i : vget (@nil R) i = 0.
Proof. destruct i; reflexivity. Qed.

Lemma dense_zero n : (1 <= n)%nat -> zero_ls n (fun piv => length piv = n).
Proof.
  intros Hn. destruct (dense_exact n Hn) as (X1 & X2 & X3). split; [exact X1|]. split; [exact X2|].
  intros s A s' m L E. split; [exact (proj1 (X3 s A s' m L E))|]. intros x0 tol.
  cbn in E. destruct (dense_solve_correct n A s m s' (vzero n) tol Hn L (length_vzero n) E) as (x1 & Y1 & L1 & S1).
  cbn. rewrite Y1. cbn [bind]. eexists. do 2 f_equal.
  apply (dense_solution_unique n A s m s' (vzero n) x1 (vzero n)); auto using length_vzero.
  intros i Hi. rewrite rsum_0.
  - change (nth i (vzero n) 0) with (vget (vzero n) i). rewrite vget_vzero. reflexivity.
  - intros j _. change (nth j (vzero n) 0) with (vget (vzero n) j). rewrite vget_vzero. cbn. ring.
Qed.

Lemma vneg_zero n : vneg n (vzero n) = vzero n.
Proof.
  apply (vec_ext _ _ n); [apply vtab_length|apply length_vzero|]. intros i Hi. unfold vneg. rewrite vget_vtab by exact Hi.
  rewrite vget_vzero. cbn. ring.
Qed.
Lemma vadd_zero n v : length v = n -> vadd n v (vzero n) = v.
Proof.
  intros L. apply (vec_ext _ _ n); [apply length_vadd|exact L|]. intros i Hi. rewrite vget_vadd by exact Hi.
  rewrite vget_vzero. cbn. ring.
Qed.
Lemma vscaled_add_zero n v s : length v = n -> vscaled_add n v s (vzero n) = v.
Proof.
  intros L. apply (vec_ext _ _ n); [apply length_vscaled_add|exact L|]. intros i Hi. rewrite vget_vscaled_add by exact Hi.
  rewrite vget_vzero. cbn. ring.
Qed.
Lemma vscale_zero n s : vscale n s (vzero n) = vzero n.
Proof.
  apply (vec_ext _ _ n); [apply length_vscale|apply length_vzero|]. intros i Hi. rewrite vget_vscale by exact Hi.
  rewrite vget_vzero. cbn. ring.
Qed.

Lemma norm_zero n w : norm_wrms (vzero n) w = 0.
Proof.
  rewrite norm_wrms_eq. unfold wrms. rewrite rsum_0.
  - unfold Rdiv. rewrite Rmult_0_l. apply sqrt_0.
  - intros i _. change (nth i (vzero n) 0) with (vget (vzero n) i). rewrite vget_vzero. cbn. ring.
Qed.

Lemma norm_masked_zero n w id : norm_wrms_masked (vzero n) w id = 0.
Proof.
  rewrite norm_wrms_masked_eq. unfold wrms. rewrite rsum_0.
  - unfold Rdiv. rewrite Rmult_0_l. apply sqrt_0.
  - intros i _. change (nth i (vzero n) 0) with (vget (vzero n) i). rewrite vget_vzero. cbn. destruct (nth i id _); ring.
Qed.

Lemma wrms_norm_zero n id w m : wrms_norm id (vzero n) w m = 0.
Proof. unfold wrms_norm. destruct m; [apply norm_masked_zero|apply norm_zero]. Qed.

(** ** The Newton iteration *)
Section Newton.
Context {LSt : Type} `{LSolver R LSt}.
Variable prob : problem R.
Notation n := (model_size prob).
Notation P := (ida_nlproblem prob).
Notation np := (nlprob R LSt).
Notation tr s := (trace (lp s)).
Variable okls : LSt -> Prop.
Hypothesis Hls : zero_ls n okls.
Hypothesis Hn : (1 <= n)%nat.

(** The solution a + b t. *)
Variables a b : nat -> R.
Definition line (t : R) : list R := vtab n (fun i => a i + b i * t).
Definition slope : list R := vtab n b.
Hypothesis Hsol : forall t i, (i < n)%nat -> p_res prob t (line t) slope i = 0.

Definition zeroing (l : lprob R LSt) : Prop :=
  forall x0 tol, exists r, ls_solve (lp_ls l) (lp_matj l) x0 (vzero n) tol = Ret (vzero n, r).

Definition exact_ev (e : event R) : Prop :=
  match e with
  | CRes t y yp => y = line t /\ yp = slope
  | CJac _ _ y yp => (exists t, y = line t) /\ yp = slope
  | CStep t y => y = line t
  | CFail => False
  | _ => True
  end.

Lemma attempt_exact wt tol call jbad nw (s : np) y nw' s' y' r :
  yypredict s = line (tn s) -> yppredict s = slope -> okls (lp_ls (lp s)) -> 0 <= toldel s ->
  (call = true \/ zeroing (lp s)) ->
  attempt P n (vzero n) wt tol call jbad nw s y = Ret (nw', s', y', r) ->
  r = Ok tt /\ y' = vzero n /\ okls (lp_ls (lp s')) /\ zeroing (lp s') /\
  exists evs, tr s' = evs ++ tr s /\ Forall exact_ev evs.
Proof.
  intros Y1 Y2 O Ht K E. unfold attempt in E. apply bind_ret_inv in E. destruct E as (((s1 & f) & r1) & E1 & E).
  cbn [np_sys ida_nlproblem] in E1. unfold nlp_sys in E1. cbv zeta in E1. apply ret_inj in E1.
  pose proof (f_equal (fun q => fst (fst q)) E1) as A1. pose proof (f_equal (fun q => snd (fst q)) E1) as A2.
  pose proof (f_equal snd E1) as A3. cbn [fst snd] in A1, A2, A3. clear E1. subst r1.
  assert (V1 : vadd n (yypredict s) (vzero n) = line (tn s)) by (rewrite Y1; apply vadd_zero, vtab_length).
  assert (V2 : vscaled_add n (yppredict s) (cj (lp s)) (vzero n) = slope) by (rewrite Y2; apply vscaled_add_zero, vtab_length).
  assert (F : f = vzero n).
  { rewrite <- A2. apply (vec_ext _ _ n); [apply vtab_length|apply length_vzero|]. intros i Hi.
    rewrite vget_vzero. cbn. rewrite V1, V2. rewrite vget_vtab by exact Hi. apply Hsol, Hi. }
  assert (B : lp_ls (lp s1) = lp_ls (lp s) /\ lp_matj (lp s1) = lp_matj (lp s) /\ toldel s1 = toldel s /\
              yy s1 = line (tn s) /\ yp s1 = slope /\ tr s1 = CRes (tn s) (line (tn s)) slope :: tr s).
  { rewrite <- A1. cbn. rewrite V1, V2. auto 10. }
  clear A1 A2. destruct B as (B1 & B2 & B3 & B4 & B5 & B6).
  cbv zeta in E. apply bind_ret_inv in E. destruct E as (((nw2 & s2) & r2) & E2 & E).
  assert (G : r2 = Ok tt /\ nw_delta nw2 = vzero n /\ okls (lp_ls (lp s2)) /\ zeroing (lp s2) /\ toldel s2 = toldel s /\
    exists evs, tr s2 = evs ++ tr s /\ Forall exact_ev evs).
  { destruct call.
    - apply bind_ret_inv in E2. destruct E2 as ((s3 & r3) & E3 & E2). cbn [np_setup ida_nlproblem] in E3.
      unfold nlp_setup in E3. cbv zeta in E3. apply bind_ret_inv in E3. destruct E3 as (l & El & E3). apply ret_inj in E3.
      pose proof (f_equal fst E3) as C1. pose proof (f_equal snd E3) as C2. cbn [fst snd] in C1, C2. subst r3. clear E3.
      apply ret_inj in E2. pose proof (f_equal (fun q => fst (fst q)) E2) as D1.
      pose proof (f_equal (fun q => snd (fst q)) E2) as D2. pose proof (f_equal snd E2) as D3. cbn [fst snd] in D1, D2, D3.
      rewrite <- D1, <- D2, <- D3. clear E2 D1 D2 D3.
      unfold lp_setup in El. destruct (Nat.eqb_spec n 0) as [Hz|Hz]; [lia|]. cbv zeta in El.
      apply bind_ret_inv in El. destruct El as (((ls & m) & res) & Es & El).
      destruct res as [[]|]; [|discriminate]. apply ret_inj in El.
      cbn [lp_ls lp_matj set_lp_matj push_ev set_trace set_nje set_nsetups lp yy yp cj] in Es.
      rewrite B1 in Es. destruct Hls as (_ & _ & H3). destruct (H3 _ _ _ _ O Es) as (K1 & K2).
      assert (X : lp_ls l = ls /\ lp_matj l = m /\ trace l = CJac 0 (cj (lp s1)) (yy s1) (yp s1) :: tr s1).
      { rewrite <- El. cbn. auto. }
      clear El Es. destruct X as (X1 & X2 & X3). rewrite <- C1. unfold zeroing.
      cbn [lp set_lp set_ss toldel set_nsetups nw_delta set_jcur Newton.set_delta set_cjratio set_cjold lp_ls lp_matj trace].
      split; [reflexivity|]. split; [exact F|]. rewrite X1, X2. split; [exact K1|]. split; [exact K2|].
      split; [exact B3|].
      exists [CJac 0 (cj (lp s1)) (yy s1) (yp s1); CRes (tn s) (line (tn s)) slope]. rewrite X3, B6. split; [reflexivity|].
      repeat constructor; [exists (tn s); exact B4|exact B5].
    - destruct K as [K|K]; [discriminate|]. apply ret_inj in E2. pose proof (f_equal (fun q => fst (fst q)) E2) as D1.
      pose proof (f_equal (fun q => snd (fst q)) E2) as D2. pose proof (f_equal snd E2) as D3. cbn [fst snd] in D1, D2, D3.
      rewrite <- D1, <- D2, <- D3. clear E2 D1 D2 D3. cbn [nw_delta Newton.set_delta].
      split; [reflexivity|]. split; [exact F|]. rewrite B1. split; [exact O|]. split.
      { unfold zeroing in *. rewrite B1, B2. exact K. }
      split; [exact B3|]. exists [CRes (tn s) (line (tn s)) slope]. rewrite B6. split; [reflexivity|]. repeat constructor. }
  clear E2 B1 B2 B3 B4 B5 B6 K O F. destruct G as (-> & G1 & G2 & G3 & G4 & G5).
  cbn [inner_loop] in E. cbv zeta in E. apply bind_ret_inv in E. destruct E as (((s3 & x) & r3) & E3 & E).
  cbn [nw_delta inc_niters Newton.set_delta set_curiter np_solve ida_nlproblem] in E3. rewrite G1, vneg_zero in E3.
  unfold nlp_solve in E3. apply bind_ret_inv in E3. destruct E3 as ((l & x') & El & E3). apply ret_inj in E3.
  pose proof (f_equal (fun q => fst (fst q)) E3) as C1. pose proof (f_equal (fun q => snd (fst q)) E3) as C2.
  pose proof (f_equal snd E3) as C3. cbn [fst snd] in C1, C2, C3. clear E3. subst x' r3.
  unfold lp_solve in El. cbv zeta in El. rewrite ((proj1 (proj2 Hls)) _ G2 : ls_type (lp_ls (lp s2)) = Direct) in El.
  apply bind_ret_inv in El. destruct El as ((z & rv) & Ez & El).
  cbn [lp_ls lp_matj set_lp_x lp_x] in Ez. match type of Ez with ls_solve _ _ ?x0 _ ?tl = _ => destruct (G3 x0 tl) as (rz & Gz); rewrite Gz in Ez end.
  apply ret_inj in Ez. pose proof (f_equal fst Ez) as Ez1. cbn [fst] in Ez1. subst z.
  apply ret_inj in El. pose proof (f_equal fst El) as L1. pose proof (f_equal snd El) as L2. cbn [fst snd] in L1, L2. clear El.
  assert (Lx : lp_ls l = lp_ls (lp s2) /\ lp_matj l = lp_matj (lp s2) /\ trace l = tr s2).
  { rewrite <- L1. destruct rv; cbn; auto. }
  assert (X0 : x = vzero n).
  { rewrite <- L2. cbn [lp_x set_lp_x]. destruct (sneqb _ _); [apply vscale_zero|reflexivity]. }
  clear L1 L2. subst x. destruct Lx as (X1 & X2 & X3).
  apply bind_ret_inv in E. destruct E as ((s4 & r4) & E4 & E).
  cbn [nw_delta inc_niters Newton.set_delta set_curiter nw_curiter np_ctest ida_nlproblem] in E4.
  unfold nlp_ctest in E4. cbv zeta in E4. rewrite norm_zero in E4. cbn [Nat.eqb] in E4.
  assert (T3 : toldel (set_oldnrm 0 s3) = toldel s) by (rewrite <- C1; exact G4).
  rewrite T3 in E4. replace (@sleb R _ 0 (spt0001 * toldel s)%sc) with true in E4.
  2:{ symmetry. apply Rleb_true. cbn. assert (0 <= 1 / 10000 * toldel s) by lra. cbn. lra. }
  apply ret_inj in E4. pose proof (f_equal fst E4) as M1. pose proof (f_equal snd E4) as M2. cbn [fst snd] in M1, M2. clear E4.
  subst r4. apply ret_inj in E. pose proof (f_equal (fun q => snd (fst (fst q))) E) as N1.
  pose proof (f_equal (fun q => snd (fst q)) E) as N2. pose proof (f_equal snd E) as N3. cbn [fst snd] in N1, N2, N3.
  split; [congruence|]. split.
  - rewrite <- N2. cbn [nw_delta Newton.set_delta]. apply vadd_zero, length_vzero.
  - rewrite <- N1, <- M1, <- C1. cbn [lp set_oldnrm set_lp].
    split; [congruence|]. split; [unfold zeroing in *; rewrite X1, X2; exact G3|]. rewrite X3. exact G5.
Qed.

Lemma outer_exact fuel wt tol call jbad nw (s : np) y nw' s' y' r :
  yypredict s = line (tn s) -> yppredict s = slope -> okls (lp_ls (lp s)) -> 0 <= toldel s ->
  (call = true \/ zeroing (lp s)) ->
  outer_loop P n fuel (vzero n) wt tol call jbad nw s y = Ret (nw', s', y', r) ->
  r = Ok tt /\ y' = vzero n /\ okls (lp_ls (lp s')) /\ zeroing (lp s') /\
  exists evs, tr s' = evs ++ tr s /\ Forall exact_ev evs.
Proof.
  intros Y1 Y2 O Ht K E. destruct fuel as [|fuel]; [discriminate|].
  cbn [outer_loop] in E. apply bind_ret_inv in E. destruct E as ((((nw1 & s1) & y1) & r1) & E1 & E).
  apply attempt_exact in E1; try assumption. destruct E1 as (-> & A1 & A2 & A3 & A4).
  apply ret_inj in E. pose proof (f_equal (fun q => snd (fst (fst q))) E) as N1.
  pose proof (f_equal (fun q => snd (fst q)) E) as N2. pose proof (f_equal snd E) as N3. cbn [fst snd] in N1, N2, N3.
  rewrite <- N1, <- N2, <- N3. auto.
Qed.

(** When the iteration matrices at the points of the solution can be set up,
    the iteration returns. *)
Hypothesis Hjac : forall s t c, okls s -> c <> 0 ->
  exists s' m, ls_setup s (mkmat n n (p_jac prob 0 c (line t) slope (vzero n))) = Ret (s', m, Ok tt).

Lemma lp_solve_zero (l : lprob R LSt) : okls (lp_ls l) -> zeroing l ->
  exists l', lp_solve prob l (vzero n) = Ret (l', vzero n).
Proof.
  intros O G. unfold lp_solve. cbv zeta. rewrite ((proj1 (proj2 Hls)) _ O : ls_type (lp_ls l) = Direct).
  cbn [lp_ls lp_matj set_lp_x lp_x].
  match goal with |- context [ls_solve _ _ ?x0 _ ?tl] => destruct (G x0 tl) as (rz & Gz) end. rewrite Gz. cbn [bind].
  eexists. do 2 f_equal. cbn [lp_x set_lp_x]. destruct (sneqb _ _); [apply vscale_zero|reflexivity].
Qed.

Lemma inner_returns k w tol nw (s : np) y : nw_delta nw = vzero n -> nw_curiter nw = 0%nat -> okls (lp_ls (lp s)) ->
  zeroing (lp s) -> 0 <= toldel s ->
  exists nw' s' y', inner_loop P n (S k) w tol nw s y = Ret (nw', s', y', Ok tt).
Proof.
  intros Hd Hc O G Ht. cbn [inner_loop]. cbv zeta. cbn [nw_delta inc_niters Newton.set_delta np_solve ida_nlproblem].
  rewrite Hd, vneg_zero. unfold nlp_solve. destruct (lp_solve_zero _ O G) as (l' & ->). cbn [bind].
  cbn [nw_delta nw_curiter inc_niters Newton.set_delta np_ctest ida_nlproblem].
  rewrite Hc. unfold nlp_ctest. cbv zeta. rewrite norm_zero. cbn [Nat.eqb].
  change (toldel (set_oldnrm 0 (set_lp l' s))) with (toldel s). replace (@sleb R _ 0 (spt0001 * toldel s)%sc) with true.
  2:{ symmetry. apply Rleb_true. cbn. assert (0 <= 1 / 10000 * toldel s) by lra. cbn. lra. }
  cbn [bind]. do 3 eexists. reflexivity.
Qed.

Lemma attempt_returns wt tol call jbad nw (s : np) y :
  yypredict s = line (tn s) -> yppredict s = slope -> okls (lp_ls (lp s)) -> 0 <= toldel s -> cj (lp s) <> 0 ->
  (call = true \/ zeroing (lp s)) ->
  exists nw' s' y', attempt P n (vzero n) wt tol call jbad nw s y = Ret (nw', s', y', Ok tt).
Proof.
  intros Y1 Y2 O Ht Hc K. unfold attempt. cbn [np_sys ida_nlproblem]. unfold nlp_sys. cbv zeta. cbn [bind].
  assert (V1 : vadd n (yypredict s) (vzero n) = line (tn s)) by (rewrite Y1; apply vadd_zero, vtab_length).
  assert (V2 : vscaled_add n (yppredict s) (cj (lp s)) (vzero n) = slope) by (rewrite Y2; apply vscaled_add_zero, vtab_length).
  match goal with |- context [np_setup P ?x _ _ _] => set (s1 := x) end.
  match goal with |- context [Newton.set_delta ?x nw] => set (f := x) end.
  assert (F : f = vzero n).
  { unfold f. apply (vec_ext _ _ n); [apply vtab_length|apply length_vzero|]. intros i Hi.
    rewrite vget_vzero. cbn. rewrite V1, V2. rewrite vget_vtab by exact Hi. apply Hsol, Hi. }
  assert (B : lp_ls (lp s1) = lp_ls (lp s) /\ lp_matj (lp s1) = lp_matj (lp s) /\ toldel s1 = toldel s /\
              yy s1 = line (tn s) /\ yp s1 = slope /\ cj (lp s1) = cj (lp s)).
  { unfold s1. cbn. rewrite V1, V2. auto 10. }
  clearbody f s1. clear V1 V2 Y1 Y2. destruct B as (B1 & B2 & B3 & B4 & B5 & B6). subst f.
  destruct call.
  - cbn [np_setup ida_nlproblem nw_delta Newton.set_delta]. unfold nlp_setup. cbv zeta.
    unfold lp_setup. destruct (Nat.eqb_spec n 0) as [Hz|Hz]; [lia|]. cbv zeta.
    cbn [lp_ls lp_matj set_lp_matj push_ev set_trace set_nje set_nsetups lp yy yp cj].
    rewrite B1, B4, B5, B6. destruct (Hjac (lp_ls (lp s)) (tn s) (cj (lp s)) O Hc) as (s' & m & Es). 
    change (@szero R ScalarR) with 0. rewrite Es. cbn [bind].
    destruct Hls as (_ & _ & H3). destruct (H3 _ _ _ _ O Es) as (K1 & K2).
    apply inner_returns.
    + reflexivity.
    + reflexivity.
    + exact K1.
    + exact K2.
    + cbn. rewrite B3. exact Ht.
  - destruct K as [K|K]; [discriminate|]. cbn [bind]. apply inner_returns; [reflexivity|reflexivity|congruence| |congruence].
    unfold zeroing in *. rewrite B1, B2. exact K.
Qed.

Lemma outer_returns fuel wt tol call jbad nw (s : np) y : (1 <= fuel)%nat ->
  yypredict s = line (tn s) -> yppredict s = slope -> okls (lp_ls (lp s)) -> 0 <= toldel s -> cj (lp s) <> 0 ->
  (call = true \/ zeroing (lp s)) ->
  exists nw' s' y', outer_loop P n fuel (vzero n) wt tol call jbad nw s y = Ret (nw', s', y', Ok tt).
Proof.
  intros Lf Y1 Y2 O Ht Hc K. destruct fuel as [|fuel]; [lia|]. cbn [outer_loop].
  destruct (attempt_returns wt tol call jbad nw s y Y1 Y2 O Ht Hc K) as (nw' & s' & y' & ->). cbn [bind]. do 3 eexists. reflexivity.
Qed.

(** The first call is the residual at the prediction. *)
Definition grows (base : list (event R)) (s : np) : Prop := exists evs, tr s = evs ++ base.

Lemma grows_preserved base : preserves P (grows base).
Proof.
  split; [|split; [|split]].
  - intros s y s' f r (evs & Hs) E. cbn [np_sys ida_nlproblem] in E. unfold nlp_sys in E. cbv zeta in E. apply ret_inj in E.
    pose proof (f_equal (fun q => fst (fst q)) E) as A. cbn [fst] in A. rewrite <- A. eexists (_ :: evs). cbn. rewrite Hs. reflexivity.
  - intros s y f j s' r (evs & Hs) E. cbn [np_setup ida_nlproblem] in E. unfold nlp_setup in E. cbv zeta in E.
    apply bind_ret_inv in E. destruct E as (l & El & E). apply ret_inj in E.
    pose proof (f_equal fst E) as A. cbn [fst] in A. unfold lp_setup in El. destruct (Nat.eqb_spec n 0) as [Hz|Hz]; [lia|].
    cbv zeta in El. apply bind_ret_inv in El. destruct El as (((ls & m) & res) & Es & El).
    destruct res as [[]|]; [|discriminate]. apply ret_inj in El. rewrite <- A, <- El.
    eexists (_ :: evs). cbn. rewrite Hs. reflexivity.
  - intros s y d s' x r (evs & Hs) E. cbn [np_solve ida_nlproblem] in E. exists evs. rewrite <- Hs.
    unfold nlp_solve in E. apply bind_ret_inv in E. destruct E as ((l & x') & El & E). apply ret_inj in E.
    pose proof (f_equal (fun q => fst (fst q)) E) as A. cbn [fst] in A. rewrite <- A. cbn.
    clear E A. unfold lp_solve in El. cbv zeta in El.
    assert (Q : trace l = trace (lp s)).
    { apply bind_ret_inv in El. destruct El as ((z & rv) & Ez & El).
      destruct (ls_type (lp_ls (lp s))); apply ret_inj in El;
        pose proof (f_equal fst El) as L1; cbn [fst] in L1; rewrite <- L1; destruct rv; cbn; reflexivity. }
    exact Q.
  - intros s i y d tol w s' r (evs & Hs) E. exists evs. rewrite <- Hs. cbn [np_ctest ida_nlproblem] in E. unfold nlp_ctest in E. cbv zeta in E.
    destruct (i =? 0)%nat; [destruct (_ <=? _)%sc|destruct (_ <? _)%sc]; apply ret_inj in E;
      pose proof (f_equal fst E) as A; cbn [fst] in A; rewrite <- A; reflexivity.
Qed.

Lemma outer_first fuel y0 wt tol call jbad nw (s : np) y nw' s' y' r :
  outer_loop P n fuel y0 wt tol call jbad nw s y = Ret (nw', s', y', r) ->
  exists evs, tr s' = evs ++ CRes (tn s) (vadd n (yypredict s) y0) (vscaled_add n (yppredict s) (cj (lp s)) y0) :: tr s.
Proof.
  intros E. set (base := CRes (tn s) (vadd n (yypredict s) y0) (vscaled_add n (yppredict s) (cj (lp s)) y0) :: tr s).
  change (grows base s'). destruct fuel as [|fuel]; [discriminate|]. cbn [outer_loop] in E.
  apply bind_ret_inv in E as ((((n1 & s1) & y1) & r1) & E1 & E). cbv beta iota zeta in E.
  pose proof (grows_preserved base) as Hp.
  assert (Hx : grows base s1).
  { unfold attempt in E1. apply bind_ret_inv in E1 as (((sa & d) & ra) & Ea & E1). cbv beta iota zeta in E1.
    assert (A0 : grows base sa).
    { cbn [np_sys ida_nlproblem] in Ea. unfold nlp_sys in Ea. cbv zeta in Ea. apply ret_inj in Ea.
      pose proof (f_equal (fun q => fst (fst q)) Ea) as A. cbn [fst] in A. rewrite <- A. exists []. reflexivity. }
    destruct ra as [u|e]; [|injection E1 as _ <- _ _; exact A0].
    apply bind_ret_inv in E1 as (((nb & sb) & rb) & Eb & E1). cbv beta iota zeta in E1.
    assert (A1 : grows base sb).
    { destruct call; [|injection Eb as _ <- _; exact A0].
      apply bind_ret_inv in Eb as ((sc & rc) & Ec & Eb). cbv beta iota zeta in Eb.
      apply (proj1 (proj2 Hp) _ _ _ _ _ _ A0) in Ec. destruct rc; injection Eb as _ <- _; exact Ec. }
    destruct rb as [u0|e]; [|injection E1 as _ <- _ _; exact A1].
    eapply inner_loop_preserves; [exact Hp|exact A1|exact E1]. }
  assert (Hg : forall fuel y0 w tol call jbad nw s y nw' s' y' r, grows base s ->
    outer_loop P n fuel y0 w tol call jbad nw s y = Ret (nw', s', y', r) -> grows base s').
  { clearbody base. clear - Hn Hp. induction fuel as [|fuel IH]; intros y0 w tol call jbad nw s y nw' s' y' r Hs E; [discriminate|].
    cbn [outer_loop] in E. apply bind_ret_inv in E as ((((n1 & s1) & y1) & r1) & E1 & E). cbv beta iota zeta in E.
    apply (attempt_preserves P n _ Hp _ _ _ _ _ _ _ _ _ _ _ _ Hs) in E1.
    destruct r1 as [[]|[]]; try (injection E as _ <- _ _; exact E1). destruct (negb (nw_jcur n1)); eauto. }
  destruct r1 as [[]|[]]; try (injection E as _ <- _ _; exact Hx). destruct (negb (nw_jcur n1)); eapply Hg; eauto.
Qed.
End Newton.

(** ** Lives *)
(** The first residual evaluation of the life gets the derivative [v]. *)
Definition starts_with {T} (v : list T) (tr : list (event T)) : Prop :=
  forall new past t y yp, tr = new ++ CRes t y yp :: past -> Forall (fun e => is_res e = false) past -> yp = v.

Lemma starts_past {T} (v : list T) evs tr : starts_with v (evs ++ tr) -> starts_with v tr.
Proof. intros S new past t y yp E F. apply (S (evs ++ new) past t y yp); [rewrite E, app_assoc; reflexivity|exact F]. Qed.

Lemma res_in_suffix {T} (v : list T) evs tl : Exists (fun e => is_res e = true) tl ->
  starts_with v tl -> starts_with v (evs ++ tl).
Proof.
  intros Hx Hs. induction evs as [|e evs IH]; [exact Hs|]. intros new past t y yp E Hp.
  destruct new as [|x new].
  - cbn in E. injection E as _ E. exfalso. subst past. apply Forall_app in Hp. destruct Hp as (_ & Hp).
    apply Exists_exists in Hx. destruct Hx as (q & Iq & Hq). rewrite Forall_forall in Hp. specialize (Hp q Iq). congruence.
  - cbn in E. injection E as _ E. exact (IH new past t y yp E Hp).
Qed.

Lemma starts_first {T} (v : list T) evs t y past : Forall (fun e => is_res e = false) past ->
  starts_with v (evs ++ CRes t y v :: past).
Proof.
  intros Hp. apply res_in_suffix; [constructor; reflexivity|]. intros new past' t' y' yp' E Hp'.
  destruct new as [|x new]; cbn in E; [congruence|]. injection E as _ E. exfalso. rewrite E in Hp. apply Forall_app in Hp.
  destruct Hp as (_ & Hp). inversion Hp as [|? ? Q _]. discriminate.
Qed.

Lemma steps_in_at {T} (tr : list (event T)) p : In p (steps tr) -> In (CStep (a_t p) (a_y p)) tr.
Proof.
  induction tr as [|e tr IH]; [intros []|]. intros Ha.
  destruct e; cbn [steps] in Ha; try (right; exact (IH Ha)).
  destruct (last_try tr) as [((t0 & h) & k)|]; [|right; exact (IH Ha)]. destruct Ha as [<-|Ha]; [left; reflexivity|right; exact (IH Ha)].
Qed.

Lemma lin_der p0 p1 s : derivable_pt_lim (fun z => p0 + p1 * z) s p1.
Proof.
  pose proof (derivable_pt_lim_plus (fun _ => p0) (fun z => p1 * z) s 0 (0 * s + p1 * 1) (derivable_pt_lim_const p0 s)
    (derivable_pt_lim_mult (fun _ => p1) (fun z => z) s 0 1 (derivable_pt_lim_const p1 s) (derivable_pt_lim_id s))) as D.
  replace (0 + (0 * s + p1 * 1)) with p1 in D by ring. exact D.
Qed.

(** Two linear functions with one value and the slope in common. *)
Lemma peval_line p x : (length p <= 2)%nat -> forall s d, derivable_pt_lim (peval p) s d -> peval p x = peval p s + d * (x - s).
Proof.
  intros L s d D.
  assert (Q : exists p0 p1, forall z, peval p z = p0 + p1 * z).
  { destruct p as [|p0 [|p1 [|]]]; cbn in L |- *; [exists 0, 0|exists p0, 0|exists p0, p1|lia]; intros z; ring. }
  destruct Q as (p0 & p1 & Q).
  assert (D' : derivable_pt_lim (peval p) s p1).
  { apply (derivable_ext (fun z => p0 + p1 * z)); [intros z; symmetry; apply Q|apply lin_der]. }
  rewrite (uniqueness_limite _ _ _ _ D D'). rewrite !Q. ring.
Qed.

Section Lives.
Context {LSt : Type} `{LSolver R LSt}.
Variable prob : problem R.
Variable ewt_set : list R -> list R.
Variable fuel : nat.
Instance newton_exact : NLSolver R (newton R) := NewtonNLS fuel.
Notation n := (model_size prob).
Notation state := (ida R LSt (newton R)).
Notation tr st := (trace (lp (nlp st))).
Variable okls : LSt -> Prop.
Hypothesis Hls : zero_ls n okls.
Hypothesis Hn : (1 <= n)%nat.
Variables a b : nat -> R.
Notation line := (line prob a b).
Notation slope := (slope prob b).
Hypothesis Hsol : forall t i, (i < n)%nat -> p_res prob t (line t) slope i = 0.
Variable g : @config R.
Hypothesis Hg : config_ok g.
Hypothesis Hep : 0 <= g_epcon g.
Notation yy0 := (line (g_t0 g)).
Notation yp0 := slope.
Notation Hl := (newton_lawful fuel).
Notation exact_ev := (exact_ev prob a b).
Notation zeroing := (zeroing prob).

Record exactly (st : state) : Prop := {
  ex_ncfn : ncfn st = 0%nat;
  ex_tol : 0 <= toldel (nlp st);
  ex_ls : okls (lp_ls (lp (nlp st)));
  ex_zero : nst st <> 0%nat -> zeroing (lp (nlp st));
  ex_tr : Forall exact_ev (tr st);
  ex_first : nst st = 0%nat -> Forall (fun e => is_res e = false) (tr st) }.

Lemma no_early (t : list (event R)) : Forall exact_ev t -> early_fail t = false.
Proof.
  induction t as [|e t IH]; [reflexivity|]. intros F. apply Forall_cons_iff in F. destruct F as (F1 & F2).
  cbn [early_fail]. rewrite IH by exact F2. destruct (steps t); [|reflexivity]. destruct e; try reflexivity. destruct F1.
Qed.

(** One attempt's prediction. *)
Lemma exact_predicted (st st1 : state) t0 nef ck r :
  instep st -> HJ prob g yy0 (Some (t0, nef)) st -> exactly st ->
  tried prob st st1 ck r -> attempted prob st st1 r ->
  (nst st = 0%nat -> yppredict (nlp st1) = slope) ->
  yypredict (nlp st1) = line (tn (nlp st1)) /\ yppredict (nlp st1) = slope.
Proof.
  intros Hi (Jst & Hh) [X1 X2 X3 X4 X5 X6] Htr Hat Hfirst.
  destruct (Hh X1) as (Hev & Hra & _ & Hp). 
  assert (Hne : @Some (R * nat) (t0, nef) <> None) by discriminate.
  destruct (Hp (or_intror Hne)) as (b0 & b1 & Hp1). clear Hp Hh Hne.
  destruct (try_bdf prob ewt_set g yy0 st st1 t0 nef ck r b0 b1 Hi Jst Hp1 Hev Hra Htr Hat) as (Ac & Hh & Hnx & _).
  destruct Hp1 as (B1 & B2 & B3 & _). rewrite (no_early _ X5) in B2. specialize (B2 eq_refl).
  set (hs := map apt (steps (tr st)) ++ [b0; b1]) in *.
  pose proof (tl_n _ _ _ _ (proj1 Jst)) as Ln.
  pose proof (h_now _ _ _ B3) as Hnow. rewrite (tr_tn _ _ _ _ _ Htr), Hnx.
  assert (On : forall x i, (x < n)%nat -> (i <= nst st)%nat -> yv hs x i = a x + b x * tm hs i).
  { intros x i Lx Li. unfold yv, tm, hs. destruct (Nat.eq_dec i (nst st)) as [->|Ne].
    - rewrite app_nth2 by (rewrite map_length; lia). rewrite map_length, Ln, Nat.sub_diag. cbn [nth].
      rewrite B1, B2. unfold IdaExact.line. rewrite vget_vtab by exact Lx. reflexivity.
    - rewrite app_nth1 by (rewrite map_length; lia).
      destruct (nth_error (steps (tr st)) i) as [p|] eqn:Ep; [|apply nth_error_None in Ep; lia].
      rewrite (nth_error_nth _ _ _ (map_nth_error apt _ _ Ep)). cbn [apt fst snd].
      pose proof (nth_error_In _ _ Ep) as Ip. apply steps_in_at in Ip. rewrite Forall_forall in X5. rewrite (X5 _ Ip).
      unfold IdaExact.line. rewrite vget_vtab by exact Lx. reflexivity. }
  assert (Hd : distinct (kk st) (tm hs)).
  { pose proof (h_kk _ _ _ B3). pose proof (hist_distinct prob hs st B3 Hh) as D. intros i j Li Lj. apply D; lia. }
  pose proof (is_kk _ Hi) as Hk.
  assert (Ly : length (yppredict (nlp st1)) = n).
  { rewrite (tr_ypp _ _ _ _ _ Htr). unfold rowcomb1. destruct (kk st); [lia|]. apply length_vscaled_add. }
  assert (Lyy : length (yypredict (nlp st1)) = n).
  { rewrite (tr_yyp _ _ _ _ _ Htr). replace (kk st + 1)%nat with (S (kk st)) by lia. cbn [rowsum]. apply length_vadd. }
  assert (Q : forall x, (x < n)%nat -> vget (yypredict (nlp st1)) x = a x + b x * (tm hs 0 + hh st) /\ vget (yppredict (nlp st1)) x = b x).
  { intros x Lx. destruct (npoly_through (tm hs) (yv hs x) (kk st) Hd) as (p & (Pl & Pn) & Pe).
    destruct (predicted prob hs _ _ _ _ B3 Hh Ac Htr x Lx) as (P1 & P2).
    assert (Hb : derivable_pt_lim (peval [a x; b x]) (tm hs 0 + hh st) (b x)).
    { apply (derivable_ext (fun z => a x + b x * z)); [intros z; cbn; ring|apply lin_der]. }
    destruct (Nat.eq_dec (nst st) 0) as [Hz|Hz].
    - specialize (Hfirst Hz). assert (Ek : kk st = 1%nat) by (destruct (is_zero _ Hi Hz) as (Ek & _); exact Ek).
      assert (Vb : vget (yppredict (nlp st1)) x = b x) by (rewrite Hfirst; unfold IdaExact.slope; apply vget_vtab, Lx).
      split; [|exact Vb]. rewrite P1, <- Pe. rewrite Vb in P2.
      assert (D : derivable_pt_lim (peval p) (tm hs 0 + hh st) (b x)).
      { eapply derivable_ext; [|exact P2]. intros z. symmetry. apply Pe. }
      pose proof (peval_line p (tm hs 0) ltac:(lia) _ _ D) as E0.
      rewrite (Pn 0%nat ltac:(lia)), On in E0 by lia. lra.
    - pose proof (h_ord _ _ _ B3 Hz) as (Ho & _).
      assert (Pq : forall z, peval p z = peval [a x; b x] z).
      { apply (through_unique (kk st) (tm hs) (yv hs x)); [exact Hd|split; assumption|]. split; [cbn; lia|].
        intros i Li. rewrite On by lia. cbn. ring. }
      split; [rewrite P1, <- Pe, Pq; cbn; ring|].
      assert (D : derivable_pt_lim (peval [a x; b x]) (tm hs 0 + hh st) (vget (yppredict (nlp st1)) x)).
      { eapply derivable_ext; [|exact P2]. intros z. rewrite <- Pe. apply Pq. }
      exact (uniqueness_limite _ _ _ _ D Hb). }
  split.
  - apply (vec_ext _ _ n); [exact Lyy|apply vtab_length|]. intros x Lx. unfold IdaExact.line. rewrite vget_vtab by exact Lx. exact (proj1 (Q x Lx)).
  - apply (vec_ext _ _ n); [exact Ly|apply vtab_length|]. intros x Lx. unfold IdaExact.slope. rewrite vget_vtab by exact Lx. exact (proj2 (Q x Lx)).
Qed.

Lemma prepare_fields (st : state) : let sp := fst (nls_prepare st) in
  yypredict (nlp sp) = yypredict (nlp st) /\ yppredict (nlp sp) = yppredict (nlp st) /\ tn (nlp sp) = tn (nlp st) /\
  toldel (nlp sp) = toldel (nlp st) /\ lp_ls (lp (nlp sp)) = lp_ls (lp (nlp st)) /\ lp_matj (lp (nlp sp)) = lp_matj (lp (nlp st)) /\
  cj (lp (nlp sp)) = cj (lp (nlp st)) /\ tr sp = tr st /\ (snd (nls_prepare st) = false -> nst st <> 0%nat).
Proof.
  unfold nls_prepare. cbv zeta. destruct (nst st =? 0)%nat eqn:Ez; cbn [fst snd].
  - destruct (sneqb _ _); (do 8 (split; [reflexivity|])); cbn; discriminate.
  - apply Nat.eqb_neq in Ez. destruct (sneqb _ _); (do 8 (split; [reflexivity|])); intros _; exact Ez.
Qed.

Lemma nonlinear_first (st st' : state) r : length (yppredict (nlp st)) = n ->
  nonlinear_solve prob st = Ret (st', r) ->
  exists evs y, tr st' = evs ++ CRes (tn (nlp st)) y (yppredict (nlp st)) :: tr st.
Proof.
  intros Ly E. unfold nonlinear_solve in E. pose proof (prepare_fields st) as X. cbv zeta in X.
  destruct (nls_prepare st) as (sp & call) eqn:Ep. cbn [fst snd] in X. clear Ep.
  destruct X as (X1 & X2 & X3 & X4 & X5 & X6 & X7 & X8 & _).
  cbn [nls_setup newton_exact NewtonNLS bind] in E. cbv zeta in E.
  apply bind_ret_inv in E. destruct E as ((((nw' & x) & eev) & r4) & E4 & E). cbv beta iota in E.
  cbn [nls_solve newton_exact NewtonNLS] in E4. unfold newton_solve in E4.
  match type of E4 with outer_loop _ _ _ _ _ _ _ _ _ ?s _ = _ => change s with (nlp sp) in E4 end.
  match type of E4 with outer_loop _ _ _ ?y _ _ _ _ _ _ _ = _ => change y with (@vzero R _ n) in E4 end.
  apply (outer_first prob Hn) in E4. destruct E4 as (evs & E4). rewrite X2, X3, X8 in E4.
  rewrite vscaled_add_zero in E4 by exact Ly. exists evs, (vadd n (yypredict (nlp sp)) (vzero n)). rewrite <- E4.
  destruct r4 as [[]|e].
  - destruct (constraints_set _) in E; [discriminate|]. apply ret_inj in E.
    pose proof (f_equal (fun q => tr (fst q)) E) as E1. cbn [fst] in E1. rewrite <- E1. reflexivity.
  - apply ret_inj in E. pose proof (f_equal (fun q => tr (fst q)) E) as E1. cbn [fst] in E1. rewrite <- E1. reflexivity.
Qed.

Lemma nonlinear_exact (st st' : state) r :
  yypredict (nlp st) = line (tn (nlp st)) -> yppredict (nlp st) = slope ->
  okls (lp_ls (lp (nlp st))) -> 0 <= toldel (nlp st) -> (nst st <> 0%nat -> zeroing (lp (nlp st))) ->
  nonlinear_solve prob st = Ret (st', r) ->
  r = Ok tt /\ ee st' = vzero n /\ okls (lp_ls (lp (nlp st'))) /\ zeroing (lp (nlp st')) /\
  exists evs, tr st' = evs ++ tr st /\ Forall exact_ev evs.
Proof.
  intros P1 P2 O Ht K E. unfold nonlinear_solve in E. pose proof (prepare_fields st) as X. cbv zeta in X.
  destruct (nls_prepare st) as (sp & call) eqn:Ep. cbn [fst snd] in X. clear Ep.
  destruct X as (X1 & X2 & X3 & X4 & X5 & X6 & X7 & X8 & X9).
  cbn [nls_setup newton_exact NewtonNLS bind] in E. cbv zeta in E.
  apply bind_ret_inv in E. destruct E as ((((nw' & x) & eev) & r4) & E4 & E). cbv beta iota in E.
  cbn [nls_solve newton_exact NewtonNLS] in E4. unfold newton_solve in E4.
  match type of E4 with outer_loop _ _ _ _ _ _ _ _ _ ?s _ = _ => change s with (nlp sp) in E4 end.
  match type of E4 with outer_loop _ _ _ ?y _ _ _ _ _ _ _ = _ => change y with (@vzero R _ n) in E4 end.
  assert (C : call = true \/ zeroing (lp (nlp sp))).
  { destruct call; [left; reflexivity|right]. specialize (K (X9 eq_refl)). unfold IdaExact.zeroing in *. rewrite X5, X6. exact K. }
  apply (outer_exact prob okls Hls Hn a b Hsol) in E4; [|congruence|congruence|congruence|rewrite X4; exact Ht|exact C].
  destruct E4 as (-> & -> & A1 & A2 & A3). rewrite X8 in A3.
  destruct (constraints_set _) in E; [discriminate|]. apply ret_inj in E.
  pose proof (f_equal (fun q => lp (nlp (fst q))) E) as E1. pose proof (f_equal (fun q => ee (fst q)) E) as E2.
  pose proof (f_equal snd E) as E3. cbn [fst snd] in E1, E2, E3. rewrite <- E1, <- E2, <- E3.
  split; [reflexivity|]. split; [reflexivity|]. split; [exact A1|]. split; [exact A2|exact A3].
Qed.

Lemma try_exact (st st1 : state) t0 nef ck ek ek1 r :
  instep st -> HJ prob g yy0 (Some (t0, nef)) st -> exactly st -> starts_with yp0 (tr st1) ->
  try_step prob st = Ret (st1, ck, ek, ek1, r) -> tried prob st st1 ck r -> attempted prob st st1 r ->
  r = Ok tt /\ ee st1 = vzero n /\ yypredict (nlp st1) = line (tn (nlp st1)) /\
  okls (lp_ls (lp (nlp st1))) /\ zeroing (lp (nlp st1)) /\ Forall exact_ev (tr st1).
Proof.
  intros Hi HJst Hx Hs E Htr Hat.
  assert (Ly : length (yppredict (nlp st1)) = n).
  { rewrite (tr_ypp _ _ _ _ _ Htr). pose proof (is_kk _ Hi). unfold rowcomb1. destruct (kk st); [lia|]. apply length_vscaled_add. }
  pose proof (fun Hf => exact_predicted st st1 t0 nef ck r Hi HJst Hx Htr Hat Hf) as Hpred.
  pose proof (tr_res _ _ _ _ _ Htr) as Hres. pose proof (tr_ewt _ _ _ _ _ Htr) as Hew. clear Htr Hat.
  destruct Hx as [X1 X2 X3 X4 X5 X6].
  unfold try_step in E. set (sx := on_lp (push_ev (CTry (tn (nlp st)) (hh st) (kk st))) st) in E.
  apply bind_ret_inv in E as ((s1 & c1) & E1 & E). apply bind_ret_inv in E as (s2 & E2 & E).
  apply bind_ret_inv in E as ((s3 & r3) & E3 & E). cbv beta iota in E.
  assert (W1 : tr s2 = CTry (tn (nlp st)) (hh st) (kk st) :: tr st /\ nst s2 = nst st /\
     lp_ls (lp (nlp s2)) = lp_ls (lp (nlp st)) /\ lp_matj (lp (nlp s2)) = lp_matj (lp (nlp st))).
  { destruct (set_coeffs_frame _ _ _ _ E1) as (_ & _ & _ & _ & _ & _ & _ & N1 & N2).
    destruct (predict_frame _ _ _ E2) as (_ & _ & _ & _ & _ & M1 & M2). rewrite advance_tn_eq in M1, M2.
    rewrite M2. change (nlp (on_nlp (set_tn (tn_next s1)) s1)) with (set_tn (tn_next s1) (nlp s1)). rewrite N2.
    split; [reflexivity|]. split; [|split; reflexivity].
    assert (nst s2 = nst s1) by (unfold stepst in M1; change (nst (on_nlp (set_tn (tn_next s1)) s1)) with (nst s1) in M1; congruence).
    assert (nst s1 = nst sx) by congruence. change (nst sx) with (nst st) in *. congruence. }
  destruct W1 as (W1 & W2 & W3 & W4). clear E1 E2 sx.
  assert (V : tr st1 = match r3 with Ok _ => (match r with Ok _ => [] | Err _ => [CFail] end) | Err _ => [] end ++ tr s3 /\
     lp_ls (lp (nlp st1)) = lp_ls (lp (nlp s3)) /\ lp_matj (lp (nlp st1)) = lp_matj (lp (nlp s3)) /\
     yypredict (nlp st1) = yypredict (nlp s3) /\ yppredict (nlp st1) = yppredict (nlp s3) /\
     tn (nlp st1) = tn (nlp s3) /\ toldel (nlp st1) = toldel (nlp s3) /\ (r3 = Ok tt -> ee st1 = ee s3) /\
     (forall m, r = Err (ENls m) -> r3 <> Ok tt)).
  { destruct r3 as [[]|e].
    - apply bind_ret_inv in E as ((((s4 & ek') & ek1') & r4) & E4 & E). cbv beta iota in E. injection E as <- _ _ _ <-.
      destruct (test_error_frame _ _ _ _ _ _ _ E4) as (_ & _ & _ & _ & _ & _ & _ & F8 & _ & _ & Fr).
      assert (Q1 : ee s4 = ee s3) by congruence.
      destruct r4 as [u'|e]; [destruct Fr as (_ & ->)|destruct Fr as (Fe & _ & ->)];
        (do 7 (split; [reflexivity|])); (split; [intros _; exact Q1|]); intros m Em; congruence.
    - injection E as <- _ _ _ <-. do 7 (split; [reflexivity|]). split; [discriminate|]. intros m _. discriminate. }
  clear E. destruct V as (V1 & V2 & V3 & V4 & V5 & V6 & V7 & V8 & V9).
  destruct (nonlinear_solve_frame prob Hl _ _ _ E3) as (_ & _ & _ & _ & _ & _ & _ & _ & _ & Kp & _).
  unfold nlpkeep in Kp.
  assert (Q : yypredict (nlp s2) = yypredict (nlp s3) /\ yppredict (nlp s2) = yppredict (nlp s3) /\ tn (nlp s2) = tn (nlp s3) /\
     toldel (nlp s2) = toldel (nlp s3)) by (repeat split; congruence).
  destruct Q as (Q1 & Q2 & Q3 & Q4). clear Kp.
  assert (Hf : nst st = 0%nat -> yppredict (nlp st1) = slope).
  { intros Hz. destruct (nonlinear_first s2 s3 r3 ltac:(congruence) E3) as (evs & y & T). rewrite T, W1 in V1.
    rewrite app_assoc in V1. rewrite V5, <- Q2. apply (Hs _ _ _ _ _ V1). constructor; [reflexivity|exact (X6 Hz)]. }
  destruct (Hpred Hf) as (Y1 & Y2).
  apply nonlinear_exact in E3.
  - destruct E3 as (-> & A1 & A2 & A3 & evs & A4 & A5). specialize (V8 eq_refl).
    assert (Ee : ee st1 = vzero n) by congruence.
    assert (Hr : r = Ok tt).
    { destruct r as [[]|e]; [reflexivity|exfalso]. destruct e as [[]|m|]; try contradiction.
      - destruct Hres as (_ & _ & Hres). rewrite Ee, wrms_norm_zero in Hres. apply Rleb_false in Hres. cbn in Hres. lra.
      - exact (V9 m eq_refl eq_refl). }
    split; [exact Hr|]. split; [exact Ee|]. split; [exact Y1|]. split; [congruence|].
    split; [unfold IdaExact.zeroing in *; rewrite V2, V3; exact A3|].
    rewrite V1, Hr, A4, W1. apply Forall_app. split; [constructor|]. apply Forall_app. split; [exact A5|].
    constructor; [exact I|exact X5].
  - congruence.
  - congruence.
  - rewrite W3. exact X3.
  - rewrite Q4, <- V7. assert (Et : toldel (nlp st1) = toldel (nlp st)) by congruence. rewrite Et. exact X2.
  - rewrite W2. intros Hz. specialize (X4 Hz). unfold IdaExact.zeroing in *. rewrite W3, W4. exact X4.
Qed.

(** ** The whole life *)
Definition EJ (o : option (R * nat)) (st : state) : Prop :=
  HJ prob g yy0 o st /\ (starts_with yp0 (tr st) -> exactly st /\ (o = None -> tries_since (tr st) = 0%nat)).

Lemma exactly_ext (p q : state) : ncfn q = ncfn p -> toldel (nlp q) = toldel (nlp p) ->
  lp_ls (lp (nlp q)) = lp_ls (lp (nlp p)) -> lp_matj (lp (nlp q)) = lp_matj (lp (nlp p)) ->
  nst q = nst p -> tr q = tr p -> exactly p -> exactly q.
Proof.
  intros E1 E2 E3 E4 E5 E6 [P1 P2 P3 P4 P5 P6]. constructor; try congruence.
  - unfold IdaExact.zeroing in *. rewrite E3, E4, E5. exact P4.
  - rewrite E5, E6. exact P6.
Qed.

Lemma EJ_new : i_new prob EJ g yy0 yp0.
Proof.
  intros st E. split; [exact (HJ_new prob g yy0 yp0 st E)|]. intros _.
  pose proof (new_fields prob _ _ _ E) as F.
  destruct F as (_ & _ & _ & F4 & _ & _ & _ & _ & _ & F10 & _).
  assert (Q : lp_ls (lp (nlp st)) = ls_new n /\ toldel (nlp st) = 0 /\ ncfn st = 0%nat).
  { unfold ida_new in E. destruct (_ && _); [|discriminate]. apply ret_inj in E. subst st. cbn. auto. }
  destruct Q as (Q1 & Q2 & Q3).
  assert (Z : exactly st).
  { constructor; [exact Q3|rewrite Q2; lra|rewrite Q1; exact (proj1 Hls)|congruence|rewrite F10; constructor|rewrite F10; constructor]. }
  split; [apply (exactly_ext st); try reflexivity; exact Z|]. intros _. change (tries_since (tr st) = 0%nat). rewrite F10. reflexivity.
Qed.

Lemma exact_quiet evs : Forall (fun e => is_root e || is_warn e = true) evs -> Forall exact_ev evs.
Proof. intros A. eapply Forall_impl; [|exact A]. intros e. destruct e; cbn; trivial; discriminate. Qed.
Lemma quiet_res (evs : list (event R)) : Forall (fun e => is_root e || is_warn e = true) evs -> Forall (fun e => is_res e = false) evs.
Proof. intros A. eapply Forall_impl; [|exact A]. intros e. destruct e; cbn; trivial; discriminate. Qed.

Lemma EJ_shell : i_shell prob EJ.
Proof.
  intros p q Ho (Ja & La) S. split; [exact (HJ_shell prob g yy0 p q Ho Ja S)|]. intros Hd.
  destruct (sh_trace _ _ _ S) as (evs & T1 & T2 & _). pose proof (sh_core _ _ _ S) as C. clear S.
  assert (El : lp_ls (lp (nlp q)) = lp_ls (lp (nlp p)) /\ lp_matj (lp (nlp q)) = lp_matj (lp (nlp p)) /\
    toldel (nlp q) = toldel (nlp p) /\ ncfn q = ncfn p /\ nst q = nst p).
  { unfold core in C. cbv zeta in C. repeat split; congruence. }
  destruct El as (El & Em & Et & Ec & En). rewrite T1 in Hd. destruct (La (starts_past _ _ _ Hd)) as ([P1 P2 P3 P4 P5 P6] & P7).
  split; [|intros _; rewrite T1; destruct (quiet_steps prob g yy0 evs (tr p) T2) as (_ & Q & _); rewrite Q; exact (P7 eq_refl)].
  constructor; [congruence|rewrite Et; exact P2|congruence|unfold IdaExact.zeroing in *; rewrite El, Em, En; exact P4| |].
  - rewrite T1. apply Forall_app. split; [exact (exact_quiet _ T2)|exact P5].
  - rewrite T1, En. intros Hz. apply Forall_app. split; [exact (quiet_res _ T2)|exact (P6 Hz)].
Qed.

Lemma EJ_lims : i_lims EJ.
Proof.
  intros p q Ho (Ja & La) Hz S. split; [exact (HJ_lims prob g yy0 p q Ho Ja Hz S)|].
  destruct S as [(_ & ->)|(ts & _ & _ & ->)]; [exact La|]. unfold limit_to_tstop. destruct (_ <? _)%sc; [|exact La].
  intros Hd. destruct (La Hd) as (L1 & L2). split; [apply (exactly_ext p); try reflexivity; exact L1|exact L2].
Qed.

Lemma EJ_first : i_first prob ewt_set EJ.
Proof.
  intros p tout x Ho (Ja & La) Hz E. pose proof (HJ_first prob ewt_set g yy0 p tout x Ho Ja Hz E) as Jb. split; [exact Jb|].
  intros Hd. apply first_call_frame in E. cbv zeta in E. destruct E as (F1 & _ & _ & _ & F5).
  set (q := match x with inl (s, _) => s | inr s => s end) in *.
  assert (El : lp_ls (lp (nlp q)) = lp_ls (lp (nlp p)) /\ lp_matj (lp (nlp q)) = lp_matj (lp (nlp p)) /\ nst q = nst p /\ ncfn q = ncfn p).
  { unfold fkeep in F1. cbv zeta in F1. repeat split; congruence. }
  destruct El as (El & Em & En & Ec).
  assert (Ht : (exists evs, tr q = evs ++ tr p /\ Forall (fun e => is_root e || is_warn e = true) evs) /\
               (toldel (nlp q) = toldel (nlp p) \/ 0 <= toldel (nlp q))).
  { unfold q in *. destruct x as [(s & m)|s].
    - destruct F5 as (_ & _ & _ & F5 & _). split; [exists []; split; [|constructor]|left]; rewrite F5; reflexivity.
    - destruct F5 as (_ & _ & _ & _ & F5 & F6 & evs & T1 & T2 & _). split.
      + exists evs. split; [exact T1|]. eapply Forall_impl; [|exact T2]. intros e ->. reflexivity.
      + right. rewrite F6, F5.
        assert (Ep : epcon s = g_epcon g).
        { pose proof (tl_cfg _ _ _ _ (proj1 (proj1 Jb))) as Cf. unfold cfg_is in Cf. tauto. }
        rewrite Ep. cbn. apply Rmult_le_pos; [lra|exact Hep]. }
  destruct Ht as ((evs & T1 & T2) & Et). rewrite T1 in Hd. destruct (La (starts_past _ _ _ Hd)) as ([P1 P2 P3 P4 P5 P6] & P7).
  split; [|intros _; rewrite T1; destruct (quiet_steps prob g yy0 evs (tr p) T2) as (_ & Q & _); rewrite Q; exact (P7 eq_refl)].
  constructor; [congruence| |congruence|unfold IdaExact.zeroing in *; rewrite El, Em, En; exact P4| |].
  - destruct Et as [Et|Et]; [rewrite Et; exact P2|exact Et].
  - rewrite T1. apply Forall_app. split; [exact (exact_quiet _ T2)|exact P5].
  - rewrite T1, En. intros Hz'. apply Forall_app. split; [exact (quiet_res _ T2)|exact (P6 Hz')].
Qed.

Lemma EJ_begin : i_begin prob ewt_set EJ.
Proof.
  intros st Ho (Jst & Lst) Hlim Hfr. split; [exact (HJ_begin prob ewt_set g yy0 st Ho Jst Hlim Hfr)|].
  destruct (init_fields st) as (F1 & F2 & F3 & F4 & F5 & F6 & F7 & F8 & F9 & F10 & F11 & F12 & F13 & F14 &
    F15 & F16 & F17 & F18 & F19 & _).
  intros Hd. rewrite F19 in Hd. destruct (Lst (starts_past _ [_] _ Hd)) as ([P1 P2 P3 P4 P5 P6] & _).
  split; [|discriminate].
  assert (El : lp_ls (lp (nlp (st_init st))) = lp_ls (lp (nlp st)) /\ lp_matj (lp (nlp (st_init st))) = lp_matj (lp (nlp st)) /\
    toldel (nlp (st_init st)) = toldel (nlp st)).
  { unfold st_init. cbv zeta. destruct (_ =? 0)%nat; repeat split; reflexivity. }
  destruct El as (El & Em & Et).
  constructor; [congruence|rewrite Et; exact P2|congruence|unfold IdaExact.zeroing in *; rewrite El, Em, F8; exact P4| |].
  - rewrite F19. constructor; [exact I|exact P5].
  - rewrite F19, F8. intros Hz. constructor; [reflexivity|exact (P6 Hz)].
Qed.

Lemma EJ_attempt (st st1 : state) t0 nef ck ek ek1 r :
  instep st -> EJ (Some (t0, nef)) st -> starts_with yp0 (tr st1) ->
  try_step prob st = Ret (st1, ck, ek, ek1, r) -> tried prob st st1 ck r -> attempted prob st st1 r ->
  exactly st /\ r = Ok tt /\ ee st1 = vzero n /\ yypredict (nlp st1) = line (tn (nlp st1)) /\
  okls (lp_ls (lp (nlp st1))) /\ zeroing (lp (nlp st1)) /\ Forall exact_ev (tr st1).
Proof.
  intros Hi (Jst & Lst) Hd Et Htr Hat.
  destruct (rl_try prob ewt_set g st st1 t0 nef ck _ Hi (proj1 Jst) Htr Hat) as (evs & T1 & T2 & _).
  assert (Hx : exactly st).
  { apply Lst. rewrite T1 in Hd. rewrite app_assoc in Hd. apply starts_past in Hd. exact (starts_past _ [_] _ Hd). }
  split; [exact Hx|]. exact (try_exact st st1 t0 nef ck ek ek1 r Hi Jst Hx Hd Et Htr Hat).
Qed.

Lemma EJ_retry : i_retry prob EJ.
Proof.
  intros st t0 nef st1 ck ek ek1 st' Hi HE Et Htr Hat Hne Hrt.
  split; [exact (HJ_retry prob ewt_set g yy0 st t0 nef st1 ck ek ek1 st' Hi (proj1 HE) Et Htr Hat Hne Hrt)|]. intros Hd.
  exfalso. assert (Et1 : tr st' = tr st1) by (rewrite (rt_nlp _ _ _ _ _ Hrt); reflexivity). rewrite Et1 in Hd.
  destruct (EJ_attempt st st1 t0 nef ck ek ek1 _ Hi HE Hd Et Htr Hat) as (_ & Q & _). discriminate.
Qed.

Lemma EJ_giveup : i_giveup prob EJ.
Proof.
  intros st t0 nef st1 ck ek ek1 st' e Hi HE Et Htr Hat Hgu He.
  split; [exact (HJ_giveup prob ewt_set g yy0 st t0 nef st1 ck ek ek1 st' e Hi (proj1 HE) Et Htr Hat Hgu He)|]. intros Hd.
  exfalso. assert (Et1 : tr st' = tr st1) by (rewrite (gu_nlp _ _ _ _ Hgu); reflexivity). rewrite Et1 in Hd.
  destruct (EJ_attempt st st1 t0 nef ck ek ek1 _ Hi HE Hd Et Htr Hat) as (_ & Q & _). discriminate.
Qed.

Lemma EJ_commit : i_commit prob EJ.
Proof.
  intros st t0 nef st1 ck ek ek1 st2 Hi HE Et Htr Hat Hcp.
  split; [exact (HJ_commit prob ewt_set g yy0 st t0 nef st1 ck ek ek1 st2 Hi (proj1 HE) Et Htr Hat Hcp)|]. intros Hd.
  pose proof (cp_nlp _ _ _ Hcp) as U2. pose proof (tr_res _ _ _ _ _ Htr) as (R1 & _).
  pose proof (tr_cnt _ _ _ _ _ Htr) as U4. pose proof (tr_ewt _ _ _ _ _ Htr) as U5.
  assert (Ht : tr (st_commit prob ck st2) = CStep (tn (nlp st2)) (yy (nlp st2)) :: tr st1).
  { unfold st_commit. cbn [nlp lp trace set_ee on_lp on_nlp set_nlp set_lp push_ev set_trace]. rewrite U2. reflexivity. }
  rewrite Ht in Hd. apply (starts_past _ [_]) in Hd.
  destruct (EJ_attempt st st1 t0 nef ck ek ek1 _ Hi HE Hd Et Htr Hat) as ([P1 P2 P3 P4 P5 P6] & _ & A1 & A2 & A3 & A4 & A5).
  assert (El : lp_ls (lp (nlp (st_commit prob ck st2))) = lp_ls (lp (nlp st1)) /\
               lp_matj (lp (nlp (st_commit prob ck st2))) = lp_matj (lp (nlp st1)) /\
               toldel (nlp (st_commit prob ck st2)) = toldel (nlp st1)).
  { unfold st_commit. cbn [nlp lp set_ee on_lp on_nlp set_nlp set_lp push_ev set_trace lp_ls lp_matj toldel]. rewrite U2. repeat split; reflexivity. }
  destruct El as (El & Em & Etl).
  pose proof (cp_used _ _ _ Hcp) as U6. pose proof (cp_keep _ _ _ Hcp) as U7.
  assert (Ec : ncfn (st_commit prob ck st2) = 0%nat /\ nst (st_commit prob ck st2) <> 0%nat).
  { change (ncfn (st_commit prob ck st2)) with (ncfn st2). change (nst (st_commit prob ck st2)) with (nst st2).
    pinj. split; [congruence|lia]. }
  destruct Ec as (Ec & En).
  split; [|intros _; rewrite Ht; reflexivity].
  constructor; [exact Ec| |congruence|intros _; unfold IdaExact.zeroing in *; rewrite El, Em; exact A4| |intros Hz; contradiction].
  - rewrite Etl. assert (Q : toldel (nlp st1) = toldel (nlp st)) by congruence. rewrite Q. exact P2.
  - rewrite Ht. constructor; [|exact A5]. cbn. rewrite U2, R1, A1, A2. apply vadd_zero, vtab_length.
Qed.

Lemma reach_EJ (st : state) : reach prob ewt_set g yy0 yp0 st -> EJ None st.
Proof.
  intros Hr. apply (reach_life prob ewt_set Hl EJ g yy0 yp0 st Hg);
    [apply EJ_new|apply EJ_shell|apply EJ_lims|apply EJ_first| |exact Hr].
  split; [exact EJ_begin|]. split; [exact EJ_retry|]. split; [exact EJ_commit|exact EJ_giveup].
Qed.
(** ** Steps that return *)
(** The state in which the nonlinear solver is called, seen as the result of an
    attempt with a solver that reports a failure at once. *)
Definition refusing : NLSolver R (newton R) :=
  {| nls_new := nls_new; nls_setup := fun s d => Ret (s, d, Err ConvergenceRecover);
     nls_solve := fun S P m s x d y w tol call => Ret (s, x, y, Err ConvergenceRecover); nls_num_iters := nls_num_iters |}.

Lemma refusing_lawful : @nls_lawful R (newton R) refusing.
Proof. intros S P Q Hp size s x d y w tol call s' x' y' r Hx E. cbn in E. injection E as _ <- _ _. exact Hx. Qed.

Lemma prepared (st : state) : arrays st -> (kk st <= 5)%nat -> exists s1 ck s2 sf,
  set_coeffs prob (on_lp (push_ev (CTry (tn (nlp st)) (hh st) (kk st))) st) = Ret (s1, ck) /\
  predict prob (advance_tn s1) = Ret s2 /\
  tried prob st sf ck (Err (ENls ConvergenceRecover)) /\ attempted prob st sf (Err (ENls ConvergenceRecover)) /\
  nlpkeep (nlp sf) = nlpkeep (nlp s2) /\ lp_ls (lp (nlp s2)) = lp_ls (lp (nlp st)) /\ lp_matj (lp (nlp s2)) = lp_matj (lp (nlp st)) /\
  nst s2 = nst st /\ constraints_set s2 = constraints_set st /\ arrays s2 /\ kk s2 = kk st.
Proof.
  intros Ha Hk. set (sta := on_lp (push_ev _) st).
  destruct (set_coeffs_spec prob sta Ha Hk) as (s1 & E1 & A1 & C1 & J1 & _).
  destruct (set_coeffs_frame prob _ _ _ E1) as (F1 & F2 & F3 & F4 & F5 & F6 & F7 & F8 & F9).
  assert (K1 : kk s1 = kk st) by (change (kk sta) with (kk st) in *; congruence).
  pose proof (predict_spec prob (on_nlp (set_tn (tn_next s1)) s1) A1 ltac:(change (kk s1 <= 5)%nat; lia)) as E2.
  rewrite <- (advance_tn_eq s1) in E2.
  match type of E2 with _ = Ret ?x => set (s2 := x) in * end.
  destruct (predict_frame prob _ _ E2) as (P1 & P2 & P3 & P4 & P5 & M1 & M2).
  assert (Er : @nonlinear_solve R LSt (newton R) _ _ refusing prob s2 =
    Ret (set_delta (vzero n) (set_nls (nls s2) (set_delta (vzero n) (fst (nls_prepare s2)))), Err (ENls ConvergenceRecover))).
  { unfold nonlinear_solve. destruct (nls_prepare s2) as (sp & call) eqn:Ep. cbn [fst]. cbv zeta. cbn [nls_setup refusing bind].
    assert (Q : nls sp = nls s2).
    { unfold nls_prepare in Ep. cbv zeta in Ep. destruct (nst s2 =? 0)%nat in Ep; destruct (sneqb _ _) in Ep; injection Ep as <- _; reflexivity. }
    change (nls (set_delta (vzero n) sp)) with (nls sp). rewrite Q. reflexivity. }
  match type of Er with _ = Ret (?x, _) => set (sf := x) in * end.
  assert (Et : @try_step R LSt (newton R) _ _ refusing prob st = Ret (sf, ck_of sta (alpha s1), 0, 0, Err (ENls ConvergenceRecover))).
  { unfold try_step. fold sta. rewrite E1. cbn [bind]. rewrite E2. cbn [bind]. rewrite Er. reflexivity. }
  exists s1, (ck_of sta (alpha s1)), s2, sf. split; [exact E1|]. split; [exact E2|].
  pose proof (@try_step_spec R LSt (newton R) _ _ refusing prob refusing_lawful _ _ _ _ _ _ Ha Hk Et) as Htr.
  split; [exact Htr|]. split.
  { exact (@try_step_calls R LSt (newton R) _ _ refusing prob refusing_lawful _ _ _ _ _ _ Ha Hk Et). }
  destruct (@nonlinear_solve_frame R LSt (newton R) _ _ refusing prob refusing_lawful _ _ _ Er) as (_ & _ & _ & _ & _ & _ & _ & _ & _ & Kp & _).
  split; [exact Kp|]. rewrite M2, advance_tn_eq.
  change (nlp (on_nlp (set_tn (tn_next s1)) s1)) with (set_tn (tn_next s1) (nlp s1)). rewrite F9.
  split; [reflexivity|]. split; [reflexivity|].
  assert (Q : nst s2 = nst s1 /\ kk s2 = kk s1 /\ arrays s2).
  { unfold s2. rewrite advance_tn_eq. split; [reflexivity|]. split; [reflexivity|exact A1]. }
  destruct Q as (Q1 & Q2 & Q3). split; [|split; [|split; [exact Q3|congruence]]].
  - rewrite Q1. change (nst st) with (nst sta). congruence.
  - apply cfg_fields in F1. destruct F1 as (F1 & _). change (constraints_set st) with (constraints_set sta). rewrite <- F1. unfold s2. rewrite advance_tn_eq. reflexivity.
Qed.

Hypothesis Hfuel : (1 <= fuel)%nat.
Hypothesis Hjac : forall s t c, okls s -> c <> 0 ->
  exists s' m, ls_setup s (mkmat n n (p_jac prob 0 c (line t) slope (vzero n))) = Ret (s', m, Ok tt).

Lemma nonlinear_returns (st : state) :
  yypredict (nlp st) = line (tn (nlp st)) -> yppredict (nlp st) = slope ->
  okls (lp_ls (lp (nlp st))) -> 0 <= toldel (nlp st) -> (nst st <> 0%nat -> zeroing (lp (nlp st))) ->
  cj (lp (nlp st)) <> 0 -> constraints_set st = false ->
  exists st', nonlinear_solve prob st = Ret (st', Ok tt).
Proof.
  intros P1 P2 O Ht K Hc Hcs. unfold nonlinear_solve. pose proof (prepare_fields st) as X. cbv zeta in X.
  assert (Cs : constraints_set (fst (nls_prepare st)) = constraints_set st).
  { unfold nls_prepare. cbv zeta. destruct (nst st =? 0)%nat; destruct (sneqb _ _); reflexivity. }
  destruct (nls_prepare st) as (sp & call) eqn:Ep. cbn [fst snd] in X, Cs. clear Ep.
  destruct X as (X1 & X2 & X3 & X4 & X5 & X6 & X7 & X8 & X9).
  cbn [nls_setup newton_exact NewtonNLS bind]. cbv zeta. cbn [bind]. cbn [nls_solve newton_exact NewtonNLS]. unfold newton_solve.
  match goal with |- context [outer_loop ?P ?m ?f ?d ?w ?tl ?cl ?jb ?nw ?s ?y] =>
    assert (E : exists nw' s' y', outer_loop P m f d w tl cl jb nw s y = Ret (nw', s', y', Ok tt));
    [change s with (nlp sp); change d with (@vzero R _ n); apply (outer_returns prob okls Hls Hn a b Hsol Hjac); [exact Hfuel|..]|] end.
  - congruence.
  - congruence.
  - congruence.
  - rewrite X4. exact Ht.
  - congruence.
  - destruct call; [left; reflexivity|right]. specialize (K (X9 eq_refl)). unfold IdaExact.zeroing in *. rewrite X5, X6. exact K.
  - destruct E as (nw' & s' & y' & ->). cbn [bind]. match goal with |- context [constraints_set ?s] => change (constraints_set s) with (constraints_set sp) end.
    rewrite Cs, Hcs. eexists. reflexivity.
Qed.

(** The derivative predicted for the first attempt of all is the second row of
    the history divided by the step size. *)
Lemma first_slope (st st1 : state) t0 nef ck r :
  instep st -> HJ prob g yy0 (Some (t0, nef)) st -> exactly st ->
  tried prob st st1 ck r -> attempted prob st st1 r ->
  nst st = 0%nat -> row (phi st) 1 = vscale n (hh st) slope -> yppredict (nlp st1) = slope.
Proof.
  intros Hi (Jst & Hh) [X1 X2 X3 X4 X5 X6] Htr Hat Hz Hrow.
  destruct (Hh X1) as (Hev & Hra & _ & Hp). 
  assert (Hne : @Some (R * nat) (t0, nef) <> None) by discriminate.
  destruct (Hp (or_intror Hne)) as (b0 & b1 & Hp1). clear Hp Hh Hne.
  destruct (try_bdf prob ewt_set g yy0 st st1 t0 nef ck r b0 b1 Hi Jst Hp1 Hev Hra Htr Hat) as (Ac & Hh & Hnx & _).
  destruct Hp1 as (B1 & B2 & B3 & _ & B5 & _). destruct (B5 Hz) as (_ & B6).
  set (hs := map apt (steps (tr st)) ++ [b0; b1]) in *.
  destruct (is_zero _ Hi Hz) as (Ek & Eu). pose proof (is_kk _ Hi) as Hk.
  pose proof (h_psi _ _ _ B3 0%nat ltac:(lia)) as Hps. rewrite B6 in Hps.
  pose proof (tr_ypp _ _ _ _ _ Htr) as Y. rewrite Ek in Y.
  assert (Ly : length (yppredict (nlp st1)) = n) by (rewrite Y; apply length_vscaled_add).
  apply (vec_ext _ _ n); [exact Ly|apply vtab_length|]. intros x Lx.
  unfold IdaExact.slope. rewrite vget_vtab by exact Lx.
  destruct (predicted prob hs _ _ _ _ B3 Hh Ac Htr x Lx) as (_ & P2). rewrite Ek in P2.
  pose proof (h_phi _ _ _ B3 1%nat x ltac:(lia) ltac:(lia) Lx) as H1. rewrite Hrow in H1. rewrite vget_vscale in H1 by exact Lx.
  unfold IdaExact.slope in H1. rewrite vget_vtab in H1 by exact Lx.
  cbn [rprod] in H1. rewrite <- Hps in H1.
  assert (Ed : dd (tm hs) (yv hs x) 0 1 = b x).
  { set (D := dd (tm hs) (yv hs x) 0 1) in *. clearbody D. cbn in H1. apply (Rmult_eq_reg_l (hh st)); [|exact Hh]. lra. }
  assert (D : derivable_pt_lim (npoly (tm hs) (yv hs x) 1) (tm hs 0 + hh st) (b x)).
  { apply (derivable_ext (fun z => (dd (tm hs) (yv hs x) 0 0 - dd (tm hs) (yv hs x) 0 1 * tm hs 0) + dd (tm hs) (yv hs x) 0 1 * z)).
    - intros z. unfold npoly. cbn. ring.
    - rewrite Ed. apply lin_der. }
  exact (uniqueness_limite _ _ _ _ P2 D).
Qed.

Lemma lead_nonzero k h : (1 <= k)%nat -> h <> 0 -> lead_coeff k h <> 0.
Proof.
  intros Hk Hh. unfold lead_coeff. assert (0 < rsum k (fun i => / INR (i + 1))).
  { clear Hh. induction k as [|k IH]; [lia|]. cbn [rsum]. assert (0 < / INR (k + 1)) by (apply Rinv_0_lt_compat, lt_0_INR; lia).
    destruct k as [|k]; [cbn [rsum]; lra|]. specialize (IH ltac:(lia)). lra. }
  intros E. apply (Rmult_integral_contrapositive_currified _ (/ h)) in E; [exact E|lra|apply Rinv_neq_0_compat, Hh].
Qed.

Lemma try_hh (st st1 : state) t0 nef ck r :
  instep st -> HJ prob g yy0 (Some (t0, nef)) st -> ncfn st = 0%nat ->
  tried prob st st1 ck r -> attempted prob st st1 r -> hh st <> 0.
Proof.
  intros Hi (Jst & Hh) X1 Htr Hat. destruct (Hh X1) as (Hev & Hra & _ & Hp). 
  assert (Hne : @Some (R * nat) (t0, nef) <> None) by discriminate.
  destruct (Hp (or_intror Hne)) as (b0 & b1 & Hp1).
  exact (proj1 (proj2 (try_bdf prob ewt_set g yy0 st st1 t0 nef ck r b0 b1 Hi Jst Hp1 Hev Hra Htr Hat))).
Qed.

Lemma try_returns (st : state) t0 nef :
  instep st -> HJ prob g yy0 (Some (t0, nef)) st -> exactly st -> constraints_set st = false ->
  (nst st = 0%nat -> row (phi st) 1 = vscale n (hh st) slope) ->
  exists st1 ck ek ek1 r, try_step prob st = Ret (st1, ck, ek, ek1, r) /\ yppredict (nlp st1) = slope.
Proof.
  intros Hi HJst Hx Hcs Hrow. pose proof (is_arr _ Hi) as Ha. pose proof (is_kk _ Hi) as Hk. pose proof (is_max _ Hi) as Hm.
  destruct (prepared st Ha ltac:(lia)) as (s1 & ck & s2 & sf & E1 & E2 & Htr & Hat & Kp & L1 & L2 & N2 & C2 & A2 & K2).
  pose proof (fun Hz => first_slope st sf t0 nef ck _ Hi HJst Hx Htr Hat Hz (Hrow Hz)) as Hf.
  destruct (exact_predicted st sf t0 nef ck _ Hi HJst Hx Htr Hat Hf) as (Y1 & Y2).
  unfold nlpkeep in Kp.
  assert (Q : yypredict (nlp s2) = line (tn (nlp s2)) /\ yppredict (nlp s2) = slope /\ toldel (nlp s2) = toldel (nlp sf) /\
              cj (lp (nlp s2)) = cj (lp (nlp sf))).
  { assert (tn (nlp s2) = tn (nlp sf)) by congruence. repeat split; congruence. }
  destruct Q as (Q1 & Q2 & Q3 & Q4). destruct Hx as [X1 X2 X3 X4 X5 X6].
  destruct (nonlinear_returns s2 Q1 Q2) as (s3 & E3).
  - congruence.
  - pose proof (tr_ewt _ _ _ _ _ Htr) as W. assert (Et : toldel (nlp sf) = toldel (nlp st)) by congruence. rewrite Q3, Et. exact X2.
  - rewrite N2. intros Hz. specialize (X4 Hz). unfold IdaExact.zeroing in *. rewrite L1, L2. exact X4.
  - rewrite Q4, (tr_cj _ _ _ _ _ Htr), cj_R. apply lead_nonzero; [lia|]. exact (try_hh st sf t0 nef ck _ Hi HJst X1 Htr Hat).
  - congruence.
  - unfold try_step. rewrite E1. cbn [bind]. rewrite E2. cbn [bind]. rewrite E3. cbn [bind].
    destruct (safe_false (test_error prob s3 ck)) as ((((s4 & ek) & ek1) & r) & E4).
    { destruct (nonlinear_solve_frame prob Hl _ _ _ E3) as (_ & _ & _ & V1 & V2 & V3 & V4 & _).
      apply test_error_safe; [|pinj; lia].
      pinj. destruct A2 as (B1 & B2 & B3 & B4 & B5 & B6 & B7 & B8). unfold arrays. repeat split; congruence. }
    rewrite E4. cbn [bind]. do 5 eexists. split; [reflexivity|].
    destruct (nonlinear_solve_frame prob Hl _ _ _ E3) as (_ & _ & _ & _ & _ & _ & _ & _ & _ & Kq & _).
    destruct (test_error_frame _ _ _ _ _ _ _ E4) as (_ & _ & _ & _ & _ & _ & _ & _ & _ & _ & Fr).
    unfold nlpkeep in Kq. assert (Z : yppredict (nlp s3) = yppredict (nlp s2)) by congruence. rewrite <- Q2, <- Z.
    destruct r as [u'|e]; [destruct Fr as (_ & ->)|destruct Fr as (Fe & _ & ->)]; reflexivity.
Qed.

Lemma try_first (st st1 : state) ck ek ek1 r : tried prob st st1 ck r -> (1 <= kk st)%nat ->
  try_step prob st = Ret (st1, ck, ek, ek1, r) ->
  exists evs t y, tr st1 = evs ++ CRes t y (yppredict (nlp st1)) :: CTry (tn (nlp st)) (hh st) (kk st) :: tr st.
Proof.
  intros Htr Hk E.
  assert (Ly : length (yppredict (nlp st1)) = n).
  { rewrite (tr_ypp _ _ _ _ _ Htr). unfold rowcomb1. destruct (kk st); [lia|]. apply length_vscaled_add. }
  unfold try_step in E. set (sx := on_lp (push_ev (CTry (tn (nlp st)) (hh st) (kk st))) st) in E.
  apply bind_ret_inv in E as ((s1 & c1) & E1 & E). apply bind_ret_inv in E as (s2 & E2 & E).
  apply bind_ret_inv in E as ((s3 & r3) & E3 & E). cbv beta iota in E.
  assert (W1 : tr s2 = CTry (tn (nlp st)) (hh st) (kk st) :: tr st).
  { destruct (set_coeffs_frame _ _ _ _ E1) as (_ & _ & _ & _ & _ & _ & _ & N1 & N2).
    destruct (predict_frame _ _ _ E2) as (_ & _ & _ & _ & _ & M1 & M2). rewrite advance_tn_eq in M1, M2.
    rewrite M2. change (nlp (on_nlp (set_tn (tn_next s1)) s1)) with (set_tn (tn_next s1) (nlp s1)). rewrite N2. reflexivity. }
  assert (V : exists evs, tr st1 = evs ++ tr s3 /\ yppredict (nlp st1) = yppredict (nlp s3)).
  { destruct r3 as [[]|e].
    - apply bind_ret_inv in E as ((((s4 & ek') & ek1') & r4) & E4 & E). cbv beta iota in E. injection E as <- _ _ _ <-.
      destruct (test_error_frame _ _ _ _ _ _ _ E4) as (_ & _ & _ & _ & _ & _ & _ & F8 & _ & _ & Fr).
      destruct r4 as [u'|e]; [destruct Fr as (_ & ->)|destruct Fr as (Fe & _ & ->)]; [exists []|exists [CFail]]; split; reflexivity.
    - injection E as <- _ _ _ <-. exists []. split; reflexivity. }
  destruct V as (ev1 & V1 & V2).
  destruct (nonlinear_solve_frame prob Hl _ _ _ E3) as (_ & _ & _ & _ & _ & _ & _ & _ & _ & Kp & _).
  unfold nlpkeep in Kp. assert (Q : yppredict (nlp s2) = yppredict (nlp s3)) by congruence.
  destruct (nonlinear_first s2 s3 r3 ltac:(congruence) E3) as (evs & y & T). rewrite V1, T, W1, V2, <- Q.
  exists (ev1 ++ evs), (tn (nlp s2)), y. rewrite app_assoc. reflexivity.
Qed.

(** From the end of the first-call block on the second row of the history is the
    scaled slope until the first residual evaluation. *)
Definition FJ (o : option (R * nat)) (st : state) : Prop :=
  EJ o st /\ starts_with yp0 (tr st) /\
  (nst st = 0%nat -> row (phi st) 1 = vscale n (hh st) slope) /\
  (nst st <> 0%nat -> Exists (fun e => is_res e = true) (tr st)).

Lemma FJ_try (st st1 : state) t0 nef ck ek ek1 r : instep st -> FJ (Some (t0, nef)) st ->
  try_step prob st = Ret (st1, ck, ek, ek1, r) -> tried prob st st1 ck r -> attempted prob st st1 r ->
  r = Ok tt /\ starts_with yp0 (tr st1) /\ Exists (fun e => is_res e = true) (tr st1).
Proof.
  intros Hi (He & Hs & Hrow & Hex) Et Htr Hat. pose proof (is_kk _ Hi) as Hk.
  destruct (proj2 He Hs) as (Hx & _).
  destruct (try_first st st1 ck ek ek1 r Htr ltac:(lia) Et) as (evs & t & y & T).
  assert (Hs1 : starts_with yp0 (tr st1)).
  { destruct (Nat.eq_dec (nst st) 0) as [Hz|Hz].
    - rewrite T, (first_slope st st1 t0 nef ck r Hi (proj1 He) Hx Htr Hat Hz (Hrow Hz)). apply starts_first.
      constructor; [reflexivity|exact (ex_first _ Hx Hz)].
    - rewrite T.
      change (evs ++ CRes t y (yppredict (nlp st1)) :: CTry (tn (nlp st)) (hh st) (kk st) :: tr st)
        with (evs ++ [CRes t y (yppredict (nlp st1)); CTry (tn (nlp st)) (hh st) (kk st)] ++ tr st).
      rewrite app_assoc. apply res_in_suffix; [exact (Hex Hz)|exact Hs]. }
  split; [|split; [exact Hs1|]].
  - exact (proj1 (proj2 (EJ_attempt st st1 t0 nef ck ek ek1 r Hi He Hs1 Et Htr Hat))).
  - rewrite T. apply Exists_app. right. constructor. reflexivity.
Qed.

Lemma FJ_in : i_in prob ewt_set FJ.
Proof.
  split; [|split; [|split]].
  - intros st Ho (He & Hs & Hrow & Hex) Hlim Hfr. split; [exact (EJ_begin st Ho He Hlim Hfr)|].
    destruct (init_fields st) as (F1 & F2 & F3 & F4 & F5 & F6 & F7 & F8 & F9 & F10 & F11 & F12 & F13 & F14 &
      F15 & F16 & F17 & F18 & F19 & _).
    assert (Q : phi (st_init st) = phi st /\ hh (st_init st) = hh st).
    { unfold st_init. cbv zeta. destruct (_ =? 0)%nat; split; reflexivity. }
    destruct Q as (Q1 & Q2). split; [|split].
    + rewrite F19. intros new past t y yp E Hp. destruct new as [|x new]; cbn in E; [discriminate|].
      injection E as _ E. exact (Hs new past t y yp E Hp).
    + rewrite F8, Q1, Q2. exact Hrow.
    + rewrite F8, F19. intros Hz. apply Exists_cons_tl, Hex, Hz.
  - intros st t0 nef st1 ck ek ek1 st' Hi HF Et Htr Hat Hne Hrt. exfalso.
    destruct (FJ_try _ _ _ _ _ _ _ _ Hi HF Et Htr Hat) as (Q & _). discriminate.
  - intros st t0 nef st1 ck ek ek1 st2 Hi HF Et Htr Hat Hcp.
    destruct (FJ_try _ _ _ _ _ _ _ _ Hi HF Et Htr Hat) as (_ & Hs1 & Hx1).
    split; [exact (EJ_commit st t0 nef st1 ck ek ek1 st2 Hi (proj1 HF) Et Htr Hat Hcp)|].
    assert (Ht : tr (st_commit prob ck st2) = CStep (tn (nlp st2)) (yy (nlp st2)) :: tr st1).
    { unfold st_commit. cbn [nlp lp trace set_ee on_lp on_nlp set_nlp set_lp push_ev set_trace]. rewrite (cp_nlp _ _ _ Hcp). reflexivity. }
    rewrite Ht. split; [|split].
    + apply (res_in_suffix _ [_]); assumption.
    + intros Hz. exfalso. change (nst (st_commit prob ck st2)) with (nst st2) in Hz.
      pose proof (cp_used _ _ _ Hcp) as U6. pose proof (cp_keep _ _ _ Hcp) as U7. pinj. lia.
    + intros _. apply Exists_cons_tl, Hx1.
  - intros st t0 nef st1 ck ek ek1 st' e Hi HF Et Htr Hat Hgu He. exfalso.
    destruct (FJ_try _ _ _ _ _ _ _ _ Hi HF Et Htr Hat) as (Q & _). discriminate.
Qed.

Lemma step_FJ f (st st' : state) r : ordok st -> FJ None st -> limited st -> fresh prob ewt_set st ->
  step prob f st = Ret (st', r) -> FJ None st'.
Proof. apply (step_life prob ewt_set Hl FJ f st st' r FJ_in). Qed.

Lemma step_returns (st : state) : ordok st -> FJ None st -> limited st -> fresh prob ewt_set st -> constraints_set st = false ->
  exists st' u, forall f, (1 <= f)%nat -> step prob f st = Ret (st', Ok u).
Proof.
  intros Ho HF Hlim Hfr Hcs. pose proof (instep_init _ Ho) as Hi. pose proof (proj1 FJ_in st Ho HF Hlim Hfr) as HF0.
  destruct (init_fields st) as (F1 & F2 & F3 & F4 & F5 & F6 & F7 & F8 & F9 & F10 & F11 & F12 & F13 & F14 &
      F15 & F16 & F17 & F18 & F19 & _).
  assert (Hcs0 : constraints_set (st_init st) = false).
  { apply cfg_fields in F1. destruct F1 as (F1 & _). congruence. }
  pose proof HF0 as (He & Hs & Hrow & _). destruct (proj2 He Hs) as (Hx & _).
  destruct (try_returns (st_init st) _ _ Hi (proj1 He) Hx Hcs0 Hrow) as (st1 & ck & ek & ek1 & r & Et & _).
  pose proof (is_arr _ Hi) as Ha. pose proof (is_kk _ Hi) as Hk. pose proof (is_max _ Hi) as Hm.
  pose proof (try_step_spec prob Hl _ _ _ _ _ _ Ha ltac:(lia) Et) as Htr.
  pose proof (try_step_calls prob Hl _ _ _ _ _ _ Ha ltac:(lia) Et) as Hat.
  destruct (FJ_try _ _ _ _ _ _ _ _ Hi HF0 Et Htr Hat) as (-> & _).
  pose proof (tr_res _ _ _ _ _ Htr) as (_ & _ & _ & Hkn & _). pose proof (tr_ord _ _ _ _ _ Htr) as Hor.
  pose proof (maxord_tried _ _ _ _ _ Htr) as Hmx. pose proof (is_kused _ Hi) as Hu.
  destruct (complete_step_spec prob st1 ek ek1) as (st3 & E3 & _).
  - apply Htr.
  - pinj. lia.
  - lia.
  - pinj. destruct Hkn as [->|(? & ->)]; [left|right]; lia.
  - eexists. eexists. intros f Lf. destruct f as [|f]; [lia|]. unfold step. cbv zeta.
    rewrite step_init_eq by (destruct Ho as ((_ & A & _) & _); lia). cbn [bind step_loop]. unfold attempt_step. cbv zeta.
    rewrite Et. cbn [bind]. rewrite E3. cbn [bind]. reflexivity.
Qed.
End Lives.
