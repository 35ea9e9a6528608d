(** * IdaLinear: linear functionals of the vectors that pass through the
      Newton iteration, over the reals *)
Require Import List Arith Bool Lia Reals Lra.
Import ListNotations.
Require Import Verif.Base Verif.Scalar Verif.ScalarR Verif.Dense Verif.RSum Verif.DenseSpec Verif.Norms Verif.VecR
  Verif.Newton Verif.IdaState Verif.IdaNls Verif.BaseFacts Verif.DenseSolveR Verif.IdaFacts Verif.IdaLoops Verif.IdaReach.
Open Scope R_scope.

(** [dot n c v]: the sum of [c i * v i] over the first [n] components. *)
Definition dot (n : nat) (c : nat -> R) (v : list R) : R := rsum n (fun i => c i * nth i v 0).

Section Dot.
Variable n : nat.
Variable c : nat -> R.
Notation dot := (dot n c).

Lemma dot_ext u v : (forall i, (i < n)%nat -> vget u i = vget v i) -> dot u = dot v.
Proof. intros E. apply rsum_ext. intros i Hi. change (c i * vget u i = c i * vget v i). rewrite E by exact Hi. reflexivity. Qed.

Lemma dot_vadd a b : dot (vadd n a b) = dot a + dot b.
Proof.
  unfold dot. rewrite <- rsum_plus. apply rsum_ext. intros i Hi. change (nth i (vadd n a b) 0) with (vget (vadd n a b) i).
  rewrite vget_vadd by exact Hi. cbn. unfold vget. cbn. ring.
Qed.

Lemma dot_vscale s v : dot (vscale n s v) = s * dot v.
Proof.
  unfold dot. rewrite <- rsum_scal. apply rsum_ext. intros i Hi. change (nth i (vscale n s v) 0) with (vget (vscale n s v) i).
  rewrite vget_vscale by exact Hi. cbn. unfold vget. cbn. ring.
Qed.

Lemma dot_vscaled_add y s x : dot (vscaled_add n y s x) = dot y + s * dot x.
Proof.
  unfold dot. rewrite <- rsum_scal, <- rsum_plus. apply rsum_ext. intros i Hi.
  change (nth i (vscaled_add n y s x) 0) with (vget (vscaled_add n y s x) i).
  rewrite vget_vscaled_add by exact Hi. cbn. unfold vget. cbn. ring.
Qed.

Lemma dot_vneg v : dot (vneg n v) = - dot v.
Proof.
  unfold dot. replace (- rsum n (fun i => c i * nth i v 0)) with ((-1) * rsum n (fun i => c i * nth i v 0)) by ring.
  rewrite <- rsum_scal. apply rsum_ext. intros i Hi. change (nth i (vneg n v) 0) with (vget (vneg n v) i).
  unfold vneg. rewrite vget_vtab by exact Hi. cbn. unfold vget. cbn. ring.
Qed.

Lemma dot_vzero m : dot (vzero m) = 0.
Proof. apply rsum_0. intros i _. change (nth i (vzero m) 0) with (vget (vzero m) i). rewrite vget_vzero. cbn. ring. Qed.

Lemma dot_vtab f : dot (vtab n f) = rsum n (fun i => c i * f i).
Proof.
  apply rsum_ext. intros i Hi. change (nth i (vtab n f) 0) with (vget (vtab n f) i). rewrite vget_vtab by exact Hi. reflexivity.
Qed.

Lemma dot_nil : dot [] = 0.
Proof. apply rsum_0. intros i _. destruct i; cbn; ring. Qed.
End Dot.

Section DotRows.
Variable prob : problem R.
Notation n := (model_size prob).
Variable c : nat -> R.
Notation dot := (dot n c).

Lemma dot_rowsum ph k : dot (rowsum prob ph k) = rsum k (fun j => dot (row ph j)).
Proof.
  unfold IdaLinear.dot. rewrite rsum_swap. apply rsum_ext. intros i Hi.
  change (nth i (rowsum prob ph k) 0) with (vget (rowsum prob ph k) i). rewrite vget_rowsum by exact Hi.
  rewrite <- rsum_scal. reflexivity.
Qed.

Lemma dot_rowcomb1 g ph k : dot (rowcomb1 prob g ph k) = rsum k (fun j => vget g (S j) * dot (row ph (S j))).
Proof.
  unfold IdaLinear.dot.
  rewrite (rsum_ext k _ (fun j => rsum n (fun i => c i * (vget g (S j) * vget (row ph (S j)) i)))).
  2:{ intros j _. rewrite <- rsum_scal. apply rsum_ext. intros i _. unfold vget. cbn. ring. }
  rewrite rsum_swap. apply rsum_ext. intros i Hi.
  change (nth i (rowcomb1 prob g ph k) 0) with (vget (rowcomb1 prob g ph k) i). rewrite vget_rowcomb1 by exact Hi.
  rewrite <- rsum_scal. reflexivity.
Qed.

Lemma dot_rowcomb g ph lo k : dot (rowcomb prob g ph lo k) = rsum k (fun j => vget g j * dot (row ph (lo + j))).
Proof.
  unfold IdaLinear.dot.
  rewrite (rsum_ext k _ (fun j => rsum n (fun i => c i * (vget g j * vget (row ph (lo + j)) i)))).
  2:{ intros j _. rewrite <- rsum_scal. apply rsum_ext. intros i _. unfold vget. cbn. ring. }
  rewrite rsum_swap. apply rsum_ext. intros i Hi.
  change (nth i (rowcomb prob g ph lo k) 0) with (vget (rowcomb prob g ph lo k) i). rewrite vget_rowcomb by exact Hi.
  rewrite <- rsum_scal. reflexivity.
Qed.

Lemma dot_tailsum e ph j cnt : dot (tailsum prob e ph j cnt) = dot e + rsum cnt (fun l => dot (row ph (j + l))).
Proof.
  unfold IdaLinear.dot. rewrite rsum_swap, <- rsum_plus. apply rsum_ext. intros i Hi.
  change (nth i (tailsum prob e ph j cnt) 0) with (vget (tailsum prob e ph j cnt) i). rewrite vget_tailsum by exact Hi.
  rewrite rsum_scal. unfold vget. cbn. ring.
Qed.
End DotRows.

(** A direct linear solver that solves exactly: whatever its set-up accepts, its
    solve inverts.  [okls] is the solver's own invariant. *)
Definition exact_ls {LSt} `{LSolver R LSt} (n : nat) (okls : LSt -> Prop) : Prop :=
  okls (ls_new n) /\
  (forall s, okls s -> ls_type s = Direct) /\
  (forall s A s' m, okls s -> ls_setup s (mkmat n n A) = Ret (s', m, Ok tt) ->
     okls s' /\
     forall x0 b tol x r, length b = n -> ls_solve s' m x0 b tol = Ret (x, r) -> solves n A x b).

Lemma dense_exact n : (1 <= n)%nat -> exact_ls n (fun piv => length piv = n).
Proof.
  intros Hn. split; [apply repeat_length|]. split; [reflexivity|]. intros s A s' m L E. cbn in E.
  split.
  - destruct (dense_lu n n A s s' m (le_n n) L E) as (_ & _ & L' & _). exact L'.
  - intros x0 b tol x r Lb E'. cbn in E'. apply bind_ret_inv in E'. destruct E' as (x' & E1 & E').
    apply ret_inj in E'. pose proof (f_equal fst E') as Ex. cbn in Ex. subst x'.
    destruct (dense_solve_correct n A s m s' b tol Hn L Lb E) as (x1 & X1 & _ & X2).
    assert (Ex : x1 = x) by (apply ret_inj; rewrite <- X1; exact E1). rewrite <- Ex. exact X2.
Qed.

(** ** The Newton iteration on the integrator's problem *)
Section Newton.
Context {LSt : Type} `{LSolver R LSt}.
Variable prob : problem R.
Notation n := (model_size prob).
Notation P := (ida_nlproblem prob).
Notation np := (nlprob R LSt).
Notation tr s := (trace (lp s)).
Variable okls : LSt -> Prop.
Hypothesis Hls : exact_ls n okls.
Hypothesis Hn : (1 <= n)%nat.

(** The functional [w] of the residual is [alpha] times the distance of [c y] from [d]
    plus [beta] times the rate [c y']; the Jacobian agrees with it. *)
Variables (w c : nat -> R) (al be d : R).
Definition respects_at (t : R) : Prop :=
  forall y yp, rsum n (fun i => w i * p_res prob t y yp i) = al * (dot n c y - d) + be * dot n c yp.
Definition jac_respects : Prop :=
  forall t cj y yp r j, (j < n)%nat -> rsum n (fun i => w i * p_jac prob t cj y yp r i j) = (al + be * cj) * c j.
Hypothesis Hres : forall t, respects_at t.
Hypothesis Hjac : jac_respects.

(** The factored matrix in use maps right-hand sides without [w] component to
    solutions without [c] component. *)
Definition neutral (l : lprob R LSt) : Prop :=
  forall x0 b tol x r, length b = n -> dot n w b = 0 ->
    ls_solve (lp_ls l) (lp_matj l) x0 b tol = Ret (x, r) -> dot n c x = 0.

Definition good_ev (e : event R) : Prop :=
  match e with
  | CRes _ y yp => dot n c y = d /\ dot n c yp = 0
  | CJac _ _ y yp => dot n c y = d /\ dot n c yp = 0
  | CStep _ y => dot n c y = d
  | _ => True
  end.

Variables (c0 : R) (tr0 : list (event R)).
Hypothesis Hlead : al + be * c0 <> 0.

(** What holds throughout one Newton solve. *)
Record on_plane (s : np) : Prop := {
  op_pred : dot n c (yypredict s) = d;
  op_predp : dot n c (yppredict s) = 0;
  op_cj : cj (lp s) = c0;
  op_ls : okls (lp_ls (lp s));
  op_tr : exists evs, tr s = evs ++ tr0 /\ Forall good_ev evs }.

Lemma sys_plane s y s' f r : on_plane s -> dot n c y = 0 -> nlp_sys prob s y = Ret (s', f, r) ->
  on_plane s' /\ dot n w f = 0 /\ r = Ok tt /\ lp_ls (lp s') = lp_ls (lp s) /\ lp_matj (lp s') = lp_matj (lp s) /\
  dot n c (yy s') = d /\ dot n c (yp s') = 0.
Proof.
  intros [A1 A2 A3 A4 (evs & A5 & A6)] Hy E. unfold nlp_sys in E. cbv zeta in E. apply ret_inj in E.
  pose proof (f_equal (fun q => fst (fst q)) E) as E1. pose proof (f_equal (fun q => snd (fst q)) E) as E2.
  pose proof (f_equal snd E) as E3. cbn [fst snd] in E1, E2, E3. clear E.
  assert (Y1 : dot n c (vadd n (yypredict s) y) = d) by (rewrite dot_vadd, A1, Hy; ring).
  assert (Y2 : dot n c (vscaled_add n (yppredict s) (cj (lp s)) y) = 0) by (rewrite dot_vscaled_add, A2, Hy; ring).
  assert (F0 : dot n w f = 0).
  { rewrite <- E2. cbn. rewrite dot_vtab. pose proof (Hres (tn s)) as Hr. unfold respects_at in Hr.
    etransitivity; [apply Hr|]. rewrite Y1, Y2. ring. }
  rewrite <- E1. split; [|split; [exact F0|split; [congruence|]]].
  - constructor; cbn; [exact A1|exact A2|exact A3|exact A4|].
    exists (CRes (tn s) (vadd n (yypredict s) y) (vscaled_add n (yppredict s) (cj (lp s)) y) :: evs).
    split; [cbn; rewrite A5; reflexivity|]. constructor; [split; assumption|exact A6].
  - cbn. auto.
Qed.

Lemma setup_plane s y f jb s' r : on_plane s -> dot n c (yy s) = d -> dot n c (yp s) = 0 ->
  nlp_setup prob s y f jb = Ret (s', r) -> on_plane s' /\ neutral (lp s').
Proof.
  intros [A1 A2 A3 A4 (evs & A5 & A6)] Y1 Y2 E. unfold nlp_setup in E. cbv zeta in E.
  apply bind_ret_inv in E. destruct E as (l & El & E). apply ret_inj in E.
  pose proof (f_equal fst E) as E1. cbn [fst] in E1. clear E.
  unfold lp_setup in El. destruct (Nat.eqb_spec n 0) as [Hz|Hz]; [lia|]. cbv zeta in El.
  apply bind_ret_inv in El. destruct El as (((ls & m) & res) & Es & El).
  destruct res as [[]|]; [|discriminate]. apply ret_inj in El.
  cbn [lp_ls lp_matj set_lp_matj push_ev set_trace set_nje set_nsetups lp yy yp cj] in Es.
  destruct Hls as (_ & _ & H3). destruct (H3 _ _ _ _ A4 Es) as (K1 & K2).
  rewrite <- E1, <- El. split.
  - constructor; cbn; [exact A1|exact A2|exact A3|exact K1|].
    exists (CJac 0 (cj (lp s)) (yy s) (yp s) :: evs). split; [rewrite A5; reflexivity|].
    constructor; [split; assumption|exact A6].
  - intros x0 b tol x r0 Lb Wb Ex. cbn in Ex. pose proof (K2 x0 b tol x r0 Lb Ex) as Sx.
    assert (Q : (al + be * c0) * dot n c x = dot n w b).
    { unfold dot. rewrite <- rsum_scal.
      rewrite (rsum_ext n (fun i => w i * nth i b 0)
        (fun i => rsum n (fun j => w i * p_jac prob 0 (cj (lp s)) (yy s) (yp s) f i j * nth j x 0))).
      2:{ intros i Hi. rewrite <- (Sx i Hi), <- rsum_scal. apply rsum_ext. intros j _. cbn. ring. }
      rewrite rsum_swap. apply rsum_ext. intros j Hj. rewrite rsum_scal_r, Hjac by exact Hj. rewrite A3. ring. }
    rewrite Wb in Q. apply Rmult_integral in Q. destruct Q as [Q|Q]; [contradiction|exact Q].
Qed.

Lemma solve_plane s y b s' x r : on_plane s -> neutral (lp s) -> length b = n -> dot n w b = 0 ->
  nlp_solve prob s y b = Ret (s', x, r) ->
  on_plane s' /\ neutral (lp s') /\ dot n c x = 0 /\ r = Ok tt.
Proof.
  intros [A1 A2 A3 A4 A5] K Lb Wb E. unfold nlp_solve in E. apply bind_ret_inv in E.
  destruct E as ((l & x') & El & E). apply ret_inj in E.
  pose proof (f_equal (fun q => fst (fst q)) E) as E1. pose proof (f_equal (fun q => snd (fst q)) E) as E2.
  pose proof (f_equal snd E) as E3. cbn [fst snd] in E1, E2, E3. clear E. subst x' r.
  unfold lp_solve in El. cbv zeta in El.
  destruct Hls as (_ & H2 & _).
  rewrite (H2 _ A4 : ls_type (lp_ls (lp s)) = Direct) in El.
  apply bind_ret_inv in El. destruct El as ((z & rv) & Ez & El).
  cbn [lp_ls lp_matj set_lp_x lp_x] in Ez. pose proof (K _ _ _ _ _ Lb Wb Ez) as Z0.
  apply ret_inj in El. pose proof (f_equal fst El) as L1. pose proof (f_equal snd El) as L2. cbn [fst snd] in L1, L2. clear El.
  assert (Lx : lp_ls l = lp_ls (lp s) /\ lp_matj l = lp_matj (lp s) /\ cj l = cj (lp s) /\ trace l = tr s).
  { rewrite <- L1. destruct rv; cbn; auto. }
  destruct Lx as (X1 & X2 & X3 & X4).
  assert (Dx : dot n c x = 0).
  { rewrite <- L2. cbn [lp_x set_lp_x]. destruct (sneqb _ _); [|exact Z0]. rewrite dot_vscale, Z0. ring. }
  rewrite <- E1. split; [|split; [|split; [exact Dx|reflexivity]]].
  - constructor; cbn; [exact A1|exact A2|congruence|congruence|]. rewrite X4. exact A5.
  - unfold neutral in *. cbn. rewrite X1, X2. exact K.
Qed.

Lemma ctest_plane s i y del tol wt s' r : on_plane s -> neutral (lp s) -> nlp_ctest s i y del tol wt = Ret (s', r) ->
  on_plane s' /\ neutral (lp s').
Proof.
  intros A K E. unfold nlp_ctest in E. cbv zeta in E.
  assert (X : forall s2 : np, lp s2 = lp s -> yypredict s2 = yypredict s -> yppredict s2 = yppredict s ->
    on_plane s2 /\ neutral (lp s2)).
  { intros s2 B1 B2 B3. rewrite B1. split; [|exact K]. destruct A as [A1 A2 A3 A4 A5].
    constructor; rewrite ?B1, ?B2, ?B3; assumption. }
  destruct (i =? 0)%nat; [destruct (_ <=? _)%sc|destruct (_ <? _)%sc]; apply ret_inj in E;
    pose proof (f_equal fst E) as E1; cbn [fst] in E1; rewrite <- E1; apply X; reflexivity.
Qed.

Lemma inner_plane fuel : forall wt tol nw (s : np) y nw' s' y' r,
  on_plane s -> neutral (lp s) -> dot n c y = 0 -> dot n w (nw_delta nw) = 0 ->
  inner_loop P n fuel wt tol nw s y = Ret (nw', s', y', r) ->
  on_plane s' /\ neutral (lp s') /\ dot n c y' = 0.
Proof.
  induction fuel as [|fuel IH]; intros wt tol nw s y nw' s' y' r A K Hy Hd E; [discriminate|].
  cbn [inner_loop] in E. cbv zeta in E. apply bind_ret_inv in E. destruct E as (((s1 & x) & r1) & E1 & E).
  cbn [nw_delta inc_niters Newton.set_delta np_solve ida_nlproblem] in E1.
  apply solve_plane in E1; [|exact A|exact K|apply vtab_length|rewrite dot_vneg, Hd; ring].
  destruct E1 as (A1 & K1 & X1 & ->).
  apply bind_ret_inv in E. destruct E as ((s2 & r2) & E2 & E).
  cbn [nw_delta inc_niters Newton.set_delta np_ctest ida_nlproblem] in E2.
  apply ctest_plane in E2; [|exact A1|exact K1]. destruct E2 as (A2 & K2).
  assert (Y1 : dot n c (vadd n y x) = 0) by (rewrite dot_vadd, Hy, X1; ring).
  destruct r2 as [[]|e].
  - apply ret_inj in E. pose proof (f_equal (fun q => snd (fst (fst q))) E) as B1.
    pose proof (f_equal (fun q => snd (fst q)) E) as B2. cbn [fst snd] in B1, B2. rewrite <- B1, <- B2. auto.
  - destruct (_ <=? _)%nat.
    + apply ret_inj in E. pose proof (f_equal (fun q => snd (fst (fst q))) E) as B1.
      pose proof (f_equal (fun q => snd (fst q)) E) as B2. cbn [fst snd] in B1, B2. rewrite <- B1, <- B2. auto.
    + apply bind_ret_inv in E. destruct E as (((s3 & f) & r3) & E3 & E).
      cbn [nw_delta inc_niters Newton.set_delta np_sys ida_nlproblem] in E3.
      apply sys_plane in E3; [|exact A2|exact Y1]. destruct E3 as (A3 & F3 & -> & B1 & B2 & _).
      eapply IH; [exact A3| |exact Y1| |exact E]; [|exact F3].
      unfold neutral in *. rewrite B1, B2. exact K2.
  - apply ret_inj in E. pose proof (f_equal (fun q => snd (fst (fst q))) E) as B1.
    pose proof (f_equal (fun q => snd (fst q)) E) as B2. cbn [fst snd] in B1, B2. rewrite <- B1, <- B2. auto.
Qed.

Lemma attempt_plane y0 wt tol call jbad nw (s : np) y nw' s' y' r :
  on_plane s -> (call = true \/ neutral (lp s)) -> dot n c y0 = 0 ->
  attempt P n y0 wt tol call jbad nw s y = Ret (nw', s', y', r) ->
  on_plane s' /\ neutral (lp s') /\ (dot n c y' = 0 \/ exists col, r = Err (LinearSetupFailed col)).
Proof.
  intros A K Hy E. unfold attempt in E. apply bind_ret_inv in E. destruct E as (((s1 & f) & r1) & E1 & E).
  cbn [np_sys ida_nlproblem] in E1. apply sys_plane in E1; [|exact A|exact Hy].
  destruct E1 as (A1 & F1 & -> & B1 & B2 & Y1 & Y2).
  cbv zeta in E. apply bind_ret_inv in E. destruct E as (((nw2 & s2) & r2) & E2 & E). destruct call.
  - apply bind_ret_inv in E2. destruct E2 as ((s3 & r3) & E3 & E2). cbn [np_setup ida_nlproblem] in E3.
    assert (R3 : r3 = Ok true).
    { unfold nlp_setup in E3. cbv zeta in E3. apply bind_ret_inv in E3. destruct E3 as (l & _ & E3).
      apply ret_inj in E3. exact (eq_sym (f_equal snd E3)). }
    apply setup_plane in E3; [|exact A1|exact Y1|exact Y2]. destruct E3 as (A3 & K3). subst r3.
    apply ret_inj in E2. pose proof (f_equal (fun q => fst (fst q)) E2) as C1.
    pose proof (f_equal (fun q => snd (fst q)) E2) as C2. pose proof (f_equal snd E2) as C3.
    cbn [fst snd] in C1, C2, C3. rewrite <- C3 in E. rewrite <- C1, <- C2 in E.
    apply inner_plane in E; [|exact A3|exact K3|exact Hy|exact F1]. destruct E as (E4 & E5 & E6). auto.
  - destruct K as [K|K]; [discriminate|]. apply ret_inj in E2. pose proof (f_equal (fun q => fst (fst q)) E2) as C1.
    pose proof (f_equal (fun q => snd (fst q)) E2) as C2. pose proof (f_equal snd E2) as C3.
    cbn [fst snd] in C1, C2, C3. rewrite <- C3 in E. rewrite <- C1, <- C2 in E.
    apply inner_plane in E; [|exact A1| |exact Hy|exact F1]; [destruct E as (E4 & E5 & E6); auto|].
    unfold neutral in *. rewrite B1, B2. exact K.
Qed.

Lemma outer_plane fuel : forall y0 wt tol call jbad nw (s : np) y nw' s' y' r,
  on_plane s -> (call = true \/ neutral (lp s)) -> dot n c y0 = 0 ->
  outer_loop P n fuel y0 wt tol call jbad nw s y = Ret (nw', s', y', r) ->
  on_plane s' /\ neutral (lp s') /\ (r = Ok tt -> dot n c y' = 0).
Proof.
  induction fuel as [|fuel IH]; intros y0 wt tol call jbad nw s y nw' s' y' r A K Hy E; [discriminate|].
  cbn [outer_loop] in E. apply bind_ret_inv in E. destruct E as ((((nw1 & s1) & y1) & r1) & E1 & E).
  pose proof (attempt_plane _ _ _ _ _ _ _ _ _ _ _ _ A K Hy E1) as (A1 & K1 & Y1).
  destruct r1 as [[]|e].
  - apply ret_inj in E. pose proof (f_equal (fun q => snd (fst (fst q))) E) as B1.
    pose proof (f_equal (fun q => snd (fst q)) E) as B2. cbn [fst snd] in B1, B2. rewrite <- B1, <- B2.
    split; [exact A1|]. split; [exact K1|]. intros _. destruct Y1 as [Y1|(col & Y1)]; [exact Y1|discriminate].
  - assert (Z : forall nx, Ret (nx, s1, y1, Err e) = Ret (nw', s', y', r) ->
      on_plane s' /\ neutral (lp s') /\ (r = Ok tt -> dot n c y' = 0)).
    { intros nx Ez. apply ret_inj in Ez. pose proof (f_equal (fun q => snd (fst (fst q))) Ez) as B1.
      pose proof (f_equal snd Ez) as B2. cbn [fst snd] in B1, B2. rewrite <- B1, <- B2.
      split; [exact A1|]. split; [exact K1|]. discriminate. }
    destruct e; try exact (Z _ E).
    destruct (negb _); eapply IH; try exact E; try exact A1; try exact Hy; [left; reflexivity|right; exact K1].
Qed.
End Newton.
