(** * IdaRows: linear equations of the system in the Newton iteration, over the
      reals (src/ida_nls.rs 118-266, src/ida_ls.rs 298-455,
      crates/nonlinear/src/newton.rs 51-167) *)
Require Import List Arith Bool Lia Reals Lra.
Import ListNotations.
Require Import Verif.Base Verif.Scalar Verif.ScalarR Verif.Dense Verif.RSum Verif.DenseSpec Verif.Norms Verif.VecR
  Verif.Newton Verif.IdaState Verif.IdaNls Verif.BaseFacts Verif.DenseSolveR Verif.IdaFacts Verif.IdaLoops Verif.IdaReach
  Verif.IdaJac Verif.IdaLinear.
Open Scope R_scope.

(** The latest residual evaluation. *)
Fixpoint last_res {T} (tr : list (event T)) : option (T * list T * list T) :=
  match tr with
  | [] => None
  | CRes t y yp :: _ => Some (t, y, yp)
  | _ :: past => last_res past
  end.

Section Newton.
Context {LSt : Type} `{LSolver R LSt}.
Variable prob : problem R.
Notation n := (model_size prob).
Notation P := (ida_nlproblem prob).
Notation np := (nlprob R LSt).
Notation tr s := (trace (lp s)).
Variable okls : LSt -> Prop.
Hypothesis Hls : exact_ls n okls.
Hypothesis Hn : (1 <= n)%nat.

(** The combination [w] of the equations reads [a . y + b . y' + f t = 0], and
    the Jacobian the user supplies agrees with it. *)
Variables (w a b : nat -> R) (f : R -> R).
Definition affine_row : Prop :=
  forall t y yp, rsum n (fun i => w i * p_res prob t y yp i) = dot n a y + dot n b yp + f t.
Definition jac_row : Prop :=
  forall t cj y yp r j, (j < n)%nat -> rsum n (fun i => w i * p_jac prob t cj y yp r i j) = a j + cj * b j.
Hypothesis Hres : affine_row.
Hypothesis Hjac : jac_row.

(** What one update does to the residual of the row, [rho] being the ratio of the
    current leading coefficient to that of the matrix. *)
Definition row_rate (rho k : R) : Prop :=
  rho = 1 /\ k = 0 \/
  (forall i, (i < n)%nat -> b i = 0) /\ k = (rho - 1) / (rho + 1) \/
  (forall i, (i < n)%nat -> a i = 0) /\ k = (1 - rho) / (1 + rho).

(** The factored matrix in use solves the row for the leading coefficient [c]. *)
Definition inverts (l : lprob R LSt) (c : R) : Prop :=
  forall x0 bb tol x r, length bb = n -> ls_solve (lp_ls l) (lp_matj l) x0 bb tol = Ret (x, r) ->
    dot n a x + c * dot n b x = dot n w bb.

Variables (c1 t1 : R) (P1 Q1 : list R).
Hypothesis Hc1 : c1 <> 0.

Record bas (s : np) : Prop := {
  ba_ls : okls (lp_ls (lp s));
  ba_cj : cj (lp s) = c1;
  ba_tn : tn s = t1;
  ba_pred : yypredict s = P1;
  ba_predp : yppredict s = Q1 }.
Record ready (s : np) : Prop := {
  re_inv : inverts (lp s) (cjold (lp s));
  re_nz : cjold (lp s) <> 0;
  re_ratio : cjratio (lp s) = c1 / cjold (lp s);
  re_win : 3 / 5 <= c1 / cjold (lp s) <= 5 / 3;
  re_jac : last_jac (tr s) = Some (cjold (lp s)) }.

Definition G (y : list R) : R := dot n a P1 + dot n a y + dot n b Q1 + c1 * dot n b y + f t1.
Definition argy (y : list R) := vadd n P1 y.
Definition argyp (y : list R) := vscaled_add n Q1 c1 y.
Lemma G_res y : rsum n (fun i => w i * p_res prob t1 (argy y) (argyp y) i) = G y.
Proof. rewrite Hres. unfold argy, argyp, G. rewrite dot_vadd, dot_vscaled_add. ring. Qed.

Lemma sys_row s y s' g r : bas s -> nlp_sys prob s y = Ret (s', g, r) ->
  bas s' /\ r = Ok tt /\ dot n w g = G y /\ last_res (tr s') = Some (t1, argy y, argyp y) /\
  (ready s -> ready s') /\ cjold (lp s') = cjold (lp s).
Proof.
  intros [B1 B2 B3 B4 B5] E. unfold nlp_sys in E. cbv zeta in E. apply ret_inj in E.
  pose proof (f_equal (fun q => fst (fst q)) E) as E1. pose proof (f_equal (fun q => snd (fst q)) E) as E2.
  pose proof (f_equal snd E) as E3. cbn [fst snd] in E1, E2, E3. clear E.
  rewrite <- E1, <- E2, <- E3. split; [constructor; cbn; assumption|]. split; [reflexivity|].
  unfold argy, argyp. rewrite <- B4, <- B5, <- B2, <- B3. cbn.
  split.
  { rewrite dot_vtab. rewrite B2, B3, B4, B5. exact (G_res y). }
  split; [reflexivity|]. split; [|auto].
  intros [R1 R2 R3 R4 R5]. constructor; cbn; assumption.
Qed.

Lemma setup_row s y g jb s' r : bas s -> nlp_setup prob s y g jb = Ret (s', r) ->
  bas s' /\ r = Ok true /\ ready s' /\ last_res (tr s') = last_res (tr s) /\ cjold (lp s') = c1.
Proof.
  intros [B1 B2 B3 B4 B5] E. unfold nlp_setup in E. cbv zeta in E.
  apply bind_ret_inv in E. destruct E as (l & El & E). apply ret_inj in E.
  pose proof (f_equal fst E) as E1. pose proof (f_equal snd E) as E2. cbn [fst snd] in E1, E2. clear E.
  unfold lp_setup in El. destruct (Nat.eqb_spec n 0) as [Hz|Hz]; [lia|]. cbv zeta in El.
  apply bind_ret_inv in El. destruct El as (((ls & m) & res) & Es & El).
  destruct res as [[]|]; [|discriminate]. apply ret_inj in El.
  cbn [lp_ls lp_matj set_lp_matj push_ev set_trace set_nje set_nsetups lp yy yp cj] in Es.
  destruct Hls as (_ & _ & H3). destruct (H3 _ _ _ _ B1 Es) as (K1 & K2).
  rewrite <- E1, <- E2, <- El. split; [constructor; cbn; assumption|]. split; [reflexivity|]. split; [|split; [reflexivity|exact B2]].
  constructor; cbn; rewrite ?B2.
  - intros x0 bb tol x r0 Lb Ex. cbn in Ex. pose proof (K2 x0 bb tol x r0 Lb Ex) as Sx.
    transitivity (rsum n (fun j => (a j + c1 * b j) * nth j x 0)).
    { unfold dot. rewrite <- rsum_scal, <- rsum_plus. apply rsum_ext. intros j _. ring. }
    unfold dot. rewrite (rsum_ext n (fun i => w i * nth i bb 0)
        (fun i => rsum n (fun j => w i * p_jac prob 0 (cj (lp s)) (yy s) (yp s) g i j * nth j x 0))).
    2:{ intros i Hi. rewrite <- (Sx i Hi), <- rsum_scal. apply rsum_ext. intros j _. cbn. ring. }
    rewrite rsum_swap. apply rsum_ext. intros j Hj. rewrite rsum_scal_r, Hjac by exact Hj. rewrite B2. ring.
  - exact Hc1.
  - field. exact Hc1.
  - replace (c1 / c1) with 1 by (field; exact Hc1). lra.
  - reflexivity.
Qed.

Lemma solve_row s y bb s' x r : bas s -> ready s -> length bb = n -> nlp_solve prob s y bb = Ret (s', x, r) ->
  bas s' /\ ready s' /\ r = Ok tt /\ last_res (tr s') = last_res (tr s) /\ cjold (lp s') = cjold (lp s) /\
  exists z, dot n a z + cjold (lp s) * dot n b z = dot n w bb /\
    forall v, dot n v x = (let rho := c1 / cjold (lp s) in 2 / (1 + rho)) * dot n v z.
Proof.
  intros [B1 B2 B3 B4 B5] [R1 R2 R3 R4 R5] Lb E. unfold nlp_solve in E. apply bind_ret_inv in E.
  destruct E as ((l & x') & El & E). apply ret_inj in E.
  pose proof (f_equal (fun q => fst (fst q)) E) as E1. pose proof (f_equal (fun q => snd (fst q)) E) as E2.
  pose proof (f_equal snd E) as E3. cbn [fst snd] in E1, E2, E3. clear E. subst x' r.
  unfold lp_solve in El. cbv zeta in El. destruct Hls as (_ & H2 & _).
  rewrite (H2 _ B1 : ls_type (lp_ls (lp s)) = Direct) in El.
  apply bind_ret_inv in El. destruct El as ((z & rv) & Ez & El).
  cbn [lp_ls lp_matj set_lp_x lp_x] in Ez. pose proof (R1 _ _ _ _ _ Lb Ez) as Z0.
  apply ret_inj in El. pose proof (f_equal fst El) as L1. pose proof (f_equal snd El) as L2. cbn [fst snd] in L1, L2. clear El.
  assert (Lx : lp_ls l = lp_ls (lp s) /\ lp_matj l = lp_matj (lp s) /\ cj l = cj (lp s) /\ trace l = tr s /\
    cjold l = cjold (lp s) /\ cjratio l = cjratio (lp s)).
  { rewrite <- L1. destruct rv; cbn; auto 10. }
  destruct Lx as (X1 & X2 & X3 & X4 & X5 & X6).
  rewrite <- E1. split; [constructor; cbn; congruence|]. split.
  { constructor; cbn; rewrite ?X4, ?X5, ?X6; try assumption. unfold inverts in *. rewrite X1, X2. exact R1. }
  split; [reflexivity|]. cbn. rewrite X4. split; [reflexivity|]. split; [exact X5|].
  exists z. split; [exact Z0|]. intros v. rewrite <- L2. cbn [lp_x set_lp_x cjratio]. cbv zeta.
  change (cjratio (set_lp_x z (set_lp_x (vzero n) (lp s)))) with (cjratio (lp s)). rewrite R3.
  unfold sneqb. cbn [seqb sone ScalarR]. destruct (Reqb (c1 / cjold (lp s)) 1) eqn:Eq; cbn [negb].
  - apply Reqb_true in Eq. rewrite Eq. field.
  - rewrite dot_vscale. cbn [sdiv sadd stwo sone ScalarR]. reflexivity.
Qed.

Lemma ctest_row s i y del tol wt s' r : bas s -> ready s -> nlp_ctest s i y del tol wt = Ret (s', r) ->
  bas s' /\ ready s' /\ lp s' = lp s.
Proof.
  intros B K E. unfold nlp_ctest in E. cbv zeta in E.
  assert (X : forall s2 : np, lp s2 = lp s -> tn s2 = tn s -> yypredict s2 = yypredict s -> yppredict s2 = yppredict s ->
    bas s2 /\ ready s2 /\ lp s2 = lp s).
  { intros s2 B1 B4 B2 B3. destruct B as [A1 A2 A3 A4 A5]. destruct K as [K1 K2 K3 K4 K5].
    split; [constructor; rewrite ?B1, ?B2, ?B3, ?B4; assumption|]. split; [constructor; rewrite ?B1; assumption|exact B1]. }
  destruct (i =? 0)%nat; [destruct (_ <=? _)%sc|destruct (_ <? _)%sc]; apply ret_inj in E;
    pose proof (f_equal fst E) as E1; cbn [fst] in E1; rewrite <- E1; apply X; reflexivity.
Qed.

Definition settled_at (s : np) (y : list R) : Prop := last_res (tr s) = Some (t1, argy y, argyp y).

Lemma inner_row fuel : forall wt tol nw (s : np) y nw' s' y' r,
  bas s -> ready s -> settled_at s y -> dot n w (nw_delta nw) = G y ->
  inner_loop P n fuel wt tol nw s y = Ret (nw', s', y', r) ->
  bas s' /\ ready s' /\ (cjold (lp s) = c1 -> cjold (lp s') = c1) /\ exists yl, settled_at s' yl /\
    (r = Ok tt -> forall k, row_rate (c1 / cjold (lp s')) k -> G y' = k * G yl).
Proof.
  induction fuel as [|fuel IH]; intros wt tol nw s y nw' s' y' r A K Hy Hd E; [discriminate|].
  cbn [inner_loop] in E. cbv zeta in E. apply bind_ret_inv in E. destruct E as (((s1 & x) & r1) & E1 & E).
  cbn [nw_delta inc_niters Newton.set_delta np_solve ida_nlproblem] in E1.
  assert (Kp : 1 + c1 / cjold (lp s) <> 0) by (destruct (re_win _ K); lra). pose proof (re_nz _ K) as Kn.
  apply solve_row in E1; [|exact A|exact K|apply vtab_length]. rewrite dot_vneg, Hd in E1.
  destruct E1 as (A1 & K1 & -> & T1 & O1 & z & Z1 & Z2).
  apply bind_ret_inv in E. destruct E as ((s2 & r2) & E2 & E).
  cbn [nw_delta inc_niters Newton.set_delta np_ctest ida_nlproblem] in E2.
  apply ctest_row in E2; [|exact A1|exact K1]. destruct E2 as (A2 & K2 & L2).
  assert (S2 : settled_at s2 y) by (unfold settled_at in *; rewrite L2, T1; exact Hy).
  assert (Gx : forall k, row_rate (c1 / cjold (lp s2)) k -> G (vadd n y x) = k * G y).
  { rewrite L2, O1. intros k Hk. set (rho := c1 / cjold (lp s)) in *.
    assert (C1 : c1 = rho * cjold (lp s)) by (unfold rho; field; exact Kn).
    assert (Gv : G (vadd n y x) = G y + (dot n a x + c1 * dot n b x)) by (unfold G; rewrite !dot_vadd; ring).
    rewrite Gv, !Z2. cbv zeta. destruct Hk as [(Hr & ->)|[(Hb & ->)|(Ha & ->)]].
    - rewrite C1, Hr. replace (2 / (1 + 1)) with 1 by field. lra.
    - assert (B0 : dot n b z = 0).
      { unfold dot. apply rsum_0. intros i Hi. rewrite Hb by exact Hi. ring. }
      rewrite B0 in *. replace (dot n a z) with (- G y) by lra. field. lra.
    - assert (A0 : dot n a z = 0).
      { unfold dot. apply rsum_0. intros i Hi. rewrite Ha by exact Hi. ring. }
      rewrite A0 in *. rewrite C1. replace (dot n b z) with (- G y / cjold (lp s)) by (apply (Rmult_eq_reg_l (cjold (lp s))); [field_simplify; lra|exact Kn]).
      field. split; assumption. }
  destruct r2 as [[]|e].
  - apply ret_inj in E. pose proof (f_equal (fun q => snd (fst (fst q))) E) as B1.
    pose proof (f_equal (fun q => snd (fst q)) E) as B2. cbn [fst snd] in B1, B2. rewrite <- B1, <- B2.
    split; [exact A2|]. split; [exact K2|]. split; [rewrite L2, O1; auto|]. exists y. split; [exact S2|]. intros _. exact Gx.
  - destruct (_ <=? _)%nat.
    + apply ret_inj in E. pose proof (f_equal (fun q => snd (fst (fst q))) E) as B1.
      pose proof (f_equal snd E) as B2. cbn [fst snd] in B1, B2. rewrite <- B1, <- B2.
      split; [exact A2|]. split; [exact K2|]. split; [rewrite L2, O1; auto|]. exists y. split; [exact S2|]. discriminate.
    + apply bind_ret_inv in E. destruct E as (((s3 & g) & r3) & E3 & E).
      cbn [nw_delta inc_niters Newton.set_delta np_sys ida_nlproblem] in E3.
      apply sys_row in E3; [|exact A2]. destruct E3 as (A3 & -> & F3 & S3 & K3 & O3).
      apply IH in E; [|exact A3|exact (K3 K2)|exact S3|exact F3]. rewrite O3, L2, O1 in E. exact E.
  - apply ret_inj in E. pose proof (f_equal (fun q => snd (fst (fst q))) E) as B1.
    pose proof (f_equal snd E) as B2. cbn [fst snd] in B1, B2. rewrite <- B1, <- B2.
    split; [exact A2|]. split; [exact K2|]. split; [rewrite L2, O1; auto|]. exists y. split; [exact S2|]. discriminate.
Qed.

Lemma attempt_row y0 wt tol call jbad nw (s : np) y nw' s' y' r :
  bas s -> (call = true \/ ready s) ->
  attempt P n y0 wt tol call jbad nw s y = Ret (nw', s', y', r) ->
  bas s' /\ ready s' /\ (cjold (lp s) = c1 -> cjold (lp s') = c1) /\ exists yl, settled_at s' yl /\
    (r = Ok tt -> forall k, row_rate (c1 / cjold (lp s')) k -> G y' = k * G yl).
Proof.
  intros A K E. unfold attempt in E. apply bind_ret_inv in E. destruct E as (((s1 & g) & r1) & E1 & E).
  cbn [np_sys ida_nlproblem] in E1. apply sys_row in E1; [|exact A].
  destruct E1 as (A1 & -> & F1 & S1 & K1 & O1).
  cbv zeta in E. apply bind_ret_inv in E. destruct E as (((nw2 & s2) & r2) & E2 & E). destruct call.
  - apply bind_ret_inv in E2. destruct E2 as ((s3 & r3) & E3 & E2). cbn [np_setup ida_nlproblem] in E3.
    apply setup_row in E3; [|exact A1]. destruct E3 as (A3 & -> & K3 & S3 & O3).
    apply ret_inj in E2. pose proof (f_equal (fun q => fst (fst q)) E2) as C1.
    pose proof (f_equal (fun q => snd (fst q)) E2) as C2. pose proof (f_equal snd E2) as C3.
    cbn [fst snd] in C1, C2, C3. rewrite <- C3 in E. rewrite <- C1, <- C2 in E.
    apply inner_row with (y := y0) in E; [|exact A3|exact K3|unfold settled_at; rewrite S3; exact S1|exact F1].
    destruct E as (E1 & E4 & E5 & E6). split; [exact E1|]. split; [exact E4|]. split; [intros _; exact (E5 O3)|exact E6].
  - destruct K as [K|K]; [discriminate|]. apply ret_inj in E2. pose proof (f_equal (fun q => fst (fst q)) E2) as C1.
    pose proof (f_equal (fun q => snd (fst q)) E2) as C2. pose proof (f_equal snd E2) as C3.
    cbn [fst snd] in C1, C2, C3. rewrite <- C3 in E. rewrite <- C1, <- C2 in E.
    apply inner_row in E; [|exact A1|exact (K1 K)|exact S1|exact F1]. rewrite O1 in E. exact E.
Qed.

Lemma outer_row fuel : forall y0 wt tol call jbad nw (s : np) y nw' s' y' r,
  bas s -> (call = true \/ ready s) ->
  outer_loop P n fuel y0 wt tol call jbad nw s y = Ret (nw', s', y', r) ->
  bas s' /\ ready s' /\ (cjold (lp s) = c1 -> cjold (lp s') = c1) /\ exists yl, settled_at s' yl /\
    (r = Ok tt -> forall k, row_rate (c1 / cjold (lp s')) k -> G y' = k * G yl).
Proof.
  induction fuel as [|fuel IH]; intros y0 wt tol call jbad nw s y nw' s' y' r A K E; [discriminate|].
  cbn [outer_loop] in E. apply bind_ret_inv in E. destruct E as ((((nw1 & s1) & y1) & r1) & E1 & E).
  pose proof (attempt_row _ _ _ _ _ _ _ _ _ _ _ _ A K E1) as (A1 & K1 & O1 & yl & S1 & Y1).
  destruct r1 as [[]|e].
  - apply ret_inj in E. pose proof (f_equal (fun q => snd (fst (fst q))) E) as B1.
    pose proof (f_equal (fun q => snd (fst q)) E) as B2. cbn [fst snd] in B1, B2. rewrite <- B1, <- B2.
    split; [exact A1|]. split; [exact K1|]. split; [exact O1|]. exists yl. split; [exact S1|]. intros _. exact (Y1 eq_refl).
  - assert (Z : forall nx, Ret (nx, s1, y1, Err e) = Ret (nw', s', y', r) ->
      bas s' /\ ready s' /\ (cjold (lp s) = c1 -> cjold (lp s') = c1) /\ exists yl, settled_at s' yl /\
        (r = Ok tt -> forall k, row_rate (c1 / cjold (lp s')) k -> G y' = k * G yl)).
    { intros nx Ez. apply ret_inj in Ez. pose proof (f_equal (fun q => snd (fst (fst q))) Ez) as B1.
      pose proof (f_equal snd Ez) as B2. cbn [fst snd] in B1, B2. rewrite <- B1, <- B2.
      split; [exact A1|]. split; [exact K1|]. split; [exact O1|]. exists yl. split; [exact S1|]. discriminate. }
    destruct e; try exact (Z _ E).
    assert (W : bas s' /\ ready s' /\ (cjold (lp s1) = c1 -> cjold (lp s') = c1) /\ exists yl, settled_at s' yl /\
        (r = Ok tt -> forall k, row_rate (c1 / cjold (lp s')) k -> G y' = k * G yl)).
    { destruct (negb _); eapply IH; try exact E; try exact A1; [left; reflexivity|right; exact K1]. }
    destruct W as (W1 & W2 & W3 & W4). split; [exact W1|]. split; [exact W2|]. split; [auto|exact W4].
Qed.
End Newton.
