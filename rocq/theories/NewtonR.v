(** * NewtonR: Newton on affine systems, exact arithmetic *)
Require Import List Arith Bool Lia Reals Lra.
Import ListNotations.
Require Import Verif.Base Verif.Scalar Verif.ScalarR Verif.Norms Verif.Dense Verif.Newton
  Verif.BaseFacts Verif.RSum Verif.DenseSpec Verif.DenseSolveR Verif.NewtonSpec Verif.NewtonFacts
  Verif.NormsR.
Open Scope R_scope.

(** [affine dim A c y i] is component [i] of [A y + c]. *)
Definition affine (dim : nat) (A : nat -> nat -> R) (c : nat -> R) (y : list R) (i : nat) : R :=
  rsum dim (fun j => A i j * nth j y 0) + c i.

Section Affine.
Context {S : Type}.
Variables (P : nlproblem R S) (dim : nat) (A : nat -> nat -> R) (c : nat -> R).

Definition evaluates_affine : Prop :=
  forall s y s' f, np_sys P s y = Ret (s', f, Ok tt) ->
    forall i, (i < dim)%nat -> nth i f 0 = affine dim A c y i.
Definition solves_exactly : Prop :=
  forall s y b s' x, np_solve P s y b = Ret (s', x, Ok tt) ->
    forall i, (i < dim)%nat -> rsum dim (fun j => A i j * nth j x 0) = nth i b 0.
Hypothesis Hsys : evaluates_affine.
Hypothesis Hsol : solves_exactly.

Lemma converging_affine maxit w tol k y f es y' :
  converging dim maxit w tol k y f es y' -> Forall (produced P) es ->
  (forall i, (i < dim)%nat -> nth i f 0 = affine dim A c y i) ->
  forall i, (i < dim)%nat -> affine dim A c y' i = 0.
Proof.
  induction 1 as [k y f b x y' Hb Hx | k y f b x y1 f1 es y' Hb Hx Hk Hc IH]; intros Hp Hf i Hi.
  - inversion Hp as [|e0 l0 P1 P2]; subst. destruct P1 as (s & s' & Es).
    assert (Ax := Hsol _ _ _ _ _ Es i Hi).
    unfold affine. destruct Hx as (_ & Hx). destruct Hb as (_ & Hb).
    rewrite (rsum_ext dim _ (fun j => A i j * nth j y 0 + A i j * nth j x 0)).
    + rewrite rsum_plus, Ax.
      assert (E1 := Hb i Hi). cbn in E1. rewrite E1, (Hf i Hi). unfold affine. ring.
    + intros j Hj. assert (E1 := Hx j Hj). cbn in E1. rewrite E1. ring.
  - inversion Hp as [|e0 l0 P1 P2]; subst. inversion P2 as [|e1 l1 P3 P4]; subst.
    inversion P4 as [|e2 l2 P5 P6]; subst. destruct P5 as (s & s' & Es).
    apply IH; auto. intros i' Hi'. eapply Hsys; eauto.
Qed.

Lemma newton_affine fuel n s y0 y w tol call n' s' y' :
  newton_solve P dim fuel n s y0 y w tol call = Ret (n', s', y', Ok tt) ->
  forall i, (i < dim)%nat -> affine dim A c y' i = 0.
Proof.
  intros E. apply newton_ok in E.
  destruct E as (es & pre & f0 & su & last & _ & Hp & He & Hsu & Hc). subst es.
  apply Forall_app in Hp. destruct Hp as (_ & Hp).
  inversion Hp as [|e0 l0 P1 P2]; subst. apply Forall_app in P2. destruct P2 as (_ & P2).
  destruct P1 as (s1 & s2 & Es).
  eapply converging_affine; eauto.
Qed.
End Affine.

(** ** Newton with the dense solver on [A y = b]

    The state holds the pivots and the factored matrix; [setup] factors a fresh
    copy of A, [solve] back-substitutes, as the test problem in newton.rs
    (lines 200-290) does. *)
Definition linear_problem (dim : nat) (A : nat -> nat -> R) (b : list R)
  : nlproblem R (option (list nat * mat R)) :=
  mknlproblem
    (fun s y => Ret (s, vtab dim (fun i => rsum dim (fun j => A i j * nth j y 0) - nth i b 0), Ok tt))
    (fun s _ _ _ =>
       let* (piv, F, r) := dense_setup (dense_new dim) (mkmat dim dim A) in
       match r with
       | Ok _ => Ret (Some (piv, F), Ok true)
       | Err c => Ret (s, Err (LinearSetupFailed c))
       end)
    (fun s _ rhs =>
       match s with
       | Some (piv, F) => let* x := dense_solve piv F rhs 0 in Ret (s, x, Ok tt)
       | None => Panic
       end)
    (fun s _ _ del tol w => Ret (s, Ok (Rleb (norm_wrms del w) tol))).

Lemma newton_dense_linear dim A b n s y0 y w tol :
  (1 <= dim)%nat -> independent_cols dim dim A -> 0 <= tol -> (2 <= nw_maxiters n)%nat ->
  exists n' s' y',
    newton_solve (linear_problem dim A b) dim 1 n s y0 y w tol true = Ret (n', s', y', Ok tt) /\
    (forall i, (i < dim)%nat -> rsum dim (fun j => A i j * nth j y' 0) = nth i b 0) /\
    (nw_niters n' <= nw_niters n + 2)%nat.
Proof.
  intros Hd Hind Htol Hmax.
  assert (Lnew : length (dense_new dim) = dim) by apply repeat_length.
  destruct (proj2 (dense_setup_ok_iff dim dim A (dense_new dim) (le_n dim) Lnew) Hind) as (piv & F & Es).
  assert (Hsolve : forall rhs, length rhs = dim ->
            exists x, dense_solve piv F rhs 0 = Ret x /\ length x = dim /\ solves dim A x rhs)
    by (intros; eapply dense_solve_correct; eauto).
  set (P := linear_problem dim A b).
  set (res := fun y : list R => vtab dim (fun i => rsum dim (fun j => A i j * nth j y 0) - nth i b 0)).
  assert (Hone : forall x y1, solves dim A x (vneg dim (res y1)) ->
            forall i, (i < dim)%nat -> rsum dim (fun j => A i j * nth j (vadd dim y1 x) 0) = nth i b 0).
  { intros x y1 Hx i Hi. specialize (Hx i Hi). unfold vneg, res in Hx.
    rewrite nth_vtab in Hx by exact Hi. unfold vget in Hx. rewrite nth_vtab in Hx by exact Hi. cbn in Hx.
    rewrite (rsum_ext dim _ (fun j => A i j * nth j y1 0 + A i j * nth j x 0)).
    - rewrite rsum_plus, Hx. ring.
    - intros j Hj. unfold vadd. rewrite nth_vtab by exact Hj. unfold vget. cbn. ring. }
  unfold newton_solve. cbn [outer_loop]. unfold attempt.
  change (np_sys P s y0) with (Ret (s, res y0, Ok (E:=nlerr) tt)). cbn [bind].
  assert (Esetup : np_setup P s y0 (nw_delta (set_delta (res y0) n)) false = Ret (Some (piv, F), Ok true)).
  { cbn. rewrite Es. reflexivity. }
  rewrite Esetup. cbn [bind]. clear Esetup.
  destruct (Hsolve (vneg dim (res y0))) as (x0 & E0 & L0 & S0); [apply vtab_length|].
  cbn [inner_loop].
  match goal with |- context [np_solve P ?st ?yy ?bb] =>
    assert (EE : np_solve P st yy bb = Ret (Some (piv, F), x0, Ok tt)) end.
  { cbn. rewrite E0. reflexivity. }
  rewrite EE. clear EE. cbn [bind].
  match goal with |- context [np_ctest P ?st ?i ?yy ?dd ?tt ?ww] =>
    change (np_ctest P st i yy dd tt ww) with (Ret (st, Ok (E:=nlerr) (Rleb (norm_wrms dd ww) tt))) end.
  cbn [bind]. destruct (Rleb _ tol) eqn:Ec.
  { eexists _, _, _. split; [reflexivity|]. split; [apply Hone; exact S0|]. cbn. lia. }
  match goal with |- context [nw_maxiters ?a <=? nw_curiter ?c] =>
    replace (nw_maxiters a <=? nw_curiter c)%nat with false end.
  2:{ symmetry. apply Nat.leb_gt. cbn. lia. }
  match goal with |- context [np_sys P ?st ?yy] =>
    change (np_sys P st yy) with (Ret (st, res yy, Ok (E:=nlerr) tt)) end.
  cbn [bind].
  set (y1 := vadd dim y0 _). change (nw_delta _) with x0 in y1.
  set (n1 := set_delta (res y1) _).
  assert (Hm1 : nw_maxiters (set_curiter 0 (set_jcur true (set_delta (res y0) n))) = nw_maxiters n) by reflexivity.
  rewrite Hm1. destruct (nw_maxiters n) as [|mx] eqn:Emx; [lia|].
  cbn [inner_loop].
  destruct (Hsolve (vneg dim (res y1))) as (x1 & E1 & L1 & S1); [apply vtab_length|].
  match goal with |- context [np_solve P ?st ?yy ?bb] =>
    assert (EE : np_solve P st yy bb = Ret (Some (piv, F), x1, Ok tt)) end.
  { cbn. rewrite E1. reflexivity. }
  rewrite EE. clear EE. cbn [bind].
  match goal with |- context [np_ctest P ?st ?i ?yy ?dd ?tt ?ww] =>
    change (np_ctest P st i yy dd tt ww) with (Ret (st, Ok (E:=nlerr) (Rleb (norm_wrms dd ww) tt))) end.
  cbn [bind].
  assert (Hx1 : forall j, (j < dim)%nat -> nth j x1 0 = 0).
  { apply (Hind (fun j => nth j x1 0)). intros i Hi. rewrite (S1 i Hi).
    unfold vneg, res. rewrite nth_vtab by exact Hi. unfold vget. rewrite nth_vtab by exact Hi. cbn.
    assert (Hy1 := Hone x0 y0 S0 i Hi). change (vadd dim y0 x0) with y1 in Hy1. rewrite Hy1. ring. }
  replace (Rleb (norm_wrms _ w) tol) with true.
  2:{ symmetry. apply Rleb_true. change (nw_delta _) with x1.
      replace (norm_wrms x1 w) with 0; [exact Htol|]. symmetry. rewrite norm_wrms_eq.
      apply wrms_zero_iff; [lia|]. intros i Hi. rewrite Hx1 by lia. ring. }
  eexists _, _, _. split; [reflexivity|]. split; [apply Hone; exact S1|]. unfold n1. cbn. lia.
Qed.
