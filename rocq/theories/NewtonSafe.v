(** * NewtonSafe: the Newton solver with the dense linear solver does not panic *)
Require Import List Arith Bool Lia.
Import ListNotations.
Require Import Verif.Base Verif.Scalar Verif.Dense Verif.Norms Verif.Newton Verif.NewtonSpec Verif.IdaState
  Verif.IdaNls Verif.BaseFacts Verif.DenseFacts Verif.DenseSolveR Verif.NewtonFacts Verif.VecR Verif.IdaSafe.
Open Scope nat_scope.

Section Newton.
Context {T : Type} `{Scalar T} {S : Type}.
Variable P : nlproblem T S.
Variable dim : nat.
Variable Q : S -> Prop.
Hypothesis HQ : preserves P Q.
Hypothesis Hsys : forall s y, Q s -> safe True (np_sys P s y).
Hypothesis Hsetup : forall s y d b, Q s -> safe True (np_setup P s y d b).
Hypothesis Hsolve : forall s y d, Q s -> length d = dim -> safe True (np_solve P s y d).
Hypothesis Hctest : forall s m y d tol w, Q s -> safe True (np_ctest P s m y d tol w).

Lemma inner_safe fuel : forall w tol (n : newton T) s y, Q s ->
  safe True (inner_loop P dim fuel w tol n s y).
Proof.
  destruct HQ as (Q1 & Q2 & Q3 & Q4).
  induction fuel as [|fuel IH]; intros w tol n s y Hs; cbn [inner_loop]; [exact I|].
  apply safe_bind; [apply Hsolve; [exact Hs|cbn; apply vtab_length]|]. intros ((s1 & d) & r) E1. cbv beta iota zeta.
  apply Q3 in E1; [|exact Hs]. destruct r; [|exact I].
  apply safe_bind; [apply Hctest; exact E1|]. intros (s2 & r2) E2. apply Q4 in E2; [|exact E1].
  destruct r2 as [[|]|]; try exact I. destruct (_ <=? _); [exact I|].
  apply safe_bind; [apply Hsys; exact E2|]. intros ((s3 & d3) & r3) E3. apply Q1 in E3; [|exact E2].
  destruct r3; [|exact I]. apply IH. exact E3.
Qed.

Lemma outer_safe fuel : forall y0 w tol b jb (n : newton T) s y, Q s ->
  safe True (outer_loop P dim fuel y0 w tol b jb n s y).
Proof.
  assert (HQ' := HQ). destruct HQ' as (Q1 & Q2 & Q3 & Q4).
  induction fuel as [|fuel IH]; intros y0 w tol b jb n s y Hs; cbn [outer_loop]; [exact I|].
  assert (A : safe True (attempt P dim y0 w tol b jb n s y)).
  { unfold attempt. apply safe_bind; [apply Hsys; exact Hs|]. intros ((s1 & d) & r) E1. apply Q1 in E1; [|exact Hs].
    destruct r; [|exact I]. apply safe_bind.
    - destruct b; [|exact I]. apply safe_bind; [apply Hsetup; exact E1|]. intros (s2 & []) _; exact I.
    - intros ((n2 & s2) & r2) E2. destruct r2; [|exact I]. apply inner_safe.
      destruct b.
      + apply bind_ret_inv in E2. destruct E2 as ((s3 & r3) & E3 & E2). apply Q2 in E3; [|exact E1].
        destruct r3; [injection E2 as _ <-; exact E3|discriminate].
      + injection E2 as _ <- _. exact E1. }
  apply safe_bind; [exact A|]. intros (((n1 & s1) & y1) & r1) E1.
  assert (Hs1 : Q s1) by (eapply attempt_preserves; eassumption).
  destruct r1 as [u|e]; [exact I|]. destruct e; try exact I.
  destruct (negb _); apply IH; exact Hs1.
Qed.

Lemma newton_safe fuel n s y0 y w tol call : Q s ->
  safe True (newton_solve P dim fuel n s y0 y w tol call).
Proof. apply outer_safe. Qed.
End Newton.

(** ** With [Dense], for problems whose iteration matrices can be factored *)
Section ND.
Context {T : Type} `{Scalar T}.
Variable prob : problem T.
Notation n := (model_size prob).

Definition pivots_ok (piv : list nat) (m : mat T) : Prop :=
  nrows m = n /\ ncols m = n /\ length piv = n /\ forall k, k < n -> nth k piv 0 < n.

(** Every Jacobian the problem can return is accepted by [Dense::setup]. *)
Definition factorable : Prop := forall c y yp r piv0, length piv0 = n ->
  exists piv F, dense_setup piv0 (mkmat n n (p_jac prob szero c y yp r)) = Ret (piv, F, Ok tt).

Hypothesis Hn : 1 <= n.
Hypothesis Hf : factorable.

Definition QD (x : nlprob T (list nat)) : Prop := pivots_ok (lp_ls (lp x)) (lp_matj (lp x)).

Lemma lp_setup_ok (l l' : lprob T (list nat)) y yp r : pivots_ok (lp_ls l) (lp_matj l) ->
  exists l', lp_setup prob l y yp r = Ret l' /\ pivots_ok (lp_ls l') (lp_matj l').
Proof.
  intros (_ & _ & L & _). unfold lp_setup. destruct (n =? 0) eqn:E; [apply Nat.eqb_eq in E; lia|]. cbv zeta.
  cbn [ls_setup DenseLS lp_ls lp_matj set_lp_matj push_ev set_trace set_nje cj].
  destruct (Hf (cj l) y yp r (lp_ls l) L) as (piv & F & E1).
  destruct (dense_setup_total n n (p_jac prob szero (cj l) y yp r) (lp_ls l) (le_n n) L)
    as (piv' & F' & r' & E2 & D1 & D2 & D3 & D4 & _).
  rewrite E1 in E2. injection E2 as <- <- <-.
  cbn [bind]. rewrite E1. cbn [bind]. eexists. split; [reflexivity|]. cbn.
  split; [exact D1|]. split; [exact D2|]. split; [exact D3|]. intros k Hk. apply D4; auto.
Qed.

Lemma lp_solve_ok (l : lprob T (list nat)) b : pivots_ok (lp_ls l) (lp_matj l) -> length b = n ->
  exists l' b', lp_solve prob l b = Ret (l', b') /\ lp_ls l' = lp_ls l /\ lp_matj l' = lp_matj l.
Proof.
  intros (P1 & P2 & P3 & P4) Lb. unfold lp_solve. cbv zeta.
  cbn [ls_solve ls_type DenseLS lp_ls lp_matj set_lp_x].
  unfold dense_solve.
  destruct (dense_get_rs_ret (lp_matj l) (lp_ls l) b) as (x & E & _); try lia.
  { intros k Hk. rewrite Lb. apply P4. lia. }
  cbn [bind]. rewrite E. cbn [bind]. eexists; eexists. split; [reflexivity|]. split; reflexivity.
Qed.

Lemma QD_sys s y : exists s' d, nlp_sys prob s y = Ret (s', d, Ok tt) /\ (QD s -> QD s').
Proof. unfold nlp_sys. cbv zeta. eexists; eexists. split; [reflexivity|]. exact (fun q => q). Qed.

Lemma QD_preserved : preserves (ida_nlproblem prob) QD.
Proof.
  split; [|split; [|split]].
  - intros s y s' d r q E. destruct (QD_sys s y) as (s2 & d2 & E2 & Q2). cbn in E. rewrite E2 in E.
    injection E as <- <- <-. auto.
  - intros s y r jb s' r' q E. cbn in E. unfold nlp_setup in E.
    destruct (lp_setup_ok (lp s) (lp s) (yy s) (yp s) r q) as (l' & E1 & Q1).
    cbv zeta in E. cbn [lp set_nsetups yy yp] in E. rewrite E1 in E. cbn [bind] in E. injection E as <- <-. exact Q1.
  - intros s y d s' d' r q E. cbn in E. unfold nlp_solve in E.
    apply bind_ret_inv in E. destruct E as ((l & b) & E & E'). injection E' as <- <- <-.
    unfold QD in *. cbn. unfold lp_solve in E. cbv zeta in E. cbn [ls_type DenseLS] in E.
    apply bind_ret_inv in E. destruct E as ((x & rv) & E & E'). destruct rv; injection E' as <- <-; exact q.
  - intros s m y d tol w s' r q E. cbn in E. unfold nlp_ctest in E. cbv zeta in E.
    destruct (m =? 0); [destruct (_ <=? _)%sc|destruct (_ <? _)%sc]; injection E as <- <-; exact q.
Qed.

Lemma newton_dense_safe fuel (s : newton T) x y0 y w tol call : QD x ->
  safe True (newton_solve (ida_nlproblem prob) n fuel s x y0 y w tol call).
Proof.
  intros q. apply newton_safe with (Q := QD); [exact QD_preserved| | | | |exact q].
  - intros s0 y1 q0. destruct (QD_sys s0 y1) as (s2 & d2 & E2 & _). change (safe True (nlp_sys prob s0 y1)). rewrite E2. exact I.
  - intros s0 y1 d b q0. cbn. unfold nlp_setup. cbv zeta.
    destruct (lp_setup_ok (lp s0) (lp s0) (yy s0) (yp s0) d q0) as (l' & E1 & Q1).
    cbn [lp set_nsetups yy yp]. rewrite E1. exact I.
  - intros s0 y1 d q0 Ld. cbn. unfold nlp_solve.
    destruct (lp_solve_ok (lp s0) d q0 Ld) as (l' & b' & E & _). rewrite E. exact I.
  - intros s0 m y1 d tol0 w0 q0. cbn. unfold nlp_ctest. cbv zeta.
    destruct (m =? 0); [destruct (_ <=? _)%sc|destruct (_ <? _)%sc]; exact I.
Qed.

Lemma QD_new : pivots_ok (ls_new n) (mkmat n n (fun _ _ => @szero T _)).
Proof.
  repeat split.
  - cbn. unfold dense_new. apply repeat_length.
  - intros k Hk. cbn. unfold dense_new. rewrite nth_repeat. lia.
Qed.
End ND.
