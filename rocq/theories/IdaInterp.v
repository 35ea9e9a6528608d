(** * IdaInterp: the vectors computed by [get_solution], for every scalar *)
Require Import List Arith Bool Lia.
Import ListNotations.
Require Import Verif.Base Verif.Scalar Verif.Norms Verif.Newton Verif.NewtonSpec Verif.IdaState
  Verif.IdaNls Verif.IdaCore Verif.IdaRoots Verif.IdaSolve Verif.BaseFacts Verif.NewtonFacts
  Verif.IdaFacts Verif.IdaLoops Verif.IdaStep Verif.IdaSpec Verif.IdaShell.
Open Scope nat_scope.

Section Interp.
Context {T LSt NSt : Type} `{Scalar T} `{LSolver T LSt} `{NLSolver T NSt}.
Variable prob : problem T.
Notation n := (model_size prob).
Notation state := (ida T LSt NSt).

(** c_0 phi_lo + ... + c_(k-1) phi_(lo+k-1), accumulated as in the code. *)
Fixpoint rowcf (c : nat -> T) (ph : list (list T)) (lo k : nat) : list T :=
  match k with
  | 0 => vzero n
  | S i => vscaled_add n (rowcf c ph lo i) (c i) (row ph (lo + i))
  end.

Lemma rowcomb_cf c f ph lo k : (forall j, j < k -> vget c j = f j) -> rowcomb prob c ph lo k = rowcf f ph lo k.
Proof.
  induction k as [|k IH]; intros E; [reflexivity|]. cbn. rewrite IH by (intros; apply E; lia).
  rewrite E by lia. reflexivity.
Qed.

Definition interp_y (st : state) (t : T) : list T :=
  rowcf (cj_ (psi st) (t - tn (nlp st))%sc) (phi st) 0 (kord st + 1).
Definition interp_yp (st : state) (t : T) : list T :=
  rowcf (fun j => dj_ (psi st) (t - tn (nlp st))%sc (S j)) (phi st) 1 (kord st).

Lemma gs_eval (st s : state) t r : arrays st -> kused st <= 5 ->
  get_solution prob st t = Ret (s, r) ->
  match time_check st t with
  | Some e => s = st /\ r = Err e
  | None => r = Ok tt /\ yy (nlp s) = interp_y st t /\ yp (nlp s) = interp_yp st t
  end.
Proof.
  intros A K E. pose proof (get_solution_spec prob st t A K) as S. destruct (time_check st t) as [e|].
  - rewrite S in E. injection E as <- <-. auto.
  - destruct S as (cv & dv & E1 & _ & _ & C & D). rewrite E1 in E. injection E as <- <-.
    split; [reflexivity|]. cbn. unfold interp_y, interp_yp. split.
    + apply rowcomb_cf. intros j Hj. apply C. lia.
    + apply rowcomb_cf. intros j Hj. apply D. lia.
Qed.

Lemma gs_ret (st : state) t : arrays st -> kused st <= 5 ->
  exists s, get_solution prob st t =
    Ret (s, match time_check st t with Some e => Err e | None => Ok tt end).
Proof.
  intros A K. pose proof (get_solution_spec prob st t A K) as S. destruct (time_check st t) as [e|].
  - exists st. exact S.
  - destruct S as (cv & dv & E1 & _). eexists. exact E1.
Qed.

Lemma core_interp (a b : state) : core a = core b -> forall t,
  time_check a t = time_check b t /\ interp_y a t = interp_y b t /\ interp_yp a t = interp_yp b t.
Proof.
  intros C t. apply core_fields in C.
  destruct C as (_ & C1 & C2 & _ & _ & _ & _ & _ & C3 & _ & _ & _ & C4 & C5 & _ & _ & _ & _ & C6 & _).
  unfold time_check, interp_y, interp_yp, kord. rewrite C1, C2, C3, C4, C5, C6. auto.
Qed.

(** Asking again gives the same. *)
Lemma gs_again (st s b : state) t r : arrays st -> kused st <= 5 -> arrays b ->
  get_solution prob st t = Ret (s, r) -> core b = core st -> yy (nlp b) = yy (nlp s) -> yp (nlp b) = yp (nlp s) ->
  exists b', get_solution prob b t = Ret (b', r) /\ yy (nlp b') = yy (nlp b) /\ yp (nlp b') = yp (nlp b).
Proof.
  intros A K Ab E C Y1 Y2. destruct (core_interp _ _ C t) as (I1 & I2 & I3).
  assert (Kb : kused b <= 5).
  { apply core_fields in C. destruct C as (_ & _ & _ & _ & _ & _ & _ & _ & C3 & _). lia. }
  destruct (gs_ret b t Ab Kb) as (b' & Eb). pose proof (gs_eval _ _ _ _ Ab Kb Eb) as Vb.
  pose proof (gs_eval _ _ _ _ A K E) as V. rewrite I1 in *. exists b'.
  destruct (time_check st t).
  - destruct V as (-> & ->). destruct Vb as (-> & _). auto.
  - destruct V as (-> & V1 & V2). destruct Vb as (_ & W1 & W2). split; [exact Eb|].
    rewrite Y1, Y2, W1, W2, V1, V2, I2, I3. auto.
Qed.
End Interp.
