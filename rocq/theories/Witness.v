(** * Witness: executions of the model on binary64, used as concrete instances
      of the theorems' hypotheses and as counterexamples *)
Require Import List Arith Bool Floats.
Import ListNotations.
Require Import Verif.Base Verif.Scalar Verif.ScalarF Verif.Dense Verif.Norms Verif.Newton Verif.IdaState
  Verif.IdaNls Verif.IdaCore Verif.IdaRoots Verif.IdaSolve Verif.Samples Verif.IdaSpec Verif.IdaReach.
Open Scope float_scope.
Set Warnings "-inexact-float".

#[global] Existing Instance DenseLS.
#[global] Instance newton20 : NLSolver float (newton float) := NewtonNLS 20.
Notation fstate := (ida float (list nat) (newton float)).

Section Runs.
Context {NSt : Type} `{NLSolver float NSt}.

Fixpoint run_calls (prob : problem float) (ew : list float -> list float) (fuel rfuel : nat) (st : ida float (list nat) NSt)
         (cs : list call) : option (ida float (list nat) NSt * list reply) :=
  match cs with
  | [] => Some (st, [])
  | c :: cs =>
      match api_call prob ew fuel rfuel st c with
      | Ret (st', r) =>
          match run_calls prob ew fuel rfuel st' cs with
          | Some (st'', rs) => Some (st'', r :: rs)
          | None => None
          end
      | _ => None
      end
  end.

Lemma run_reach prob ew c yy0 yp0 fuel rfuel cs : forall st st' rs,
  reach prob ew c yy0 yp0 st -> run_calls prob ew fuel rfuel st cs = Some (st', rs) ->
  reach prob ew c yy0 yp0 st'.
Proof.
  induction cs as [|k cs IH]; intros st st' rs Hr E; cbn [run_calls] in E.
  - injection E as <- _. exact Hr.
  - destruct (api_call prob ew fuel rfuel st k) as [(s & r)| |] eqn:Ea; try discriminate.
    destruct (run_calls prob ew fuel rfuel s cs) as [(s2 & rs2)|] eqn:Er; [|discriminate].
    injection E as <- _. eapply IH; [|exact Er]. eapply reach_call; eassumption.
Qed.

(** The life of an object: creation, configuration, calls, then a test. *)
Definition life_test (prob : problem float) (ew : list float -> list float) (c : config) (yy0 yp0 : list float)
    (fuel rfuel : nat) (cs : list call) (test : ida float (list nat) NSt -> list reply -> bool) : bool :=
  match ida_new prob yy0 yp0 with
  | Ret st =>
      match run_calls prob ew fuel rfuel (configure c st) cs with
      | Some (st', rs) => test st' rs
      | None => false
      end
  | _ => false
  end.

Lemma life_test_ok prob ew c yy0 yp0 fuel rfuel cs test :
  life_test prob ew c yy0 yp0 fuel rfuel cs test = true ->
  exists st rs, reach prob ew c yy0 yp0 st /\ test st rs = true.
Proof.
  unfold life_test. destruct (ida_new prob yy0 yp0) as [st0| |] eqn:E0; try discriminate.
  destruct (run_calls prob ew fuel rfuel (configure c st0) cs) as [(st & rs)|] eqn:Er; [|discriminate].
  intros Ht. exists st, rs. split; [|exact Ht]. eapply run_reach; [|exact Er]. constructor. exact E0.
Qed.
End Runs.

(** examples/roberts.rs. *)
Definition robertsF : problem float := roberts 0.04 1e4 3e7 6e7 0.0001 0.01.
Definition roberts_ewt : list float -> list float := ewt_set_sv 1e-4 [1e-8; 1e-6; 1e-6].
Definition robertsD := default_config robertsF.
Definition roberts_life (cs : list call) (test : fstate -> list reply -> bool) : bool :=
  life_test robertsF roberts_ewt robertsD [1; 0; 0] [-0.04; 0.04; 0] 600 100 cs test.
Definition roberts_reach (st : fstate) : Prop :=
  reach robertsF roberts_ewt robertsD [1; 0; 0] [-0.04; 0.04; 0] st.
Definition to_4 : list call :=
  [CallSolve 0.4 0 Normal; CallSolve 0.4 0 Normal; CallSolve 4 0 Normal; CallSolve 4 0 Normal].

Lemma roberts_life_ok cs test : roberts_life cs test = true ->
  exists st rs, roberts_reach st /\ test st rs = true.
Proof. apply life_test_ok. Qed.

