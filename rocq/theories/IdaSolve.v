(** * IdaSolve: model of src/impl_stop_test.rs and src/impl_solve.rs *)
Require Import List Arith Bool.
Import ListNotations.
Require Import Verif.Base Verif.Scalar Verif.Dense Verif.Norms Verif.Newton
  Verif.IdaState Verif.IdaNls Verif.IdaCore Verif.IdaRoots.

Section IdaSolve.
Context {T LSt NSt : Type} `{Scalar T} `{LSolver T LSt} `{NLSolver T NSt}.
Variable prob : problem T.
Variable ewt_set : list T -> list T.

Notation n := (model_size prob).
Notation state := (ida T LSt NSt).
(** State, [*tret], result. *)
Notation answer := (state * T * result solve_status (err T))%type.

(** [|tn - tstop| <= 100 eps (|tn| + |hh|)], src/impl_stop_test.rs 62-66 etc. *)
Definition at_tstop (st : state) (ts : T) : bool :=
  let troundoff := (shundred * seps * (sabs (tn (nlp st)) + sabs (hh st)))%sc in
  (sabs (tn (nlp st) - ts) <=? troundoff)%sc.

(** Step reduction towards tstop, src/impl_stop_test.rs 80-83 etc. *)
Definition limit_to_tstop (st : state) (ts : T) : state :=
  if (szero <? (tn (nlp st) + hh st - ts) * hh st)%sc
  then set_hh ((ts - tn (nlp st)) * (sone - sfour * seps))%sc st
  else st.

(** Stop test before a step, [Ida::stop_test1], src/impl_stop_test.rs 36-125. *)
Definition stop_test1 (st : state) (tout tret : T) (itask : task) : outcome answer :=
  let past := match tstop st with
              | Some ts => (szero <? (tn (nlp st) - ts) * hh st)%sc
              | None => false
              end in
  match past, tstop st with
  | true, Some ts => Ret (st, tret, Err (EIda (BadStopTime ts (tn (nlp st)))))
  | _, _ =>
  match itask with
  | Normal =>
      if (tout =? tretlast st)%sc then
        Ret (set_tretlast tout st, tout, Ok Success)
      else if (szero <=? (tn (nlp st) - tout) * hh st)%sc then
        let* (st, r) := get_solution prob st tout in
        match r with
        | Err e => Ret (st, tret, Err e)
        | Ok _ => Ret (set_tretlast tout st, tout, Ok Success)
        end
      else
        match tstop st with
        | Some ts =>
            if at_tstop st ts then
              let* (st, r) := get_solution prob st ts in
              match r with
              | Err _ => Ret (st, tret, Err (EIda (BadStopTime ts (tn (nlp st)))))
              | Ok _ => Ret (set_tstop None (set_tretlast ts st), ts, Ok TStop)
              end
            else Ret (limit_to_tstop st ts, tret, Ok ContinueSteps)
        | None => Ret (st, tret, Ok ContinueSteps)
        end
  | OneStep =>
      if (szero <? (tn (nlp st) - tretlast st) * hh st)%sc then
        let* (st, _) := get_solution prob st (tn (nlp st)) in
        Ret (set_tretlast (tn (nlp st)) st, tn (nlp st), Ok Success)
      else
        match tstop st with
        | Some ts =>
            if at_tstop st ts then
              let* (st, r) := get_solution prob st ts in
              match r with
              | Err e => Ret (st, tret, Err e)
              | Ok _ => Ret (set_tretlast ts st, ts, Ok TStop)
              end
            else Ret (limit_to_tstop st ts, tret, Ok ContinueSteps)
        | None => Ret (st, tret, Ok ContinueSteps)
        end
  end
  end.

(** The two identical tstop blocks of stop_test2, src/impl_stop_test.rs 163-182
    and 188-205: [inl] when the call returns TStop. *)
Definition stop2_tstop (st : state) : outcome (answer + state) :=
  match tstop st with
  | Some ts =>
      if at_tstop st ts then
        let* (st, _) := get_solution prob st ts in
        Ret (inl (set_tstop None (set_tretlast ts st), ts, Ok TStop))
      else Ret (inr (limit_to_tstop st ts))
  | None => Ret (inr st)
  end.

(** Stop test after a step, [Ida::stop_test2], src/impl_stop_test.rs 146-211. *)
Definition stop_test2 (st : state) (tout tret : T) (itask : task) : outcome answer :=
  match itask with
  | Normal =>
      if (szero <=? (tn (nlp st) - tout) * hh st)%sc then
        let st := set_tretlast tout st in
        let* (st, _) := get_solution prob st tout in
        Ret (st, tout, Ok Success)
      else
        let* r := stop2_tstop st in
        match r with
        | inl a => Ret a
        | inr st => Ret (st, tret, Ok ContinueSteps)
        end
  | OneStep =>
      let* r := stop2_tstop st in
      match r with
      | inl a => Ret a
      | inr st => Ret (set_tretlast (tn (nlp st)) st, tn (nlp st), Ok Success)
      end
  end.

(** Choice of the first step, src/impl_solve.rs 103-159: [inl msg] when the
    call is rejected.  In Rust [hh] may already have been overwritten when the
    error is returned, hence the state in [inl]. *)
Definition first_step (st : state) (tout : T) : outcome ((state * illegal) + state) :=
  let tdist := sabs (tout - tn (nlp st))%sc in
  if (tdist =? szero)%sc then Ret (inl (st, ToutTooClose))
  else
  let troundoff := (stwo * seps * (sabs (tn (nlp st)) + sabs tout))%sc in
  if (tdist <? troundoff)%sc then Ret (inl (st, ToutTooClose))
  else
  let st := set_hh (hin st) st in
  if sneqb (hh st) szero && ((tout - tn (nlp st)) * hh st <? szero)%sc
  then Ret (inl (st, StepNotTowardsTout))
  else
  let* st :=
    (if (hh st =? szero)%sc then
       let st := set_hh (spt001 * tdist)%sc st in
       let* p1 := aget (phi st) 1 in
       let ypnorm := wrms_norm (idv st) p1 (ewt (nlp st)) (suppressalg st) in
       let st := if (stwo / hh st <? ypnorm)%sc
                 then set_hh (shalf / ypnorm)%sc st else st in
       Ret (if (tout <? tn (nlp st))%sc then set_hh (- hh st)%sc st else st)
     else Ret st) in
  let rh := (sabs (hh st) * hmax_inv st)%sc in
  let st := if (sone <? rh)%sc then set_hh (hh st / rh)%sc st else st in
  match tstop st with
  | Some ts =>
      if ((ts - tn (nlp st)) * hh st <=? szero)%sc then Ret (inl (st, TstopBehind))
      else Ret (inr (limit_to_tstop st ts))
  | None => Ret (inr st)
  end.

(** The first-call block, src/impl_solve.rs 86-176. *)
Definition first_call (st : state) (tout : T) : outcome ((state * illegal) + state) :=
  let* st :=
    (if setup_done st then Ret st
     else let* st := initial_setup ewt_set st in Ret (set_setup_done true st)) in
  let* r := first_step st tout in
  match r with
  | inl e => Ret (inl e)
  | inr st =>
      let st := set_kused 0 (set_kk 0 (set_h0u (hh st) st)) in
      let* st := (if 0 <? nrtfn st then r_check1 prob st else Ret st) in
      let* p1 := aget (phi st) 1 in
      let* ph := aset (phi st) 1 (vscale n (hh st) p1) in
      let st := set_phi ph st in
      let st := set_eps_newt (epcon st) st in
      Ret (inr (on_nlp (set_toldel (spt0001 * eps_newt st)%sc) st))
  end.

(** Root and stop tests at the start of a later call, src/impl_solve.rs 184-252:
    [inl] when the call returns, [inr] when stepping goes on. *)
Definition later_call (fuel : nat) (st : state) (tout tret : T) (itask : task)
  : outcome (answer + state * T) :=
  let* r :=
    (if 0 <? nrtfn st then
       let irfndp := irfnd st in
       let* (st, ier) := r_check2 prob st in
       match ier with
       | Err e => Ret (inl (st, tret, Err e))
       | Ok RootFound => Ret (inl (set_tretlast (tlo st) st, tlo st, Ok RootReturn))
       | Ok RootContinue =>
           let troundoff := root_ttol st in
           if (troundoff <? sabs (tn (nlp st) - tretlast st))%sc then
             let* (st, ier) := r_check3 prob fuel st in
             match ier with
             | RootContinue =>
                 let st := set_irfnd false st in
                 match itask, irfndp with
                 | OneStep, true =>
                     let st := set_tretlast (tn (nlp st)) st in
                     let* (st, _) := get_solution prob st (tn (nlp st)) in
                     Ret (inl (st, tn (nlp st), Ok Success))
                 | _, _ => Ret (inr st)
                 end
             | RootFound =>
                 let st := set_irfnd true st in
                 Ret (inl (set_tretlast (tlo st) st, tlo st, Ok RootReturn))
             end
           else Ret (inr st)
       end
     else Ret (inr st)) in
  match r with
  | inl a => Ret (inl a)
  | inr st =>
      let* (st, tret, istate) := stop_test1 st tout tret itask in
      match istate with
      | Ok ContinueSteps => Ret (inr (st, tret))
      | _ => Ret (inl (st, tret, istate))
      end
  end.

(** Checks before an internal step, src/impl_solve.rs 259-317: [inl] when the
    call returns with an error. *)
Definition pre_step (st : state) (tret : T) (nstloc : nat)
  : outcome (answer + state) :=
  if (0 <? mxstep st) && (mxstep st <=? nstloc) then
    Ret (inl (set_tretlast (tn (nlp st)) st, tn (nlp st), Err (EIda (IllegalIn TooMuchWork))))
  else
    let* l := ls_perf (lp (nlp st)) (nst st) (nni st) (ncfn st) true in
    let st := on_lp (fun _ => l) st in
    let* r :=
      (if 0 <? nst st then
         let* p0 := aget (phi st) 0 in
         let st := on_nlp (set_ewt (ewt_set p0)) st in
         if existsb (fun x => (x <=? szero)%sc) (ewt (nlp st)) then
           let* (st, _) := get_solution prob st (tn (nlp st)) in
           Ret (inl (set_tretlast (tn (nlp st)) st, tn (nlp st),
                     Err (EIda (IllegalIn EwtBad))))
         else Ret (inr st)
       else Ret (inr st)) in
    match r with
    | inl a => Ret (inl a)
    | inr st =>
        let* p0 := aget (phi st) 0 in
        let nrm := wrms_norm (idv st) p0 (ewt (nlp st)) (suppressalg st) in
        let st := set_tolsf (seps * nrm)%sc st in
        if (sone <? tolsf st)%sc then
          let st := set_tolsf (tolsf st * sten)%sc st in
          let st := set_tretlast (tn (nlp st)) st in
          let* st := (if 0 <? nst st
                      then let* (st, _) := get_solution prob st (tn (nlp st)) in Ret st
                      else Ret st) in
          Ret (inl (st, tn (nlp st), Err (EIda (TooMuchAccuracy (tn (nlp st))))))
        else Ret (inr st)
    end.

(** Handling of a failed step, src/impl_solve.rs 323-336. *)
Definition step_failed (st : state) (tret : T) (e : err T) : outcome answer :=
  let* (st, ier) := get_solution prob st (tn (nlp st)) in
  match ier with
  | Ok _ => Ret (set_tretlast (tn (nlp st)) st, tn (nlp st), Err e)
  | Err _ => Ret (st, tret, Err e)
  end.

(** Checks after an accepted step, src/impl_solve.rs 338-373: the warning about
    inactive root functions (356-366) only logs; dropped. *)
Definition post_step (fuel : nat) (st : state) (tout tret : T) (itask : task)
  : outcome answer :=
  let* r :=
    (if 0 <? nrtfn st then
       let* (st, ier) := r_check3 prob fuel st in
       match ier with
       | RootFound =>
           let st := set_irfnd true st in
           Ret (inl (set_tretlast (tlo st) st, tlo st, Ok RootReturn))
       | RootContinue => Ret (inr st)
       end
     else Ret (inr st)) in
  match r with
  | inl a => Ret a
  | inr st => stop_test2 st tout tret itask
  end.

(** The step loop, src/impl_solve.rs 257-374.  [fuel] bounds the passes;
    [rfuel] is handed to the root search and to [step]. *)
Fixpoint solve_loop (fuel rfuel : nat) (st : state) (tout tret : T) (itask : task)
         (nstloc : nat) : outcome answer :=
  match fuel with
  | 0 => Diverge
  | S fuel' =>
      let* r := pre_step st tret nstloc in
      match r with
      | inl a => Ret a
      | inr st =>
          let* (st, sflag) := step prob rfuel st in
          match sflag with
          | Err e => step_failed st tret e
          | Ok _ =>
              let* (st, tret, istate) := post_step rfuel st tout tret itask in
              match istate with
              | Ok ContinueSteps => solve_loop fuel' rfuel st tout tret itask (nstloc + 1)
              | _ => Ret (st, tret, istate)
              end
          end
      end
  end.

(** [Ida::solve], src/impl_solve.rs 69-376. *)
Definition solve (fuel rfuel : nat) (st : state) (tout tret : T) (itask : task)
  : outcome answer :=
  let st := match itask with Normal => set_toutc tout st | OneStep => st end in
  let st := set_taskc itask st in
  let* r :=
    (if nst st =? 0 then
       let* r := first_call st tout in
       match r with
       | inl (st, msg) => Ret (inl (st, tret, Err (EIda (IllegalIn msg))))
       | inr st => Ret (inr st)
       end
     else Ret (inr st)) in
  match r with
  | inl a => Ret a
  | inr st =>
      let* l := ls_perf (lp (nlp st)) (nst st) (nni st) (ncfn st) false in
      let st := on_lp (fun _ => l) st in
      let* r :=
        (if 0 <? nst st then later_call rfuel st tout tret itask
         else Ret (inr (st, tret))) in
      match r with
      | inl a => Ret a
      | inr (st, tret) => solve_loop fuel rfuel st tout tret itask 0
      end
  end.

(** ** Histories of public API calls

    The public methods of [Ida] that change the object are [solve],
    [get_solution] (src/lib.rs 1274) and — formally [&mut self] but without
    effect — [get_dky]; all other public methods (src/ida_io.rs) only read. *)
Inductive call : Type :=
| CallSolve (tout tret : T) (itask : task)
| CallGetSolution (t : T)
| CallGetDky (t : T) (k : nat).

Inductive reply : Type :=
| ReplySolve (tret : T) (r : result solve_status (err T))
| ReplyUnit (r : result unit (err T)).

Definition api_call (fuel rfuel : nat) (st : state) (c : call) : outcome (state * reply) :=
  match c with
  | CallSolve tout tret itask =>
      let* (st, tret, r) := solve fuel rfuel st tout tret itask in
      Ret (st, ReplySolve tret r)
  | CallGetSolution t =>
      let* (st, r) := get_solution prob st t in Ret (st, ReplyUnit r)
  | CallGetDky t k =>
      let* (_, r) := get_dky prob st t k (vzero n) in Ret (st, ReplyUnit r)
  end.

End IdaSolve.
