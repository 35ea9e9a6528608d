(** * IdaNls: model of src/ida_ls.rs and src/ida_nls.rs *)
Require Import List Arith Bool.
Import ListNotations.
Require Import Verif.Base Verif.Scalar Verif.Dense Verif.Norms Verif.Newton Verif.IdaState.

Section IdaNls.
Context {T LSt : Type} `{Scalar T} `{LSolver T LSt}.
Variable prob : problem T.

Notation n := (model_size prob).

(** Ghost: record a callback. *)
Definition push_ev (e : event T) (l : lprob T LSt) : lprob T LSt :=
  set_trace (e :: trace l) l.

(** [IdaLProblem::new], src/ida_ls.rs 120-227. *)
Definition lp_new : lprob T LSt :=
  {| lp_ls := ls_new n;
     lp_matj := mkmat n n (fun _ _ => szero);
     lp_x := vzero n;
     lp_sqrtn := ssqrt (sofnat n);
     lp_eplifac := spt05;
     nje := 0; nli := 0; ncfl := 0;
     nst0 := 0; nni0 := 0; ncfn0 := 0; ncfl0 := 0; nwarn := 0;
     cj := szero; cjold := szero; cjratio := szero;
     trace := [] |}.

(** [IdaLProblem::setup], src/ida_ls.rs 232-290.  The matrix is empty iff the
    model size is 0.  The Jacobian callback gets the literal time zero (258).
    An error of the linear solver's setup is unwrapped (286): panic. *)
Definition lp_setup (l : lprob T LSt) (y yp r : list T) : outcome (lprob T LSt) :=
  let l :=
    if n =? 0 then l
    else
      let l := set_nje (nje l + 1) l in
      let l := push_ev (CJac szero (cj l) y yp) l in
      set_lp_matj (mkmat n n (p_jac prob szero (cj l) y yp r)) l in
  let* (ls, m, res) := ls_setup (lp_ls l) (lp_matj l) in
  let l := set_lp_ls ls (set_lp_matj m l) in
  match res with
  | Ok _ => Ret l
  | Err _ => Panic
  end.

(** [IdaLProblem::solve], src/ida_ls.rs 298-455.  [set_scaling_vectors] has an
    empty default body and no implementation in /repo; dropped.  Returns the
    new contents of [b]. *)
Definition lp_solve (l : lprob T LSt) (b : list T) : outcome (lprob T LSt * list T) :=
  let ty := ls_type (lp_ls l) in
  let tol := match ty with
             | Iterative | MatrixIterative => (lp_sqrtn l * lp_eplifac l)%sc
             | Direct => szero
             end in
  let l := set_lp_x (vzero n) l in
  let* (x, retval) := ls_solve (lp_ls l) (lp_matj l) (lp_x l) b tol in
  let l := set_lp_x x l in
  let '(l, b) :=
    match ty with
    | Iterative | MatrixIterative =>
        let inc := ls_num_iters (lp_ls l) in
        (set_nli (nli l + inc) l, if inc =? 0 then b else lp_x l)
    | Direct => (l, lp_x l)
    end in
  let b :=
    match ty with
    | Direct | MatrixIterative =>
        if sneqb (cjratio l) sone
        then vscale n (stwo / (sone + cjratio l))%sc b
        else b
    | Iterative => b
    end in
  let l := match retval with
           | Err _ => set_ncfl (ncfl l + 1) l
           | Ok _ => l
           end in
  Ret (l, b).

(** [IdaLProblem::ls_perf], src/ida_ls.rs 458-499.  The rates are computed in
    f64 in the Rust code; here in the scalar type.  The two warnings become one
    ghost event each. *)
Definition ls_perf (l : lprob T LSt) (c_nst c_nni c_ncfn : nat) (perftask : bool)
  : outcome (lprob T LSt) :=
  if negb perftask then
    Ret (set_nwarn 0 (set_ncfl0 (ncfl l) (set_ncfn0 c_ncfn (set_nni0 c_nni (set_nst0 c_nst l)))))
  else
    let* nstd := usub c_nst (nst0 l) in
    let* nnid := usub c_nni (nni0 l) in
    if (nstd =? 0) || (nnid =? 0) then Ret l
    else
      let* dcfn := usub c_ncfn (ncfn0 l) in
      let* dcfl := usub (ncfl l) (ncfl0 l) in
      let rcfn := (sofnat dcfn / sofnat nstd)%sc in
      let rcfl := (sofnat dcfl / sofnat nnid)%sc in
      let lcfn := (spt9 <? rcfn)%sc in
      let lcfl := (spt9 <? rcfl)%sc in
      if negb (lcfn || lcfl) then Ret l
      else
        let l := set_nwarn (nwarn l + 1) l in
        if 10 <? nwarn l then Ret l
        else
          let l := if lcfn then push_ev CWarn l else l in
          let l := if lcfl then push_ev CWarn l else l in
          Ret l.

(** [IdaNLProblem::new], src/ida_nls.rs 75-102. *)
Definition nlp_new (yy0 yp0 : list T) : nlprob T LSt :=
  {| yy := yy0; yp := yp0;
     yypredict := vzero n; yppredict := vzero n;
     ewt := vzero n; savres := vzero n;
     tn := szero; ss := szero; oldnrm := szero; toldel := szero;
     nre := 0; nsetups := 0; lp := lp_new |}.

(** [NLProblem::sys] for [IdaNLProblem], src/ida_nls.rs 118-153. *)
Definition nlp_sys (s : nlprob T LSt) (ycor : list T)
  : outcome (nlprob T LSt * list T * result unit nlerr) :=
  let s := set_yy (vadd n (yypredict s) ycor) s in
  let s := set_yp (vscaled_add n (yppredict s) (cj (lp s)) ycor) s in
  let res := vtab n (p_res prob (tn s) (yy s) (yp s)) in
  let s := set_lp (push_ev (CRes (tn s) (yy s) (yp s)) (lp s)) s in
  let s := set_nre (nre s + 1) s in
  let s := set_savres res s in
  Ret (s, res, Ok tt).

(** [NLProblem::setup] for [IdaNLProblem], src/ida_nls.rs 156-187. *)
Definition nlp_setup (s : nlprob T LSt) (ycor res : list T) (jbad : bool)
  : outcome (nlprob T LSt * result bool nlerr) :=
  let s := set_nsetups (nsetups s + 1) s in
  let* l := lp_setup (lp s) (yy s) (yp s) res in
  let l := set_cjratio sone (set_cjold (cj l) l) in
  let s := set_ss stwenty (set_lp l s) in
  Ret (s, Ok true).

(** [NLProblem::solve] for [IdaNLProblem], src/ida_nls.rs 190-215. *)
Definition nlp_solve (s : nlprob T LSt) (ycor delta : list T)
  : outcome (nlprob T LSt * list T * result unit nlerr) :=
  let* (l, b) := lp_solve (lp s) delta in
  Ret (set_lp l s, b, Ok tt).

(** [NLProblem::ctest] for [IdaNLProblem], src/ida_nls.rs 218-266. *)
Definition nlp_ctest (s : nlprob T LSt) (m : nat) (y del : list T) (tol : T) (w : list T)
  : outcome (nlprob T LSt * result bool nlerr) :=
  let delnrm := norm_wrms del w in
  let second (s : nlprob T LSt) : outcome (nlprob T LSt * result bool nlerr) :=
    Ret (s, Ok (ss s * delnrm <=? tol)%sc) in
  if m =? 0 then
    let s := set_oldnrm delnrm s in
    if (delnrm <=? spt0001 * toldel s)%sc then Ret (s, Ok true) else second s
  else
    let rate := spowf (delnrm / oldnrm s)%sc (srecip (sofnat m)) in
    if (sratemax <? rate)%sc then Ret (s, Err ConvergenceRecover)
    else second (set_ss (rate / (sone - rate))%sc s).

(** The integrator's nonlinear problem as an [NLProblem]. *)
Definition ida_nlproblem : nlproblem T (nlprob T LSt) :=
  mknlproblem nlp_sys nlp_setup nlp_solve nlp_ctest.

End IdaNls.

(** [Dense] as the [LSolver] of the integrator, crates/linear/src/dense.rs
    22-64. *)
#[export] Instance DenseLS {T} `{Scalar T} : LSolver T (list nat) := {
  ls_new := dense_new;
  ls_type := fun _ => Direct;
  ls_setup := dense_setup;
  ls_solve := fun piv a _ b tol =>
                let* x := dense_solve piv a b tol in Ret (x, Ok tt);
  ls_num_iters := fun _ => 0
}.

(** [Newton] as the [NLSolver] of the integrator, crates/nonlinear/src/newton.rs
    34-180, with [fuel] passes of the outer loop. *)
Definition NewtonNLS {T} `{Scalar T} (fuel : nat) : NLSolver T (newton T) := {|
  nls_new := fun size maxiters => newton_new size maxiters;
  nls_setup := fun s y => Ret (s, y, Ok tt);
  nls_solve := fun S P size s x y0 y w tol call =>
                 newton_solve P size fuel s x y0 y w tol call;
  nls_num_iters := fun s => nw_niters s
|}.
