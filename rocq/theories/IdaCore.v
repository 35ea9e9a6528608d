(** * IdaCore: model of the step routines in src/lib.rs and
      src/impl_complete_step.rs *)
Require Import List Arith Bool.
Import ListNotations.
Require Import Verif.Base Verif.Scalar Verif.Dense Verif.Norms Verif.Newton
  Verif.IdaState Verif.IdaNls.

(** src/constants.rs 2-34. *)
Definition MAXORD_DEFAULT := 5.
Definition MXORDP1 := 6.
Definition MXSTEP_DEFAULT := 500.
Definition MXNCF := 10.
Definition MXNEF := 10.
Definition MAXNLSIT := 4.

Section IdaCore.
Context {T LSt NSt : Type} `{Scalar T} `{LSolver T LSt} `{NLSolver T NSt}.
Variable prob : problem T.
Variable ewt_set : list T -> list T.       (* TolControl::ewt_set, src/tol_control.rs *)

Notation n := (model_size prob).
Notation state := (ida T LSt NSt).

(** Update of the nested problem structs ([self.nlp.f = ..], [self.nlp.lp.f = ..]). *)
Definition on_nlp (f : nlprob T LSt -> nlprob T LSt) (st : state) : state :=
  set_nlp (f (nlp st)) st.
Definition on_lp (f : lprob T LSt -> lprob T LSt) (st : state) : state :=
  on_nlp (fun s => set_lp (f (lp s)) s) st.

(** [Ida::new], src/lib.rs 278-405.  The length assertion is modelled; [yp0]
    is assigned into a row of the same width (ndarray panics otherwise). *)
Definition ida_new (yy0 yp0 : list T) : outcome state :=
  if (length yy0 =? n) && (length yp0 =? n) then
    Ret {| setup_done := false; constraints_set := false; suppressalg := false;
           phi := yy0 :: yp0 :: repeat (vzero n) 4;
           psi := repeat szero MXORDP1; alpha := repeat szero MXORDP1;
           beta := repeat szero MXORDP1; sigma := repeat szero MXORDP1;
           gamma := repeat szero MXORDP1;
           delta := vzero n; idv := repeat false n; ee := vzero n; tstop := None;
           kk := 0; kused := 0; knew := 0; phase := 0; ns := 0;
           hin := szero; h0u := szero; hh := szero; hused := szero; rr := szero;
           tretlast := szero; cjlast := szero; eps_newt := szero; epcon := sepcon;
           maxncf := MXNCF; maxnef := MXNEF; maxord := MAXORD_DEFAULT;
           mxstep := MXSTEP_DEFAULT; hmax_inv := szero;
           nst := 0; ncfn := 0; netf := 0; nni := 0;
           cvals := repeat szero MXORDP1; dvals := repeat szero MAXORD_DEFAULT;
           tolsf := sone;
           nrtfn := num_roots prob;
           iroots := vzero (num_roots prob); rootdir := repeat 0 (num_roots prob);
           tlo := szero; thi := szero; trout := szero;
           glo := vzero (num_roots prob); ghi := vzero (num_roots prob);
           grout := vzero (num_roots prob);
           toutc := szero; ttol := szero; taskc := Normal; irfnd := false; nge := 0;
           gactive := repeat false (num_roots prob); mxgnull := 1;
           nls := nls_new n MAXNLSIT;
           nlp := nlp_new prob yy0 yp0 |}
  else Panic.

(** The legality window of get_solution and get_dky, src/lib.rs 449-464 and
    1279-1293: [Some e] when [t] is rejected. *)
Definition time_check (st : state) (t : T) : option (err T) :=
  let tfuzz := (shundred * seps * (sabs (tn (nlp st)) + sabs (hh st)) * ssignum (hh st))%sc in
  let tp := (tn (nlp st) - hused st - tfuzz)%sc in
  if ((t - tp) * hh st <? szero)%sc
  then Some (EIda (BadTimeValue t (tn (nlp st) - hused st)%sc (tn (nlp st))))
  else None.

(** Loop body of [get_solution], src/lib.rs 1309-1316: state is
    (c, d, gam, cvals, dvals). *)
Definition gs_body (ps : list T) (delt : T) (j : nat)
           (acc : T * T * T * list T * list T) : outcome (T * T * T * list T * list T) :=
  let '(c, d, gam, cv, dv) := acc in
  let* pj1 := aget ps (j - 1) in
  let d := (d * gam + c / pj1)%sc in
  let c := (c * gam)%sc in
  let* pj := aget ps j in
  let gam := ((delt + pj1) / pj)%sc in
  let* cv := aset cv j c in
  let* dv := aset dv (j - 1) d in
  Ret (c, d, gam, cv, dv).

(** Accumulation [out.scaled_add(coef[i], phi[lo + i])] for i in 0..cnt, the
    Zip loops of src/lib.rs 1320-1340. *)
Definition lincomb (coefs : list T) (rows : list (list T)) (lo cnt : nat)
  : outcome (list T) :=
  for_range 0 cnt
    (fun i acc => let* c := aget coefs i in
                  let* p := aget rows (lo + i) in
                  Ret (vscaled_add n acc c p)) (vzero n).

(** [Ida::get_solution], src/lib.rs 1274-1343. *)
Definition get_solution (st : state) (t : T) : outcome (state * result unit (err T)) :=
  match time_check st t with
  | Some e => Ret (st, Err e)
  | None =>
      let kord := if kused st =? 0 then 1 else kused st in
      let delt := (t - tn (nlp st))%sc in
      let* p0 := aget (psi st) 0 in
      let* cv := aset (cvals st) 0 sone in
      let* (_, _, _, cv, dv) :=
        for_range 1 (kord + 1) (gs_body (psi st) delt)
                  (sone, szero, (delt / p0)%sc, cv, dvals st) in
      let st := set_dvals dv (set_cvals cv st) in
      let* yyv := lincomb (cvals st) (phi st) 0 (kord + 1) in
      let* ypv := lincomb (dvals st) (phi st) 1 kord in
      Ret (on_nlp (fun s => set_yp ypv (set_yy yyv s)) st, Ok tt)
  end.

(** Recurrence of [get_dky] for one [i], src/lib.rs 473-510: state is
    (cjk, cjk_1, psij_1).  Both inner loops run over
    [i + 1 .. kused - k + 1 + 1] (499, 507). *)
Definition dky_body (ps : list T) (delt : T) (kus k : nat) (i : nat)
           (acc : list T * list T * T) : outcome (list T * list T * T) :=
  let '(cjk, cjk1, psij1) := acc in
  let si := sofnat i in
  let* (cjk, psij1) :=
    (if i =? 0 then
       let* cjk := aset cjk i sone in Ret (cjk, psij1)
     else
       let* ci1 := aget cjk (i - 1) in
       let* p := aget ps (i - 1) in
       let* cjk := aset cjk i (ci1 * si / p)%sc in
       Ret (cjk, p)) in
  let* d := usub kus k in
  let* (cjk, psij1) :=
    for_range (i + 1) (d + 1 + 1)
      (fun j '(cjk, psij1) =>
         let* c1 := aget cjk1 (j - 1) in
         let* c := aget cjk (j - 1) in
         let* p := aget ps (j - 1) in
         let* cjk := aset cjk j ((si * c1 + c * (delt + psij1)) / p)%sc in
         Ret (cjk, p)) (cjk, psij1) in
  let* cjk1 :=
    for_range (i + 1) (d + 1 + 1)
      (fun j cjk1 => let* c := aget cjk j in aset cjk1 j c) cjk1 in
  Ret (cjk, cjk1, psij1).

(** [Ida::get_dky], src/lib.rs 424-529.  Returns the new contents of [dky];
    the integrator state is not changed. *)
Definition get_dky (st : state) (t : T) (k : nat) (dky : list T)
  : outcome (list T * result unit (err T)) :=
  if kused st <? k then Ret (dky, Err (EIda BadK))
  else
    match time_check st t with
    | Some e => Ret (dky, Err e)
    | None =>
        let delt := (t - tn (nlp st))%sc in
        let* (cjk, _, _) :=
          for_range 0 (k + 1) (dky_body (psi st) delt (kused st) k)
                    (repeat szero MXORDP1, repeat szero MXORDP1, szero) in
        let* _ := slice_chk k (kused st + 1) (length (phi st)) in
        let* _ := slice_chk k (kused st + 1) (length cjk) in
        let* r :=
          for_range k (kused st + 1)
            (fun i acc => let* p := aget (phi st) i in
                          let* c := aget cjk i in
                          Ret (vtab n (fun x => (vget acc x + vget p x * c)%sc)))
            (vzero n) in
        Ret (r, Ok tt)
    end.

(** [Ida::initial_setup], src/lib.rs 537-568: only the error weights. *)
Definition initial_setup (st : state) : outcome state :=
  let* p0 := aget (phi st) 0 in
  Ret (on_nlp (set_ewt (ewt_set p0)) st).

(** Coefficient loop of [set_coeffs], src/lib.rs 738-747: state is
    (psi, beta, alpha, sigma, gamma, temp1). *)
Definition coeff_body (h : T) (i : nat)
           (acc : list T * list T * list T * list T * list T * T)
  : outcome (list T * list T * list T * list T * list T * T) :=
  let '(ps, be, al, sg, ga, temp1) := acc in
  let si := sofnat i in
  let* temp2 := aget ps (i - 1) in
  let* ps := aset ps (i - 1) temp1 in
  let* be1 := aget be (i - 1) in
  let* psi1 := aget ps (i - 1) in
  let* be := aset be i (be1 * psi1 / temp2)%sc in
  let temp1 := (temp2 + h)%sc in
  let* al := aset al i (h / temp1)%sc in
  let* sg1 := aget sg (i - 1) in
  let* ali := aget al i in
  let* sg := aset sg i (si * sg1 * ali)%sc in
  let* ga1 := aget ga (i - 1) in
  let* al1 := aget al (i - 1) in
  let* ga := aset ga i (ga1 + al1 / h)%sc in
  Ret (ps, be, al, sg, ga, temp1).

(** Rows [lo..hi) of phi scaled by the coefficient with the same index. *)
Definition scale_rows (coefs : list T) (lo hi : nat) (rows : list (list T))
  : outcome (list (list T)) :=
  let* _ := slice_chk lo hi (length rows) in
  let* _ := slice_chk lo hi (length coefs) in
  for_range lo hi
    (fun i rows => let* c := aget coefs i in
                   let* p := aget rows i in
                   aset rows i (vscale n c p)) rows.

(** Constant-step counter, src/lib.rs 727-731. *)
Definition bump_ns (st : state) : state :=
  let st := if sneqb (hh st) (hused st) || negb (kk st =? kused st)
            then set_ns 0 st else st in
  set_ns (Nat.min (ns st + 1) (kused st + 2)) st.

(** Recomputation of psi, alpha, beta, sigma, gamma, src/lib.rs 732-749. *)
Definition compute_coeffs (st : state) : outcome state :=
  if ns st <=? kk st + 1 then
    let* be := aset (beta st) 0 sone in
    let* al := aset (alpha st) 0 sone in
    let* ga := aset (gamma st) 0 szero in
    let* sg := aset (sigma st) 0 sone in
    let* (ps, be, al, sg, ga, temp1) :=
      for_range 1 (kk st + 1) (coeff_body (hh st)) (psi st, be, al, sg, ga, hh st) in
    let* ps := aset ps (kk st) temp1 in
    Ret (set_gamma ga (set_sigma sg (set_alpha al (set_beta be (set_psi ps st)))))
  else Ret st.

(** Leading coefficient and error coefficient, src/lib.rs 750-771. *)
Definition leading_coeff (st : state) : outcome (state * T) :=
  let* (alphas, alpha0) :=
    for_range 0 (kk st)
      (fun i '(alphas, alpha0) =>
         let* a := aget (alpha st) i in
         Ret ((alphas - sone / sofnat (i + 1))%sc, (alpha0 - a)%sc)) (szero, szero) in
  let st := set_cjlast (cj (lp (nlp st))) st in
  let st := on_lp (set_cj (- alphas / hh st)%sc) st in
  let* ak := aget (alpha st) (kk st) in
  Ret (st, smax (sabs (ak + alphas - alpha0)%sc) ak).

(** phi becomes phi-star, src/lib.rs 773-782. *)
Definition scale_phi (st : state) : outcome state :=
  if ns st <=? kk st then
    let* ph := scale_rows (beta st) (ns st) (kk st + 1) (phi st) in
    Ret (set_phi ph st)
  else Ret st.

(** [Ida::set_coeffs], src/lib.rs 722-782; returns the coefficient [ck]. *)
Definition set_coeffs (st : state) : outcome (state * T) :=
  let* st := compute_coeffs (bump_ns st) in
  let* (st, ck) := leading_coeff st in
  let* st := scale_phi st in
  Ret (st, ck).

(** [Ida::predict], src/lib.rs 894-959. *)
Definition predict (st : state) : outcome state :=
  let* _ := slice_chk 0 (kk st + 1) (length (phi st)) in
  let* yyv :=
    for_range 0 (kk st + 1)
      (fun i acc => let* p := aget (phi st) i in Ret (vadd n acc p)) (vzero n) in
  let* _ := slice_chk 1 (kk st + 1) (length (gamma st)) in
  let* ypv :=
    for_range 1 (kk st + 1)
      (fun i acc => let* g := aget (gamma st) i in
                    let* p := aget (phi st) i in
                    Ret (vscaled_add n acc g p)) (vzero n) in
  Ret (on_nlp (fun s => set_yppredict ypv (set_yypredict yyv s)) st).

(** Start of [nonlinear_solve], src/lib.rs 787-838: leading-coefficient ratio,
    convergence-rate estimate and the decision to refresh the Jacobian. *)
Definition nls_prepare (st : state) : state * bool :=
  let first := nst st =? 0 in
  let st := if first
            then on_nlp (set_ss stwenty) (on_lp (fun l => set_cjold (cj l) l) st)
            else st in
  let st := on_lp (fun l => set_cjratio (cj l / cjold l)%sc l) st in
  let temp1 := sxrate_lo in
  let temp2 := srecip temp1 in
  let ratio := cjratio (lp (nlp st)) in
  let call_lsetup := first || ((ratio <? temp1)%sc || (temp2 <? ratio)%sc) in
  let st := if sneqb (cj (lp (nlp st))) (cjlast st)
            then on_nlp (set_ss shundred) st else st in
  (st, call_lsetup).

(** [Ida::nonlinear_solve], src/lib.rs 787-890. *)
Definition nonlinear_solve (st : state) : outcome (state * result unit (err T)) :=
  let '(st, call_lsetup) := nls_prepare st in
  let st := set_delta (vzero n) st in
  let* (s, d, r) := nls_setup (nls st) (delta st) in
  let st := set_delta d (set_nls s st) in
  match r with
  | Err e => Ret (st, Err (ENls e))
  | Ok _ =>
      let* (s, x, eev, r) :=
        nls_solve _ (ida_nlproblem prob) n (nls st) (nlp st)
                  (delta st) (ee st) (ewt (nlp st)) (eps_newt st) call_lsetup in
      let st := set_ee eev (set_nlp x (set_nls s st)) in
      let st := on_nlp (fun s => set_yy (vadd n (yypredict s) (ee st)) s) st in
      let st := on_nlp (fun s => set_yp (vscaled_add n (yppredict s) (cj (lp s)) (ee st)) s) st in
      match r with
      | Err e => Ret (st, Err (ENls e))
      | Ok _ => if constraints_set st then Panic else Ret (st, Ok tt)
      end
  end.

(** [Ida::test_error], src/lib.rs 967-1039; the result carries
    (err_k, err_km1) in both cases (ghost: [CFail] on failure). *)
Definition test_error (st : state) (ck : T)
  : outcome (state * T * T * result unit (err T)) :=
  let skk := sofnat (kk st) in
  let w := ewt (nlp st) in
  let enorm_k := wrms_norm (idv st) (ee st) w (suppressalg st) in
  let* sgk := aget (sigma st) (kk st) in
  let err_k := (sgk * enorm_k)%sc in
  let terr_k := (err_k * (skk + sone))%sc in
  let* (st, err_km1, kn) :=
    (if 1 <? kk st then
       let* pk := aget (phi st) (kk st) in
       let st := set_delta (vadd n pk (ee st)) st in
       let enorm_km1 := wrms_norm (idv st) (delta st) w (suppressalg st) in
       let* sgk1 := aget (sigma st) (kk st - 1) in
       let err_km1 := (sgk1 * enorm_km1)%sc in
       let terr_km1 := (skk * err_km1)%sc in
       if 2 <? kk st then
         let* pk1 := aget (phi st) (kk st - 1) in
         let st := set_delta (vadd n (delta st) pk1) st in
         let enorm_km2 := wrms_norm (idv st) (delta st) w (suppressalg st) in
         let* sgk2 := aget (sigma st) (kk st - 2) in
         let err_km2 := (sgk2 * enorm_km2)%sc in
         let terr_km2 := ((skk - sone) * err_km2)%sc in
         Ret (st, err_km1, if (smax terr_km1 terr_km2 <=? terr_k)%sc
                           then kk st - 1 else kk st)
       else
         Ret (st, err_km1, if (terr_km1 <=? terr_k * shalf)%sc
                           then kk st - 1 else kk st)
     else Ret (st, szero, kk st)) in
  let st := set_knew kn st in
  if (ck * enorm_k <=? sone)%sc
  then Ret (st, err_k, err_km1, Ok tt)
  else Ret (on_lp (push_ev CFail) st, err_k, err_km1, Err (EIda TestFail)).

(** [Ida::restore], src/lib.rs 1044-1083.  [ida_cvals] is used as scratch. *)
Definition restore (st : state) (saved_t : T) : outcome state :=
  let st := on_nlp (set_tn saved_t) st in
  let* ps :=
    for_range 1 (kk st + 1)
      (fun j ps => let* p := aget ps j in aset ps (j - 1) (p - hh st)%sc) (psi st) in
  let st := set_psi ps st in
  if ns st <=? kk st then
    let* _ := slice_chk 0 (kk st - ns st + 1) (length (cvals st)) in
    let* _ := slice_chk (ns st) (kk st + 1) (length (beta st)) in
    let* cv :=
      for_range 0 (kk st - ns st + 1)
        (fun i cv => let* b := aget (beta st) (ns st + i) in aset cv i (srecip b))
        (cvals st) in
    let st := set_cvals cv st in
    let* _ := slice_chk (ns st) (kk st + 1) (length (phi st)) in
    let* ph :=
      for_range (ns st) (kk st + 1)
        (fun i ph => let* c := aget (cvals st) (i - ns st) in
                     let* p := aget ph i in
                     aset ph i (vscale n c p)) (phi st) in
    Ret (set_phi ph st)
  else Ret st.

(** [Ida::handle_n_flag], src/lib.rs 1120-1244; returns the new local counters
    (ncf, nef).  [error.downcast::<IdaError>()] succeeds on [EIda] only. *)
Definition handle_n_flag (st : state) (error : err T) (err_k err_km1 : T) (ncf nef : nat)
  : outcome (state * nat * nat * result unit (err T)) :=
  let st := set_phase 1 st in
  match error with
  | EIda TestFail =>
      let nef := nef + 1 in
      let st := set_netf (netf st + 1) st in
      if nef =? 1 then
        let err_knew := if kk st =? knew st then err_k else err_km1 in
        let st := set_kk (knew st) st in
        let base := (stwo * err_knew + spt0001)%sc in
        let arg := srecip (sofnat (kk st + 1)) in
        let r := (spt9 * spowf base (- arg))%sc in
        let st := set_rr (smax squarter (smin spt9 r)) st in
        Ret (set_hh (hh st * rr st)%sc st, ncf, nef, Ok tt)
      else if nef =? 2 then
        let st := set_rr squarter (set_kk (knew st) st) in
        Ret (set_hh (hh st * rr st)%sc st, ncf, nef, Ok tt)
      else if nef <? maxnef st then
        let st := set_rr squarter (set_kk 1 st) in
        Ret (set_hh (hh st * rr st)%sc st, ncf, nef, Ok tt)
      else Ret (st, ncf, nef, Err EFmt)
  | EIda (RecoverableFail rec_type) =>
      let ncf := ncf + 1 in
      let st := set_ncfn (ncfn st + 1) st in
      let st := match rec_type with
                | RecConstraint => st
                | _ => set_rr squarter st
                end in
      let st := set_hh (hh st * rr st)%sc st in
      if ncf <? maxncf st then Ret (st, ncf, nef, Ok tt)
      else Ret (st, ncf, nef,
                Err (EIda (match rec_type with
                           | RecResidual => ResidualFail
                           | RecConstraint => ConstraintFail
                           | _ => ConvergenceFail
                           end)))
  | EIda _ => Panic
  | e => Ret (set_ncfn (ncfn st + 1) st, ncf + 1, nef, Err e)
  end.

(** [Ida::reset], src/lib.rs 1249-1252: psi[0] and the whole of phi. *)
Definition reset (st : state) : outcome state :=
  let* ps := aset (psi st) 0 (hh st) in
  Ret (set_phi (map (vscale n (rr st)) (phi st)) (set_psi ps st)).

(** Order decision of [complete_step], src/impl_complete_step.rs 54-103. *)
Inductive action : Type := Lower | Maintain | Raise.

Definition choose_order (st : state) (err_k err_km1 : T) (kdiff1 : bool)
  : outcome (action * T) :=
  let* km1 := usub (kk st) 1 in
  if knew st =? km1 then Ret (Lower, szero)
  else if kk st =? maxord st then Ret (Maintain, szero)
  else if (ns st <=? kk st + 1) || kdiff1 then Ret (Maintain, szero)
  else
    let* pk1 := aget (phi st) (kk st + 1) in
    let enorm := wrms_norm (idv st) (vsub n (ee st) pk1) (ewt (nlp st)) (suppressalg st) in
    let err_kp1 := (enorm / sofnat (kk st + 2))%sc in
    let terr_k := (sofnat (kk st + 1) * err_k)%sc in
    let terr_kp1 := (sofnat (kk st + 2) * err_kp1)%sc in
    if kk st =? 1 then
      if (shalf * terr_k <=? terr_kp1)%sc then Ret (Maintain, err_kp1)
      else Ret (Raise, err_kp1)
    else
      let terr_km1 := (sofnat (kk st) * err_km1)%sc in
      if (terr_km1 <=? smin terr_k terr_kp1)%sc then Ret (Lower, err_kp1)
      else if (terr_k <=? terr_kp1)%sc then Ret (Maintain, err_kp1)
      else Ret (Raise, err_kp1).

(** Doubling limited by the maximum step, src/impl_complete_step.rs 45-49 and
    136-140. *)
Definition doubled (st : state) : T :=
  let hnew := (stwo * hh st)%sc in
  let tmp := (sabs hnew * hmax_inv st)%sc in
  if (sone <? tmp)%sc then (hnew / tmp)%sc else hnew.

(** Step selection after the order decision, src/impl_complete_step.rs 105-149. *)
Definition choose_step (st : state) (act : action) (err_k err_km1 err_kp1 : T)
  : outcome state :=
  let* (st, err_knew) :=
    match act with
    | Raise => Ret (set_kk (kk st + 1) st, err_kp1)
    | Lower => let* k := usub (kk st) 1 in Ret (set_kk k st, err_km1)
    | Maintain => Ret (st, err_k)
    end in
  let base := (stwo * err_knew + spt0001)%sc in
  let arg := (- srecip (sofnat (kk st + 1)))%sc in
  let st := set_rr (spowf base arg) st in
  if (stwo <=? rr st)%sc then Ret (set_hh (doubled st) st)
  else if (rr st <=? sone)%sc then
    let st := set_rr (smax shalf (smin (rr st) spt9)) st in
    Ret (set_hh (hh st * rr st)%sc st)
  else Ret st.

(** Update of phi, src/impl_complete_step.rs 153-175: phi[kused+1] = ee unless
    at the maximum order, then a running sum from phi[kused] down to phi[0]. *)
Definition update_phi (st : state) : outcome state :=
  let* ph :=
    (if kused st <? maxord st then aset (phi st) (kused st + 1) (ee st)
     else Ret (phi st)) in
  let* _ := slice_chk 0 (kused st + 1) (length ph) in
  let* (ph, _) :=
    for_range_rev 0 (kused st + 1)
      (fun i '(ph, tmp) =>
         let* p := aget ph i in
         let tmp := vadd n tmp p in
         let* ph := aset ph i tmp in
         Ret (ph, tmp)) (ph, ee st) in
  Ret (set_phi ph st).

(** [Ida::complete_step], src/impl_complete_step.rs 22-177. *)
Definition complete_step (st : state) (err_k err_km1 : T) : outcome state :=
  let st := set_nst (nst st + 1) st in
  let kdiff1 := kk st =? kused st + 1 in
  let st := set_hused (hh st) (set_kused (kk st) st) in
  let* km1 := usub (kk st) 1 in
  let st := if (knew st =? km1) || (kk st =? maxord st) then set_phase 1 st else st in
  let* st :=
    (if phase st =? 0 then
       if 1 <? nst st then
         let st := set_kk (kk st + 1) st in
         Ret (set_hh (doubled st) st)
       else Ret st
     else
       let* (act, err_kp1) := choose_order st err_k err_km1 kdiff1 in
       choose_step st act err_k err_km1 err_kp1) in
  update_phi st.

(** First-step initialisation of [step], src/lib.rs 619-627. *)
Definition step_init (st : state) : outcome state :=
  if nst st =? 0 then
    let* ps := aset (psi st) 0 (hh st) in
    let st := set_psi ps (set_hused szero (set_kused 0 (set_kk 1 st))) in
    let st := on_lp (set_cj (srecip (hh st))) st in
    Ret (set_ns 0 (set_phase 0 st))
  else Ret st.

(** Advance of the internal time, src/lib.rs 653-658. *)
Definition advance_tn (st : state) : state :=
  let st := on_nlp (fun s => set_tn (tn s + hh st)%sc s) st in
  match tstop st with
  | Some ts => if (sone <? (tn (nlp st) - ts) * hh st)%sc
               then on_nlp (set_tn ts) st else st
  | None => st
  end.

(** First half of one pass of the attempt loop, src/lib.rs 634-676 (ghost:
    [CTry]): coefficients, time, prediction, nonlinear solve, error test. *)
Definition try_step (st : state) : outcome (state * T * T * T * result unit (err T)) :=
  let st := on_lp (push_ev (CTry (tn (nlp st)) (hh st) (kk st))) st in
  let* (st, ck) := set_coeffs st in
  let* st := predict (advance_tn st) in
  let* (st, r) := nonlinear_solve st in
  match r with
  | Err e => Ret (st, ck, szero, szero, Err e)
  | Ok _ => let* (st, err_k, err_km1, r) := test_error st ck in
            Ret (st, ck, err_k, err_km1, r)
  end.

(** One pass of the attempt loop, src/lib.rs 634-694.  The result is
    [Ok (Some (ck, err_k, err_km1))] when the step is accepted, [Ok None] when
    it is to be attempted again. *)
Definition attempt_step (st : state) (saved_t : T) (ncf nef : nat)
  : outcome (state * nat * nat * result (option (T * T * T)) (err T)) :=
  let* (st, ck, err_k, err_km1, r) := try_step st in
  match r with
  | Ok _ => Ret (st, ncf, nef, Ok (Some (ck, err_k, err_km1)))
  | Err e =>
      let* st := restore st saved_t in
      let* (st, ncf, nef, r) := handle_n_flag st e err_k err_km1 ncf nef in
      match r with
      | Err e => Ret (st, ncf, nef, Err e)
      | Ok _ =>
          let* st := (if nst st =? 0 then reset st else Ret st) in
          Ret (st, ncf, nef, Ok None)
      end
  end.

(** The attempt loop, src/lib.rs 634-694. *)
Fixpoint step_loop (fuel : nat) (st : state) (saved_t : T) (ncf nef : nat)
  : outcome (state * result (T * T * T) (err T)) :=
  match fuel with
  | 0 => Diverge
  | S fuel' =>
      let* (st, ncf, nef, r) := attempt_step st saved_t ncf nef in
      match r with
      | Err e => Ret (st, Err e)
      | Ok (Some x) => Ret (st, Ok x)
      | Ok None => step_loop fuel' st saved_t ncf nef
      end
  end.

(** Ghost event at the start of a step: the solution reached and the weights. *)
Definition begin_ev (st : state) : event T := CBegin (nth 0 (phi st) []) (ewt (nlp st)).

(** [Ida::step], src/lib.rs 613-711 (ghost: [CBegin], [CStep]). *)
Definition step (fuel : nat) (st : state) : outcome (state * result unit (err T)) :=
  let saved_t := tn (nlp st) in
  let* st := step_init (on_lp (push_ev (begin_ev st)) st) in
  let* (st, r) := step_loop fuel st saved_t 0 0 in
  match r with
  | Err e => Ret (st, Err e)
  | Ok (ck, err_k, err_km1) =>
      let* st := complete_step st err_k err_km1 in
      let st := on_lp (push_ev (CStep (tn (nlp st)) (yy (nlp st)))) st in
      Ret (set_ee (vscale n ck (ee st)) st, Ok tt)
  end.

End IdaCore.
