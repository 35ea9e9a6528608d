(** * IdaRoots: model of src/impl_r_check.rs *)
Require Import List Arith Bool.
Import ListNotations.
Require Import Verif.Base Verif.Scalar Verif.Dense Verif.Norms Verif.Newton
  Verif.IdaState Verif.IdaNls Verif.IdaCore.

Section IdaRoots.
Context {T LSt NSt : Type} `{Scalar T} `{LSolver T LSt} `{NLSolver T NSt}.
Variable prob : problem T.

Notation n := (model_size prob).
Notation nr := (num_roots prob).
Notation state := (ida T LSt NSt).

Definition bget (l : list bool) (i : nat) : bool := nth i l false.
Definition nget (l : list nat) (i : nat) : nat := nth i l 0.

(** [self.nlp.lp.problem.root(t, y, yp, out)]: result and ghost event. *)
Definition call_root (st : state) (t : T) (y ypv : list T) : state * list T :=
  (on_lp (push_ev (CRoot t y ypv)) st, vtab nr (p_root prob t y ypv)).

(** [|tn| + |hh|) * eps * 100], src/impl_r_check.rs 39-41, 153-155, 246-248. *)
Definition root_ttol (st : state) : T :=
  ((sabs (tn (nlp st)) + sabs (hh st)) * seps * shundred)%sc.

(** [Ida::r_check1], src/impl_r_check.rs 32-99. *)
Definition r_check1 (st : state) : outcome state :=
  let st := set_iroots (vzero nr) st in
  let st := set_tlo (tn (nlp st)) st in
  let st := set_ttol (root_ttol st) st in
  let* p0 := aget (phi st) 0 in
  let* p1 := aget (phi st) 1 in
  let '(st, g) := call_root st (tlo st) p0 p1 in
  let st := set_nge 1 (set_glo g st) in
  let isz i := (sabs (vget (glo st) i) =? szero)%sc in
  let zroot := existsb isz (seq 0 nr) in
  let st := set_gactive (vtab nr (fun i => if isz i then false else bget (gactive st) i)) st in
  if zroot then
    let hratio := smax (ttol st / sabs (hh st))%sc spt1 in
    let smallh := (hratio * hh st)%sc in
    let tplus := (tlo st + smallh)%sc in
    let st := on_nlp (set_yy (vscaled_add n p0 smallh p1)) st in
    let '(st, g) := call_root st tplus (yy (nlp st)) p1 in
    let st := set_nge (nge st + 1) (set_ghi g st) in
    let act i := negb (bget (gactive st) i) && sneqb (sabs (vget (ghi st) i)) szero in
    Ret (set_glo (vtab nr (fun i => if act i then vget (ghi st) i else vget (glo st) i))
        (set_gactive (vtab nr (fun i => if act i then true else bget (gactive st) i)) st))
  else Ret st.

(** The second Zip of r_check2, src/impl_r_check.rs 180-197: fold with early
    exit.  Returns the arrays iroots and glo as far as they were updated,
    whether the fold stopped early (close roots), and whether a new zero was
    found. *)
Fixpoint close_scan (is : list nat) (ga : list bool) (gh : list T)
         (ir gl : list T) (zroot : bool) : list T * list T * bool * bool :=
  match is with
  | [] => (ir, gl, false, zroot)
  | i :: tl =>
      if bget ga i then
        if (sabs (vget gh i) =? szero)%sc then
          if (szero <? vget ir i)%sc then (ir, gl, true, false)
          else close_scan tl ga gh (upd ir i sone) gl true
        else if (szero <? vget ir i)%sc
             then close_scan tl ga gh ir (upd gl i (vget gh i)) zroot
             else close_scan tl ga gh ir gl zroot
      else close_scan tl ga gh ir gl zroot
  end.

(** [Ida::r_check2], src/impl_r_check.rs 117-209.  The results of the inner
    get_solution calls are dropped as in the code. *)
Definition r_check2 (st : state) : outcome (state * result root_status (err T)) :=
  if negb (irfnd st) then Ret (st, Ok RootContinue)
  else
    let* (st, _) := get_solution prob st (tlo st) in
    let '(st, g) := call_root st (tlo st) (yy (nlp st)) (yp (nlp st)) in
    let st := set_nge (nge st + 1) (set_glo g st) in
    let isz i := bget (gactive st) i && (sabs (vget (glo st) i) =? szero)%sc in
    let zroot := existsb isz (seq 0 nr) in
    let st := set_iroots (vtab nr (fun i => if isz i then sone else szero)) st in
    if zroot then
      let st := set_ttol (root_ttol st) st in
      let smallh := (ttol st * ssignum (hh st))%sc in
      let tplus := (tlo st + smallh)%sc in
      let* st :=
        (if (szero <=? (tplus - tn (nlp st)) * hh st)%sc then
           let hratio := (smallh / hh st)%sc in
           let* p1 := aget (phi st) 1 in
           Ret (on_nlp (fun s => set_yy (vscaled_add n (yy s) hratio p1) s) st)
         else
           let* (st, _) := get_solution prob st tplus in Ret st) in
      let '(st, g) := call_root st tplus (yy (nlp st)) (yp (nlp st)) in
      let st := set_nge (nge st + 1) (set_ghi g st) in
      let '(ir, gl, close, zr) :=
        close_scan (seq 0 nr) (gactive st) (ghi st) (iroots st) (glo st) false in
      let st := set_glo gl (set_iroots ir st) in
      if close then Ret (st, Err (EIda (CloseRoots (tlo st))))
      else if zr then Ret (st, Ok RootFound)
      else Ret (st, Ok RootContinue)
    else Ret (st, Ok RootContinue).

(** [NumCast::from(rootdir) * glo <= 0], src/impl_r_check.rs 362, 402, 497, 563. *)
Definition dir_ok (rd : list nat) (gl : list T) (i : nat) : bool :=
  (sofnat (nget rd i) * vget gl i <=? szero)%sc.

(** First scan of root_find, src/impl_r_check.rs 347-386, for [ghi]; the second
    scan, 483-519, for [grout] differs only in the initial [imax] and in how
    [else] is attached, see [scan2]. Result: (zroot, sgnchg, maxfrac, imax). *)
Definition scan1_body (ga : list bool) (rd : list nat) (gl gh : list T)
           (acc : bool * bool * T * nat) (i : nat) : bool * bool * T * nat :=
  let '(zroot, sgnchg, maxfrac, imax) := acc in
  if bget ga i then
    let neg := dir_ok rd gl i in
    if (sabs (vget gh i) =? szero)%sc then
      (if neg then true else zroot, sgnchg, maxfrac, imax)
    else if (vget gl i * vget gh i <? szero)%sc && neg then
      let gfrac := sabs (vget gh i / (vget gh i - vget gl i))%sc in
      if (maxfrac <? gfrac)%sc then (zroot, true, gfrac, i)
      else (zroot, sgnchg, maxfrac, imax)
    else (zroot, sgnchg, maxfrac, imax)
  else (zroot, sgnchg, maxfrac, imax).

Definition scan1 (ga : list bool) (rd : list nat) (gl gh : list T) : bool * bool * T * nat :=
  fold_left (scan1_body ga rd gl gh) (seq 0 nr) (false, false, szero, 0).

(** Second scan of root_find, src/impl_r_check.rs 483-519. *)
Definition scan2_body (ga : list bool) (rd : list nat) (gl go : list T)
           (acc : bool * bool * T * nat) (i : nat) : bool * bool * T * nat :=
  let '(zroot, sgnchg, maxfrac, imax) := acc in
  if bget ga i then
    let neg := dir_ok rd gl i in
    if (sabs (vget go i) =? szero)%sc && neg then (true, sgnchg, maxfrac, imax)
    else if (vget gl i * vget go i <? szero)%sc && neg then
      let gfrac := sabs (vget go i / (vget go i - vget gl i))%sc in
      if (maxfrac <? gfrac)%sc then (zroot, true, gfrac, i)
      else (zroot, sgnchg, maxfrac, imax)
    else (zroot, sgnchg, maxfrac, imax)
  else (zroot, sgnchg, maxfrac, imax).

Definition scan2 (ga : list bool) (rd : list nat) (gl go : list T) (imax : nat)
  : bool * bool * T * nat :=
  fold_left (scan2_body ga rd gl go) (seq 0 nr) (false, false, szero, imax).

(** The fractional inward adjustment, src/impl_r_check.rs 454-460, 463-469. *)
Definition fracsub (lo hi tol : T) : T :=
  let fracint := (sabs (hi - lo) / tol)%sc in
  if (sfive <? fracint)%sc then spt1 else (shalf / fracint)%sc.

(** Next abscissa, src/impl_r_check.rs 447-470. *)
Definition next_tmid (lo hi tol alph glm ghm : T) : T :=
  let tmid := (hi - (hi - lo) * ghm / (ghm - alph * glm))%sc in
  let tmid := if (sabs (tmid - lo) <? shalf * tol)%sc
              then (lo + fracsub lo hi tol * (hi - lo))%sc else tmid in
  if (sabs (hi - tmid) <? shalf * tol)%sc
  then (hi - fracsub lo hi tol * (hi - lo))%sc else tmid.

(** Illinois weight, src/impl_r_check.rs 435-443.  [sideprev] starts at -1,
    which equals no side: modelled as [None]. *)
Definition next_alph (alph : T) (sideprev : option nat) (side : nat) : T :=
  match sideprev with
  | Some sp => if sp =? side
               then (if side =? 2 then (alph * stwo)%sc else (alph * shalf)%sc)
               else sone
  | None => sone
  end.

(** The search loop, src/impl_r_check.rs 417-547. *)
Fixpoint root_loop (fuel : nat) (st : state) (alph : T) (sideprev : option nat)
         (side imax : nat) : outcome state :=
  match fuel with
  | 0 => Diverge
  | S fuel' =>
      if (sabs (thi st - tlo st) <=? ttol st)%sc then Ret st
      else
        let alph := next_alph alph sideprev side in
        let* ghm := aget (ghi st) imax in
        let* glm := aget (glo st) imax in
        let tmid := next_tmid (tlo st) (thi st) (ttol st) alph glm ghm in
        let* (st, _) := get_solution prob st tmid in
        let '(st, g) := call_root st tmid (yy (nlp st)) (yp (nlp st)) in
        let st := set_nge (nge st + 1) (set_grout g st) in
        let '(zroot, sgnchg, _, imax) :=
          scan2 (gactive st) (rootdir st) (glo st) (grout st) imax in
        if sgnchg then
          let st := set_ghi (grout st) (set_thi tmid st) in
          if (sabs (thi st - tlo st) <=? ttol st)%sc then Ret st
          else root_loop fuel' st alph (Some side) 1 imax
        else if zroot then Ret (set_ghi (grout st) (set_thi tmid st))
        else
          let st := set_glo (grout st) (set_tlo tmid st) in
          if (sabs (thi st - tlo st) <=? ttol st)%sc then Ret st
          else root_loop fuel' st alph (Some side) 2 imax
  end.

(** [Ida::root_find], src/impl_r_check.rs 343-576. *)
Definition root_find (fuel : nat) (st : state) : outcome (state * root_status) :=
  let '(zroot, sgnchg, _, imax) :=
    scan1 (gactive st) (rootdir st) (glo st) (ghi st) in
  if negb sgnchg then
    let st := set_grout (ghi st) (set_trout (thi st) st) in
    if negb zroot then Ret (st, RootContinue)
    else
      let ir i := if bget (gactive st) i
                     && ((sabs (vget (ghi st) i) =? szero)%sc && dir_ok (rootdir st) (glo st) i)
                  then ssignum (vget (glo st) i) else szero in
      Ret (set_iroots (vtab nr ir) st, RootFound)
  else
    let* st := root_loop fuel st sone None 0 imax in
    let st := set_grout (ghi st) (set_trout (thi st) st) in
    let ir i := if bget (gactive st) i
                   && (dir_ok (rootdir st) (glo st) i
                       && ((sabs (vget (ghi st) i) =? szero)%sc
                           || (vget (glo st) i * vget (ghi st) i <? szero)%sc))
                then ssignum (vget (glo st) i) else szero in
    Ret (set_iroots (vtab nr ir) st, RootFound).

(** [Ida::r_check3], src/impl_r_check.rs 221-271. *)
Definition r_check3 (fuel : nat) (st : state) : outcome (state * root_status) :=
  let hi := match taskc st with
            | OneStep => tn (nlp st)
            | Normal => if (szero <=? (toutc st - tn (nlp st)) * hh st)%sc
                        then tn (nlp st) else toutc st
            end in
  let st := set_thi hi st in
  let* (st, _) := get_solution prob st (thi st) in
  let '(st, g) := call_root st (thi st) (yy (nlp st)) (yp (nlp st)) in
  let st := set_nge (nge st + 1) (set_ghi g st) in
  let st := set_ttol (root_ttol st) st in
  let* (st, ier) := root_find fuel st in
  let st := set_gactive
              (vtab nr (fun i => if negb (bget (gactive st) i) && sneqb (vget (grout st) i) szero
                                 then true else bget (gactive st) i)) st in
  let st := set_glo (grout st) (set_tlo (trout st) st) in
  match ier with
  | RootFound => let* (st, _) := get_solution prob st (trout st) in Ret (st, ier)
  | RootContinue => Ret (st, ier)
  end.

End IdaRoots.
