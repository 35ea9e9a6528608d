(** * IdaKern: what an internal step depends on *)
Require Import List Arith Bool Lia.
Import ListNotations.
Require Import Verif.Base Verif.BaseFacts Verif.Scalar Verif.Norms Verif.Newton Verif.IdaState
  Verif.IdaNls Verif.IdaCore Verif.IdaFacts Verif.IdaLoops Verif.Units Verif.UnitsRel.
Open Scope nat_scope.

(** What is asked of a nonlinear solver: it works on the problem through the
    methods of the trait only, and the first of them is the residual.  [R0]
    relates the problem objects before that call, [R] afterwards. *)
Definition nls_natural (T NSt : Type) {NS : NLSolver T NSt} : Prop :=
  forall (S S' : Type) (P : nlproblem T S) (P' : nlproblem T S') (R0 R : S -> S' -> Prop),
  (forall x x' y, R0 x x' \/ R x x' ->
     orel (fun a a' => R (fst (fst a)) (fst (fst a')) /\ snd (fst a') = snd (fst a) /\ snd a' = snd a)
          (np_sys P x y) (np_sys P' x' y)) ->
  (forall x x' y r b, R x x' ->
     orel (fun a a' => R (fst a) (fst a') /\ snd a' = snd a) (np_setup P x y r b) (np_setup P' x' y r b)) ->
  (forall x x' y d, R x x' ->
     orel (fun a a' => R (fst (fst a)) (fst (fst a')) /\ snd (fst a') = snd (fst a) /\ snd a' = snd a)
          (np_solve P x y d) (np_solve P' x' y d)) ->
  (forall x x' m y d tol w, R x x' ->
     orel (fun a a' => R (fst a) (fst a') /\ snd a' = snd a)
          (np_ctest P x m y d tol w) (np_ctest P' x' m y d tol w)) ->
  forall size s x x' d y w tol call, R0 x x' ->
  orel (fun a a' => fst (fst (fst a')) = fst (fst (fst a)) /\ R (snd (fst (fst a))) (snd (fst (fst a'))) /\
                    snd (fst a') = snd (fst a) /\ snd a' = snd a)
       (nls_solve S P size s x d y w tol call) (nls_solve S' P' size s x' d y w tol call).

(** Newton is such a solver. *)
Section Newton.
Context {T : Type} `{Scalar T} {S S' : Type}.
Variables (P : nlproblem T S) (P' : nlproblem T S') (R0 R : S -> S' -> Prop) (dim : nat).
Hypothesis Hsys : forall x x' y, R0 x x' \/ R x x' ->
  orel (fun a a' => R (fst (fst a)) (fst (fst a')) /\ snd (fst a') = snd (fst a) /\ snd a' = snd a)
       (np_sys P x y) (np_sys P' x' y).
Hypothesis Hsetup : forall x x' y r b, R x x' ->
  orel (fun a a' => R (fst a) (fst a') /\ snd a' = snd a) (np_setup P x y r b) (np_setup P' x' y r b).
Hypothesis Hsolve : forall x x' y d, R x x' ->
  orel (fun a a' => R (fst (fst a)) (fst (fst a')) /\ snd (fst a') = snd (fst a) /\ snd a' = snd a)
       (np_solve P x y d) (np_solve P' x' y d).
Hypothesis Hctest : forall x x' m y d tol w, R x x' ->
  orel (fun a a' => R (fst a) (fst a') /\ snd a' = snd a)
       (np_ctest P x m y d tol w) (np_ctest P' x' m y d tol w).

Let Q (a : newton T * S * list T * result unit nlerr) (a' : newton T * S' * list T * result unit nlerr) : Prop :=
  fst (fst (fst a')) = fst (fst (fst a)) /\ R (snd (fst (fst a))) (snd (fst (fst a'))) /\
  snd (fst a') = snd (fst a) /\ snd a' = snd a.

Lemma inner_natural w tol fuel : forall nw s s' y, R s s' ->
  orel Q (inner_loop P dim fuel w tol nw s y) (inner_loop P' dim fuel w tol nw s' y).
Proof.
  induction fuel as [|fuel IH]; intros nw s s' y Hs; cbn [inner_loop]; [exact I|].
  eapply orel_bind; [apply Hsolve; exact Hs|].
  intros [[a d] r] [[a' d'] r'] (Ha & Ed & Er). cbn in Ha, Ed, Er. subst d' r'.
  destruct r as [u|e]; [|repeat split; exact Ha].
  eapply orel_bind; [apply Hctest; exact Ha|].
  intros [b r] [b' r'] (Hb & Er). cbn in Hb, Er. subst r'.
  destruct r as [[|]|e]; [repeat split; exact Hb| |repeat split; exact Hb].
  match goal with |- context [if ?c then _ else _] => destruct c end; [repeat split; exact Hb|].
  eapply orel_bind; [apply Hsys; right; exact Hb|].
  intros [[c d'] r] [[c' d''] r'] (Hc & Ed & Er). cbn in Hc, Ed, Er. subst d'' r'.
  destruct r as [u'|e]; [|repeat split; exact Hc]. apply IH. exact Hc.
Qed.

Lemma attempt_natural y0 w tol call jbad nw s s' y : R0 s s' \/ R s s' ->
  orel Q (attempt P dim y0 w tol call jbad nw s y) (attempt P' dim y0 w tol call jbad nw s' y).
Proof.
  intros Hs. unfold attempt. eapply orel_bind; [apply Hsys; exact Hs|].
  intros [[a d] r] [[a' d'] r'] (Ha & Ed & Er). cbn in Ha, Ed, Er. subst d' r'.
  destruct r as [u|e]; [|repeat split; exact Ha].
  eapply orel_bind with (P := fun a a' => fst (fst a') = fst (fst a) /\ R (snd (fst a)) (snd (fst a')) /\ snd a' = snd a).
  - destruct call; [|repeat split; exact Ha].
    eapply orel_bind; [apply Hsetup; exact Ha|].
    intros [b r] [b' r'] (Hb & Er). cbn in Hb, Er. subst r'. destruct r; repeat split; exact Hb.
  - intros [[n1 b] r] [[n2 b'] r'] (En & Hb & Er). cbn in En, Hb, Er. subst n2 r'.
    destruct r as [u'|e]; [|repeat split; exact Hb]. apply inner_natural. exact Hb.
Qed.

Lemma outer_natural y0 w tol fuel : forall call jbad nw s s' y, R0 s s' \/ R s s' ->
  orel Q (outer_loop P dim fuel y0 w tol call jbad nw s y) (outer_loop P' dim fuel y0 w tol call jbad nw s' y).
Proof.
  induction fuel as [|fuel IH]; intros call jbad nw s s' y Hs; cbn [outer_loop]; [exact I|].
  eapply orel_bind; [apply attempt_natural; exact Hs|].
  intros [[[n1 a] y1] r] [[[n2 a'] y2] r'] (En & Ha & Ey & Er). cbn in En, Ha, Ey, Er. subst n2 y2 r'.
  destruct r as [u|[]]; try (repeat split; exact Ha).
  destruct (negb (nw_jcur n1)); apply IH; right; exact Ha.
Qed.
End Newton.

Lemma newton_natural {T} `{Scalar T} fuel : @nls_natural T (newton T) (NewtonNLS fuel).
Proof.
  intros S S' P P' R0 R A B C D size s x x' d y w tol call Hx.
  exact (outer_natural P P' R0 R size A B C D d w tol fuel call false s x x' y (or_introl Hx)).
Qed.

Section Kern.
Context {T LSt NSt : Type} `{Scalar T} `{LSolver T LSt} `{NLSolver T NSt}.
Variable prob : problem T.
Hypothesis Hn : nls_natural T NSt.

Notation n := (model_size prob).
Notation state := (ida T LSt NSt).

(** ** States that differ only in what a step does not read

    [put b o st] is [st] with the output vectors ([yy], [yp], unless [b]), the
    interpolation scratch, the root-finding data, the bookkeeping of [solve]
    and of the performance monitor of [o]; its trace is that of [st] on top of
    that of [o]. *)

Definition putl (o l : lprob T LSt) : lprob T LSt :=
  mklprob (lp_ls l) (lp_matj l) (lp_x l) (lp_sqrtn l) (lp_eplifac l) (nje l) (nli l) (ncfl l)
    (nst0 o) (nni0 o) (ncfn0 o) (ncfl0 o) (nwarn o) (cj l) (cjold l) (cjratio l) (trace l ++ trace o).
Definition putn (b : bool) (o s : nlprob T LSt) : nlprob T LSt :=
  mknlprob (if b then yy s else yy o) (if b then yp s else yp o) (yypredict s) (yppredict s) (ewt s) (savres s) (tn s)
    (ss s) (oldnrm s) (toldel s) (nre s) (nsetups s) (putl (lp o) (lp s)).
Definition put (b : bool) (o st : state) : state :=
  mkida
    (setup_done st) (constraints_set st) (suppressalg st) (phi st) (psi st) (alpha st) (beta st)
    (sigma st) (gamma st) (delta st) (idv st) (ee st) (tstop st) (kk st) (kused st)
    (knew st) (phase st) (ns st) (hin o) (h0u st) (hh st) (hused st) (rr st) (tretlast o)
    (cjlast st) (eps_newt st) (epcon st) (maxncf st) (maxnef st) (maxord st) (mxstep o)
    (hmax_inv st) (nst st) (ncfn st) (netf st) (nni o) (cvals o) (dvals o) (tolsf o) (nrtfn o)
    (iroots o) (rootdir o) (tlo o) (thi o) (trout o) (glo o) (ghi o) (grout o) (toutc o)
    (ttol o) (taskc o) (irfnd o) (nge o) (gactive o) (mxgnull o) (nls st) (putn b (nlp o) (nlp st)).

Variable tl : list (event T).

Definition over (b : bool) (s s' : state) : Prop :=
  exists o, s' = put b o s /\ trace (lp (nlp o)) = tl /\ length (cvals o) = length (cvals s).

Lemma over_weak b s s' : over b s s' -> over false s s'.
Proof.
  intros (o & E & Et & El). destruct b; [|exists o; auto].
  exists (on_nlp (fun s1 => set_yp (yp (nlp s)) (set_yy (yy (nlp s)) s1)) o). split; [exact E|]. auto.
Qed.

(** Functions that neither read nor write any of it. *)
Definition lift {X} (b : bool) (o : state) (r : outcome (state * X)) : outcome (state * X) :=
  let* (s, x) := r in Ret (put b o s, x).

(** Such a function takes related states to related states. *)
Lemma self_put (s : state) : put true (on_lp (set_trace []) s) s = s.
Proof. destruct s as [? ? ? ? ? ? ? ? ? ? ? ? ? ? ? ? ? ? ? ? ? ? ? ? ? ? ? ? ? ? ? ? ? ? ? ? ? ? ? ? ? ? ? ? ? ? ? ? ? ? ? ? ? ? ? ? [? ? ? ? ? ? ? ? ? ? ? ? [? ? ? ? ? ? ? ? ? ? ? ? ? ? ? ? tr]]].
  unfold put, putn, putl. cbn. rewrite app_nil_r. reflexivity.
Qed.

Lemma over_fun1 (f : state -> outcome state) :
  (forall b o s, f (put b o s) = let* s1 := f s in Ret (put b o s1)) ->
  forall b s s', over b s s' -> orel (over b) (f s) (f s').
Proof.
  intros Hf b s s' (o & -> & Et & El). rewrite Hf.
  pose proof (Hf true (on_lp (set_trace []) s) s) as E. rewrite self_put in E.
  destruct (f s) as [s1| |]; cbn in E |- *; auto.
  exists o. split; [reflexivity|]. split; [exact Et|]. injection E as E. rewrite E. exact El.
Qed.

Lemma over_fun2 {X} (f : state -> outcome (state * X)) :
  (forall b o s, f (put b o s) = lift b o (f s)) ->
  forall b s s', over b s s' -> orel (fun a a' => over b (fst a) (fst a') /\ snd a' = snd a) (f s) (f s').
Proof.
  intros Hf b s s' (o & -> & Et & El). rewrite Hf.
  pose proof (Hf true (on_lp (set_trace []) s) s) as E. rewrite self_put in E.
  destruct (f s) as [[s1 x]| |]; cbn in E |- *; auto. split; [|reflexivity].
  exists o. split; [reflexivity|]. split; [exact Et|]. injection E as E. rewrite E. exact El.
Qed.

Lemma over_fun4 {X Y Z} (f : state -> outcome (state * X * Y * Z)) :
  (forall b o s, f (put b o s) = let* (s1, x, y, z) := f s in Ret (put b o s1, x, y, z)) ->
  forall b s s', over b s s' ->
  orel (fun a a' => over b (fst (fst (fst a))) (fst (fst (fst a'))) /\ snd (fst (fst a')) = snd (fst (fst a)) /\
     snd (fst a') = snd (fst a) /\ snd a' = snd a) (f s) (f s').
Proof.
  intros Hf b s s' (o & -> & Et & El). rewrite Hf.
  pose proof (Hf true (on_lp (set_trace []) s) s) as E. rewrite self_put in E.
  destruct (f s) as [[[[s1 x] y] z]| |]; cbn in E |- *; auto. split; [|auto].
  exists o. split; [reflexivity|]. split; [exact Et|]. injection E as E. rewrite E. exact El.
Qed.

Ltac go1 := match goal with
  | |- context [bind (aget ?l ?i) _] => destruct (aget l i) eqn:?
  | |- context [bind (aset ?l ?i ?v) _] => destruct (aset l i v) eqn:?
  | |- context [bind (for_range ?a ?b ?f ?s) _] => destruct (for_range a b f s) eqn:?
  | |- context [bind (slice_chk ?a ?b ?c) _] => destruct (slice_chk a b c) eqn:?
  | |- context [bind (usub ?a ?b) _] => destruct (usub a b) eqn:?
  end; cbn [bind]; try reflexivity.

Lemma bump_put b o s : bump_ns (put b o s) = put b o (bump_ns s).
Proof.
  unfold bump_ns. cbn [hh hused kk kused put].
  destruct (sneqb (hh s) (hused s) || negb (kk s =? kused s)); reflexivity.
Qed.

Lemma coeffs_put b o s : compute_coeffs (put b o s) = let* s1 := compute_coeffs s in Ret (put b o s1).
Proof.
  unfold compute_coeffs. cbn [ns kk beta alpha gamma sigma psi hh put].
  destruct (ns s <=? kk s + 1); [|reflexivity].
  do 4 go1. go1. destruct a3 as [[[[[ps be] al] sg] ga] t1]. cbn [bind].
  go1.
Qed.

Lemma leading_put b o s : leading_coeff (put b o s) = lift b o (leading_coeff s).
Proof.
  unfold leading_coeff, lift. cbn [kk alpha put]. go1. destruct a as [al a0]. cbn [bind].
  cbn [alpha kk set_cjlast on_lp on_nlp set_nlp put]. go1.
Qed.

Lemma scale_put b o s : scale_phi prob (put b o s) = let* s1 := scale_phi prob s in Ret (put b o s1).
Proof.
  unfold scale_phi. cbn [kk ns phi beta put]. destruct (ns s <=? kk s); [|reflexivity].
  destruct (scale_rows prob (beta s) (ns s) (kk s + 1) (phi s)); reflexivity.
Qed.

Lemma set_coeffs_put b o s : set_coeffs prob (put b o s) = lift b o (set_coeffs prob s).
Proof.
  unfold set_coeffs. rewrite bump_put, coeffs_put. unfold lift.
  destruct (compute_coeffs (bump_ns s)) as [s1| |]; cbn [bind]; try reflexivity.
  rewrite leading_put. unfold lift. destruct (leading_coeff s1) as [[s2 ck]| |]; cbn [bind]; try reflexivity.
  rewrite scale_put. destruct (scale_phi prob s2); reflexivity.
Qed.

Lemma predict_put b o s : predict prob (put b o s) = let* s1 := predict prob s in Ret (put b o s1).
Proof. unfold predict. cbn [kk phi gamma put]. do 4 go1. Qed.

Lemma advance_put b o s : advance_tn (put b o s) = put b o (advance_tn s).
Proof.
  unfold advance_tn. cbn [hh tstop nlp on_nlp set_nlp put putn tn set_tn].
  destruct (tstop s) as [ts|]; [|reflexivity].
  match goal with |- context [if ?c then _ else _] => destruct c end; reflexivity.
Qed.

Lemma prepare_put b o s : nls_prepare (put b o s) = (put b o (fst (nls_prepare s)), snd (nls_prepare s)).
Proof.
  unfold nls_prepare. change (nst (put b o s)) with (nst s).
  destruct (nst s =? 0); cbn [fst snd]; cbn -[srecip sxrate_lo sneqb];
  match goal with |- context [if ?c then on_nlp _ _ else _] => destruct c end; reflexivity.
Qed.

Lemma test_error_put b o s ck : test_error prob (put b o s) ck =
  let* (s1, e, e1, r) := test_error prob s ck in Ret (put b o s1, e, e1, r).
Proof.
  unfold test_error. cbn [kk sigma idv ee suppressalg nlp ewt put putn phi].
  go1. destruct (1 <? kk s).
  - go1. cbn [delta set_delta idv suppressalg kk sigma phi put]. go1. destruct (2 <? kk s).
    + go1. cbn [set_delta delta idv suppressalg put kk sigma phi]. go1. destruct (ck * _ <=? sone)%sc; reflexivity.
    + cbn [bind]. destruct (ck * _ <=? sone)%sc; reflexivity.
  - cbn [bind]. destruct (ck * _ <=? sone)%sc; reflexivity.
Qed.

Lemma reset_put b o s : reset prob (put b o s) = let* s1 := reset prob s in Ret (put b o s1).
Proof. unfold reset. cbn [psi hh phi rr put]. go1. Qed.

Lemma handle_put b o s e ek ek1 ncf nef : handle_n_flag (put b o s) e ek ek1 ncf nef =
  let* (s1, a, b1, r) := handle_n_flag s e ek ek1 ncf nef in Ret (put b o s1, a, b1, r).
Proof.
  unfold handle_n_flag. destruct e as [[]| |]; try reflexivity.
  - destruct (nef + 1 =? 1); [reflexivity|]. destruct (nef + 1 =? 2); [reflexivity|].
    change (maxnef (set_netf (netf (set_phase 1 (put b o s)) + 1) (set_phase 1 (put b o s)))) with (maxnef s).
    change (maxnef (set_netf (netf (set_phase 1 s) + 1) (set_phase 1 s))) with (maxnef s).
    destruct (nef + 1 <? maxnef s); reflexivity.
  - destruct r; cbn -[Nat.ltb]; destruct (ncf + 1 <? maxncf s); reflexivity.
Qed.

Lemma choose_order_put b o s ek ek1 kd : choose_order prob (put b o s) ek ek1 kd = choose_order prob s ek ek1 kd.
Proof. reflexivity. Qed.

Lemma doubled_put b o s : doubled (put b o s) = doubled s.
Proof. reflexivity. Qed.

Lemma choose_step_put b o s act ek ek1 ek2 : choose_step (put b o s) act ek ek1 ek2 =
  let* s1 := choose_step s act ek ek1 ek2 in Ret (put b o s1).
Proof.
  unfold choose_step. destruct act; cbn [bind kk put].
  - destruct (usub (kk s) 1) as [k| |]; cbn [bind]; try reflexivity.
    cbn [rr set_rr set_kk kk put]. destruct (stwo <=? _)%sc; [reflexivity|].
    destruct (_ <=? sone)%sc; reflexivity.
  - cbn [rr set_rr set_kk kk put]. destruct (stwo <=? _)%sc; [reflexivity|].
    destruct (_ <=? sone)%sc; reflexivity.
  - cbn [rr set_rr set_kk kk put]. destruct (stwo <=? _)%sc; [reflexivity|].
    destruct (_ <=? sone)%sc; reflexivity.
Qed.

Lemma update_phi_put b o s : update_phi prob (put b o s) = let* s1 := update_phi prob s in Ret (put b o s1).
Proof.
  unfold update_phi. cbn [kused maxord phi ee put].
  destruct (if kused s <? maxord s then aset (phi s) (kused s + 1) (ee s) else Ret (phi s)) as [ph| |];
    cbn [bind]; try reflexivity.
  go1.
  match goal with |- context [bind (for_range_rev ?a ?b ?f ?s) _] => destruct (for_range_rev a b f s) as [[]| |] end;
    reflexivity.
Qed.

Lemma complete_put b o s ek ek1 : complete_step prob (put b o s) ek ek1 =
  let* s1 := complete_step prob s ek ek1 in Ret (put b o s1).
Proof.
  unfold complete_step.
  set (s1 := set_hused (hh (set_nst (nst s + 1) s)) (set_kused (kk (set_nst (nst s + 1) s)) (set_nst (nst s + 1) s))).
  change (set_hused (hh (set_nst (nst (put b o s) + 1) (put b o s)))
     (set_kused (kk (set_nst (nst (put b o s) + 1) (put b o s))) (set_nst (nst (put b o s) + 1) (put b o s))))
    with (put b o s1).
  change (kk (set_nst (nst (put b o s) + 1) (put b o s))) with (kk s).
  change (kused (set_nst (nst (put b o s) + 1) (put b o s))) with (kused s).
  change (kk (set_nst (nst s + 1) s)) with (kk s).
  change (kused (set_nst (nst s + 1) s)) with (kused s).
  change (kk (put b o s1)) with (kk s1). change (knew (put b o s1)) with (knew s1).
  change (maxord (put b o s1)) with (maxord s1).
  destruct (usub (kk s1) 1) as [km1| |]; cbn [bind]; try reflexivity.
  replace (if (knew s1 =? km1) || (kk s1 =? maxord s1) then set_phase 1 (put b o s1) else put b o s1)
    with (put b o (if (knew s1 =? km1) || (kk s1 =? maxord s1) then set_phase 1 s1 else s1))
    by (destruct ((knew s1 =? km1) || (kk s1 =? maxord s1)); reflexivity).
  set (s2 := if (knew s1 =? km1) || (kk s1 =? maxord s1) then set_phase 1 s1 else s1). clearbody s2. clear s1.
  change (phase (put b o s2)) with (phase s2). change (nst (put b o s2)) with (nst s2).
  destruct (phase s2 =? 0).
  - destruct (1 <? nst s2); cbn [bind].
    + change (set_hh (doubled (set_kk (kk (put b o s2) + 1) (put b o s2))) (set_kk (kk (put b o s2) + 1) (put b o s2)))
        with (put b o (set_hh (doubled (set_kk (kk s2 + 1) s2)) (set_kk (kk s2 + 1) s2))).
      apply update_phi_put.
    + apply update_phi_put.
  - rewrite choose_order_put. destruct (choose_order prob s2 ek ek1 (kk s =? kused s + 1)) as [[act e2]| |]; cbn [bind]; try reflexivity.
    rewrite choose_step_put. destruct (choose_step s2 act ek ek1 e2); cbn [bind]; try reflexivity.
    apply update_phi_put.
Qed.

Lemma init_put b o s : step_init (put b o s) = let* s1 := step_init s in Ret (put b o s1).
Proof.
  unfold step_init. cbn [nst psi hh put]. destruct (nst s =? 0); [|reflexivity]. go1.
Qed.

(** [restore] uses the interpolation scratch, but only as scratch. *)
Lemma aset_len {A} (l l' : list A) i v v' :
  length l' = length l -> orel (fun a a' => length a' = length a) (aset l i v) (aset l' i v').
Proof.
  intros E. unfold aset. rewrite E. destruct (i <? length l); cbn; [|exact I].
  rewrite !UnitsRel.upd_length. exact E.
Qed.

Lemma aset_len1 {A} (l : list A) i v l1 : aset l i v = Ret l1 -> length l1 = length l.
Proof.
  unfold aset. destruct (i <? length l); intros E; [|discriminate]. injection E as <-. apply UnitsRel.upd_length.
Qed.

Lemma restore_cv (be : list T) lo m (cv cv' : list T) : length cv' = length cv ->
  orel (fun a a' => length a' = length a /\ length a = length cv /\ forall i, i < m -> aget a' i = aget a i)
    (for_range 0 m (fun i cv => let* b := aget be (lo + i) in aset cv i (srecip b)) cv)
    (for_range 0 m (fun i cv => let* b := aget be (lo + i) in aset cv i (srecip b)) cv').
Proof.
  intros E.
  apply (for_range_rel_i (fun j a a' => length a' = length a /\ length a = length cv /\
    forall i, i < j -> aget a' i = aget a i)); [lia| |repeat split; [exact E|lia]].
  intros i a a' Hi (E1 & E2 & E3). destruct (aget be (lo + i)) as [x| |]; cbn [bind]; try exact I.
  unfold aset. rewrite E1. destruct (Nat.ltb_spec i (length a)) as [L|L]; cbn; [|exact I].
  rewrite !UnitsRel.upd_length. repeat split; [exact E1|exact E2|].
  intros j Hj. destruct (Nat.eq_dec j i) as [->|Hji].
  - rewrite !(aget_ret _ _ szero) by (rewrite UnitsRel.upd_length; lia). rewrite !nth_upd_eq by lia. reflexivity.
  - specialize (E3 j ltac:(lia)).
    destruct (Nat.lt_ge_cases j (length a)) as [Lj|Lj].
    + rewrite !(aget_ret _ _ szero) in E3 by lia. injection E3 as E3.
      rewrite !(aget_ret _ _ szero) by (rewrite UnitsRel.upd_length; lia). rewrite !nth_upd_neq by lia. rewrite E3. reflexivity.
    + lia.
Qed.

Lemma restore_over b s s' t : over b s s' -> orel (over b) (restore prob s t) (restore prob s' t).
Proof.
  intros (o & -> & Et & El). unfold restore. cbn [kk ns psi hh beta phi cvals on_nlp set_nlp put set_psi].
  set (rp := for_range 1 (kk s + 1) _ (psi s)). destruct rp as [ps| |]; cbn [bind]; try exact I.
  cbn [kk ns psi hh beta phi cvals on_nlp set_nlp put set_psi set_cvals].
  destruct (ns s <=? kk s).
  - rewrite El. destruct (slice_chk 0 (kk s - ns s + 1) (length (cvals s))); cbn [bind]; try exact I.
    destruct (slice_chk (ns s) (kk s + 1) (length (beta s))); cbn [bind]; try exact I.
    eapply orel_bind; [apply restore_cv; exact El|]. intros cv cv' (E1 & E2 & E3).
    cbn [kk ns psi hh beta phi cvals on_nlp set_nlp put set_psi set_cvals].
    destruct (slice_chk (ns s) (kk s + 1) (length (phi s))); cbn [bind]; try exact I.
    eapply orel_bind with (P := eq).
    + assert (forall ph, orel eq
        (for_range (ns s) (kk s + 1) (fun i ph => let* c := aget cv (i - ns s) in let* p := aget ph i in aset ph i (vscale n c p)) ph)
        (for_range (ns s) (kk s + 1) (fun i ph => let* c := aget cv' (i - ns s) in let* p := aget ph i in aset ph i (vscale n c p)) ph)) as X.
      { intros ph. apply for_range_rel; [|reflexivity]. intros i p1 p2 Hi <-. rewrite E3 by lia. apply orel_eq. }
      apply X.
    + intros ph ph' <-. cbn [orel]. exists (set_cvals cv' o). split; [reflexivity|]. split; [exact Et|].
      exact E1.
  - cbn. exists o. split; [reflexivity|]. split; [exact Et|]. exact El.
Qed.

(** The nonlinear solver sees the problem only through its methods, and the
    first one it calls overwrites the output vectors. *)
Definition ovn (b : bool) (x x' : nlprob T LSt) : Prop :=
  exists o, x' = putn b o x /\ trace (lp o) = tl.

Lemma ovn_sys b x x' y : ovn b x x' ->
  orel (fun a a' => ovn true (fst (fst a)) (fst (fst a')) /\ snd (fst a') = snd (fst a) /\ snd a' = snd a)
       (nlp_sys prob x y) (nlp_sys prob x' y).
Proof. intros (o & -> & Et). cbn. split; [|split; reflexivity]. exists o. split; [reflexivity|exact Et]. Qed.

Lemma lp_setup_put o (l : lprob T LSt) y ypv r :
  lp_setup prob (putl o l) y ypv r = let* l1 := lp_setup prob l y ypv r in Ret (putl o l1).
Proof.
  unfold lp_setup. destruct (n =? 0).
  - cbn [lp_ls lp_matj putl]. destruct (ls_setup (lp_ls l) (lp_matj l)) as [[[ls m] res]| |]; cbn [bind]; try reflexivity.
    destruct res; reflexivity.
  - cbn [lp_ls lp_matj putl push_ev set_nje set_trace set_lp_matj nje cj trace].
    match goal with |- context [ls_setup ?a ?b] => destruct (ls_setup a b) as [[[ls m] res]| |] end; cbn [bind]; try reflexivity.
    destruct res; reflexivity.
Qed.

Lemma ovn_setup x x' y r b : ovn true x x' ->
  orel (fun a a' => ovn true (fst a) (fst a') /\ snd a' = snd a) (nlp_setup prob x y r b) (nlp_setup prob x' y r b).
Proof.
  intros (o & -> & Et). unfold nlp_setup. cbn [lp yy yp set_nsetups putn]. rewrite lp_setup_put.
  destruct (lp_setup prob (lp x) (yy x) (yp x) r) as [l| |]; cbn [bind]; try exact I.
  split; [|reflexivity]. exists o. split; [reflexivity|exact Et].
Qed.

Lemma lp_solve_put o (l : lprob T LSt) b :
  lp_solve prob (putl o l) b = let* (l1, x) := lp_solve prob l b in Ret (putl o l1, x).
Proof.
  unfold lp_solve. cbn [lp_ls lp_matj lp_x lp_sqrtn lp_eplifac putl set_lp_x].
  match goal with |- context [ls_solve ?a ?b ?c ?d ?e] => destruct (ls_solve a b c d e) as [[x rv]| |] end; cbn [bind]; try reflexivity.
  destruct (ls_type (lp_ls l)), rv; reflexivity.
Qed.

Lemma ovn_solve x x' y d : ovn true x x' ->
  orel (fun a a' => ovn true (fst (fst a)) (fst (fst a')) /\ snd (fst a') = snd (fst a) /\ snd a' = snd a)
       (nlp_solve prob x y d) (nlp_solve prob x' y d).
Proof.
  intros (o & -> & Et). unfold nlp_solve. cbn [lp putn]. rewrite lp_solve_put.
  destruct (lp_solve prob (lp x) d) as [[l v]| |]; cbn [bind]; try exact I.
  split; [|split; reflexivity]. exists o. split; [reflexivity|exact Et].
Qed.

Lemma ovn_ctest x x' m y d tol w : ovn true x x' ->
  orel (fun a a' => ovn true (fst a) (fst a') /\ snd a' = snd a)
       (nlp_ctest x m y d tol w) (nlp_ctest x' m y d tol w).
Proof.
  intros (o & -> & Et). unfold nlp_ctest. cbn [toldel oldnrm ss set_oldnrm set_ss putn].
  destruct (m =? 0).
  - destruct (_ <=? _)%sc; (split; [|reflexivity]; exists o; split; [reflexivity|exact Et]).
  - destruct (_ <? _)%sc; (split; [|reflexivity]; exists o; split; [reflexivity|exact Et]).
Qed.

Lemma nonlinear_over b s s' : over b s s' ->
  orel (fun a a' => over true (fst a) (fst a') /\ snd a' = snd a \/
                    (exists e, snd a = Err e) /\ over false (fst a) (fst a') /\ snd a' = snd a)
       (nonlinear_solve prob s) (nonlinear_solve prob s').
Proof.
  intros (o & -> & Et & El). unfold nonlinear_solve. rewrite prepare_put.
  pose proof (prepare_put true (on_lp (set_trace []) s) s) as Es. rewrite self_put in Es.
  assert (cvals (fst (nls_prepare s)) = cvals s) as Ec by (rewrite Es at 1; reflexivity). clear Es.
  destruct (nls_prepare s) as [s1 call]. cbn [fst snd] in *.
  cbn [nls delta set_delta put].
  destruct (nls_setup (nls s1) (vzero n)) as [[[ns1 d] r]| |]; cbn [bind]; try exact I.
  destruct r as [u|e].
  2:{ right. split; [exists (ENls e); reflexivity|]. split; [|reflexivity]. apply over_weak with b.
      exists o. split; [reflexivity|]. split; [exact Et|]. cbn. rewrite Ec. exact El. }
  cbn [nls nlp delta ee eps_newt ewt set_delta set_nls put putn].
  eapply orel_bind.
  { apply (Hn _ _ _ _ (ovn b) (ovn true)).
    - intros x x' y [Hx|Hx]; eapply ovn_sys; exact Hx.
    - intros. apply ovn_setup. assumption.
    - intros. apply ovn_solve. assumption.
    - intros. apply ovn_ctest. assumption.
    - exists (nlp o). split; [reflexivity|exact Et]. }
  intros [[[s2 x] eev] r] [[[s2' x'] eev'] r'] (E1 & (q & Ex & Eq) & E2 & E3). cbn in E1, Ex, E2, E3. subst s2' x' eev' r'.
  cbn [constraints_set on_nlp set_nlp set_ee set_nls set_delta put].
  assert (over true (on_nlp (fun s => set_yp (vscaled_add n (yppredict s) (cj (lp s)) (ee (set_ee eev (set_nlp x (set_nls s2 (set_delta d (set_nls ns1 (set_delta (vzero n) s1)))))))) s)
       (on_nlp (fun s => set_yy (vadd n (yypredict s) (ee (set_ee eev (set_nlp x (set_nls s2 (set_delta d (set_nls ns1 (set_delta (vzero n) s1)))))))) s)
          (set_ee eev (set_nlp x (set_nls s2 (set_delta d (set_nls ns1 (set_delta (vzero n) s1))))))))
       (on_nlp (fun s => set_yp (vscaled_add n (yppredict s) (cj (lp s)) (ee (set_ee eev (set_nlp (putn true q x) (set_nls s2 (set_delta d (set_nls ns1 (set_delta (vzero n) (put b o s1))))))))) s)
       (on_nlp (fun s => set_yy (vadd n (yypredict s) (ee (set_ee eev (set_nlp (putn true q x) (set_nls s2 (set_delta d (set_nls ns1 (set_delta (vzero n) (put b o s1))))))))) s)
          (set_ee eev (set_nlp (putn true q x) (set_nls s2 (set_delta d (set_nls ns1 (set_delta (vzero n) (put b o s1)))))))))) as X.
  { exists (set_nlp q o). split; [reflexivity|]. split; [exact Eq|]. cbn. rewrite Ec. exact El. }
  destruct r as [u'|e]; [|left; split; [exact X|reflexivity]].
  destruct (constraints_set s1); [exact I|]. left. split; [exact X|reflexivity].
Qed.

(** One attempt, the attempt loop, and the step. *)
Lemma push_over b s s' e : over b s s' -> over b (on_lp (push_ev e) s) (on_lp (push_ev e) s').
Proof. intros (o & -> & Et & El). exists o. split; [reflexivity|]. split; [exact Et|exact El]. Qed.

Lemma over_tn b s s' : over b s s' -> tn (nlp s') = tn (nlp s) /\ hh s' = hh s /\ kk s' = kk s /\ nst s' = nst s /\
  phi s' = phi s /\ ewt (nlp s') = ewt (nlp s) /\ ee s' = ee s.
Proof. intros (o & -> & _). repeat split. Qed.

Lemma try_over b s s' : over b s s' ->
  orel (fun a a' => let '(s1, ck, e, e1, r) := a in let '(s2, ck', e', e1', r') := a' in
          ck' = ck /\ e' = e /\ e1' = e1 /\ r' = r /\
          (over true s1 s2 \/ (exists x, r = Err x) /\ over false s1 s2))
       (try_step prob s) (try_step prob s').
Proof.
  intros Hs. unfold try_step. pose proof (over_tn _ _ _ Hs) as (E1 & E2 & E3 & _). rewrite E1, E2, E3.
  eapply orel_bind; [apply (over_fun2 _ set_coeffs_put); apply push_over; exact Hs|].
  intros [s1 ck] [s2 ck'] (H1' & E). cbn in H1', E. subst ck'.
  eapply orel_bind; [apply (over_fun1 _ predict_put b)|].
  { destruct H1' as (o & -> & Et & El). rewrite advance_put. exists o. split; [reflexivity|]. split; [exact Et|].
    rewrite El. f_equal. unfold advance_tn. cbn. destruct (tstop s1) as [ts|]; [|reflexivity].
    destruct (_ <? _)%sc; reflexivity. }
  intros s3 s4 H2'. eapply orel_bind; [apply nonlinear_over with b; exact H2'|].
  intros [s5 r] [s6 r'] Hr. cbn [fst snd] in Hr.
  destruct Hr as [[H3 ->]|((e & ->) & H3 & ->)].
  - destruct r as [u|e]; [|cbn; auto 10].
    eapply orel_bind; [apply (over_fun4 _ (fun b o s => test_error_put b o s ck)); exact H3|].
    intros [[[s7 x] y] z] [[[s8 x'] y'] z'] (H4 & Ex & Ey & Ez). cbn in H4, Ex, Ey, Ez. subst. cbn. auto 10.
  - cbn. repeat split. right. split; [eauto|exact H3].
Qed.

Lemma attempt_over b s s' t ncf nef : over b s s' ->
  orel (fun a a' => let '(s1, c, m, r) := a in let '(s2, c', m', r') := a' in
          c' = c /\ m' = m /\ r' = r /\
          match r with Ok (Some _) => over true s1 s2 | _ => over false s1 s2 end)
       (attempt_step prob s t ncf nef) (attempt_step prob s' t ncf nef).
Proof.
  intros Hs. unfold attempt_step. eapply orel_bind; [apply try_over with b; exact Hs|].
  intros [[[[s1 ck] e] e1] r] [[[[s2 ck'] e'] e1'] r'] (-> & -> & -> & -> & Ho).
  destruct r as [u|x].
  - cbn. repeat split. destruct Ho as [Ho|((x & Ex) & _)]; [exact Ho|discriminate].
  - assert (over false s1 s2) as Ho2 by (destruct Ho as [Ho|(_ & Ho)]; [apply over_weak with true|]; exact Ho).
    eapply orel_bind; [apply restore_over; exact Ho2|]. intros s3 s4 H3.
    eapply orel_bind; [apply (over_fun4 _ (fun b o s => handle_put b o s x e e1 ncf nef)); exact H3|].
    intros [[[s5 c] m] z] [[[s6 c'] m'] z'] (H4 & Ex & Ey & Ez). cbn in H4, Ex, Ey, Ez. subst.
    destruct z as [u|z]; [|cbn; auto].
    pose proof (over_tn _ _ _ H4) as (_ & _ & _ & E4 & _). rewrite E4.
    eapply orel_bind with (P := over false).
    + destruct (nst s5 =? 0); [|exact H4]. apply (over_fun1 _ reset_put). exact H4.
    + intros s7 s8 H5. cbn. auto.
Qed.

Lemma loop_over t fuel : forall b s s' ncf nef, over b s s' ->
  orel (fun a a' => snd a' = snd a /\ match snd a with Ok _ => over true (fst a) (fst a') | Err _ => over false (fst a) (fst a') end)
       (step_loop prob fuel s t ncf nef) (step_loop prob fuel s' t ncf nef).
Proof.
  induction fuel as [|fuel IH]; intros b s s' ncf nef Hs; cbn [step_loop]; [exact I|].
  eapply orel_bind; [apply attempt_over with b; exact Hs|].
  intros [[[s1 c] m] r] [[[s2 c'] m'] r'] (-> & -> & -> & Ho).
  destruct r as [[x|]|e]; cbn; auto. apply IH with false. exact Ho.
Qed.

Lemma step_over b fuel s s' : over b s s' ->
  orel (fun a a' => snd a' = snd a /\ match snd a with Ok _ => over true (fst a) (fst a') | Err _ => over false (fst a) (fst a') end)
       (step prob fuel s) (step prob fuel s').
Proof.
  intros Hs. unfold step. pose proof (over_tn _ _ _ Hs) as (E1 & E2 & E3 & E4 & E5 & E6 & _).
  replace (begin_ev s') with (begin_ev s) by (unfold begin_ev; rewrite E5, E6; reflexivity). rewrite E1.
  eapply orel_bind; [apply (over_fun1 _ init_put b); apply push_over; exact Hs|].
  intros s1 s2 H2'. eapply orel_bind; [apply loop_over with b; exact H2'|].
  intros [s3 r] [s4 r'] (E & Ho). cbn [fst snd] in E, Ho. subst r'.
  destruct r as [[[ck e] e1]|x]; [|cbn; auto].
  eapply orel_bind; [apply (over_fun1 _ (fun b o s => complete_put b o s e e1)); exact Ho|].
  intros s5 s6 H3. cbn. split; [reflexivity|].
  destruct H3 as (o & -> & Et & El). exists o. split; [reflexivity|]. split; [exact Et|exact El].
Qed.

End Kern.
