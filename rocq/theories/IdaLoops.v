(** * IdaLoops: results of the loops in the step routines, for every scalar *)
Require Import List Arith Bool Lia.
Import ListNotations.
Require Import Verif.Base Verif.Scalar Verif.Norms Verif.Newton Verif.IdaState Verif.IdaNls
  Verif.IdaCore Verif.BaseFacts Verif.NewtonFacts Verif.IdaFacts.

(** A loop that rewrites entry [i] from its old value. *)
Lemma for_range_each {A} (g : nat -> A -> A) (d : A) lo hi (f : nat -> list A -> outcome (list A)) l :
  lo <= hi -> hi <= length l ->
  (forall i l', lo <= i < hi -> length l' = length l ->
     f i l' = Ret (upd l' i (g i (nth i l' d)))) ->
  exists l', for_range lo hi f l = Ret l' /\ length l' = length l /\
    (forall i, lo <= i < hi -> nth i l' d = g i (nth i l d)) /\
    (forall i, i < lo \/ hi <= i -> nth i l' d = nth i l d).
Proof.
  intros Hle Hlen Hf.
  destruct (for_range_total
    (fun k l' => length l' = length l /\
       (forall i, lo <= i < k -> nth i l' d = g i (nth i l d)) /\
       (forall i, i < lo \/ k <= i -> nth i l' d = nth i l d)) lo hi f l)
    as (l' & E & HP); auto.
  - split; [reflexivity|]. split; [intros; lia|auto].
  - intros i l1 Hi (Hl1 & Hn & Ho). rewrite Hf by auto. eexists; split; [reflexivity|].
    rewrite upd_length. split; [exact Hl1|]. split; intros j Hj.
    + destruct (Nat.eq_dec i j) as [<-|Hne].
      * rewrite nth_upd_eq by lia. rewrite Ho by lia. reflexivity.
      * rewrite nth_upd_neq by exact Hne. apply Hn. lia.
    + rewrite nth_upd_neq by lia. apply Ho. lia.
  - exists l'. split; [exact E|]. exact HP.
Qed.

Section Loops.
Context {T LSt NSt : Type} `{Scalar T} `{LSolver T LSt} `{NLSolver T NSt}.
Variable prob : problem T.
Notation n := (model_size prob).
Notation state := (ida T LSt NSt).

Definition row (ph : list (list T)) (j : nat) : list T := nth j ph [].

(** Lengths of the coefficient arrays (allocated by [Ida::new], src/lib.rs
    313-340). *)
Definition arrays (st : state) : Prop :=
  length (phi st) = 6 /\ length (psi st) = 6 /\ length (alpha st) = 6 /\
  length (beta st) = 6 /\ length (sigma st) = 6 /\ length (gamma st) = 6 /\
  length (cvals st) = 6 /\ length (dvals st) = 5.

(** The recurrences of [set_coeffs] for order [k], step [h] and old step
    history [ps]. *)
Definition coeffs (k : nat) (h : T) (ps ps' be al sg ga : list T) : Prop :=
  vget ps' 0 = h /\ vget be 0 = sone /\ vget al 0 = sone /\ vget sg 0 = sone /\ vget ga 0 = szero /\
  (forall i, 1 <= i <= k ->
     vget ps' i = (vget ps (i - 1) + h)%sc /\
     vget be i = (vget be (i - 1) * vget ps' (i - 1) / vget ps (i - 1))%sc /\
     vget al i = (h / vget ps' i)%sc /\
     vget sg i = (sofnat i * vget sg (i - 1) * vget al i)%sc /\
     vget ga i = (vget ga (i - 1) + vget al (i - 1) / h)%sc) /\
  (forall i, k < i -> vget ps' i = vget ps i).

Lemma coeff_loop_spec (k : nat) (h : T) ps be al sg ga :
  k <= 5 -> length ps = 6 -> length be = 6 -> length al = 6 -> length sg = 6 -> length ga = 6 ->
  vget be 0 = sone -> vget al 0 = sone -> vget sg 0 = sone -> vget ga 0 = szero ->
  exists ps' be' al' sg' ga' t1,
    for_range 1 (k + 1) (coeff_body h) (ps, be, al, sg, ga, h) = Ret (ps', be', al', sg', ga', t1) /\
    length ps' = 6 /\ length be' = 6 /\ length al' = 6 /\ length sg' = 6 /\ length ga' = 6 /\
    coeffs k h ps (upd ps' k t1) be' al' sg' ga'.
Proof.
  intros Hk Lp Lb La Ls Lg B0 A0 S0 G0.
  destruct (for_range_total
    (fun i '(ps', be', al', sg', ga', t1) =>
       length ps' = 6 /\ length be' = 6 /\ length al' = 6 /\ length sg' = 6 /\ length ga' = 6 /\
       (forall j, i <= j + 1 -> vget ps' j = vget ps j) /\
       coeffs (i - 1) h ps (upd ps' (i - 1) t1) be' al' sg' ga')
    1 (k + 1) (coeff_body h) (ps, be, al, sg, ga, h)) as (s' & E & HP); try lia.
  - repeat (split; [assumption|]). split; [auto|]. cbn [Nat.sub].
    unfold coeffs. rewrite !(fun l => eq_refl : vget l 0 = nth 0 l szero).
    split; [rewrite nth_upd_eq by lia; reflexivity|]. repeat (split; [assumption|]).
    split; [intros; lia|]. intros i Hi. unfold vget. rewrite nth_upd_neq by lia. reflexivity.
  - intros i (((((ps1 & be1) & al1) & sg1) & ga1) & t1) Hi
           (L1 & L2 & L3 & L4 & L5 & Hold & Hc).
    unfold coeff_body.
    rewrite (aget_ret ps1 (i - 1) szero) by lia. cbn [bind].
    rewrite aset_ret by lia. cbn [bind].
    rewrite (aget_ret be1 (i - 1) szero) by lia. cbn [bind].
    rewrite (aget_ret (upd ps1 (i - 1) t1) (i - 1) szero) by (rewrite upd_length; lia). cbn [bind].
    rewrite aset_ret by lia. cbn [bind].
    rewrite aset_ret by lia. cbn [bind].
    rewrite (aget_ret sg1 (i - 1) szero) by lia. cbn [bind].
    rewrite (aget_ret (upd al1 i _) i szero) by (rewrite upd_length; lia). cbn [bind].
    rewrite aset_ret by lia. cbn [bind].
    rewrite (aget_ret ga1 (i - 1) szero) by lia. cbn [bind].
    rewrite (aget_ret (upd al1 i _) (i - 1) szero) by (rewrite upd_length; lia). cbn [bind].
    rewrite aset_ret by lia. cbn [bind].
    eexists; split; [reflexivity|]. cbn beta iota. rewrite !upd_length.
    repeat (split; [assumption|]).
    split; [intros j Hj; unfold vget; rewrite nth_upd_neq by lia; apply (Hold j); lia|].
    replace (i + 1 - 1) with i by lia.
    destruct Hc as (C1 & C2 & C3 & C4 & C5 & C6 & C7). unfold coeffs, vget in *.
    assert (Hoi : nth (i - 1) ps1 szero = nth (i - 1) ps szero) by (apply Hold; lia).
    rewrite !nth_upd_neq with (i := i) (j := 0) by lia.
    repeat (split; [assumption|]). split.
    + intros j Hj. destruct (Nat.eq_dec j i) as [->|Hne].
      * rewrite !nth_upd_eq by (rewrite ?upd_length; lia).
        rewrite !nth_upd_neq with (i := i) (j := i - 1) by lia.
        rewrite !nth_upd_eq by (rewrite ?upd_length; lia).
        rewrite Hoi. repeat split.
      * rewrite !nth_upd_neq with (i := i) (j := j) by lia.
        rewrite !nth_upd_neq with (i := i) (j := j - 1) by lia.
        apply C6. lia.
    + intros j Hj. rewrite nth_upd_neq by lia. apply C7. lia.
  - destruct s' as (((((ps1 & be1) & al1) & sg1) & ga1) & t1).
    destruct HP as (L1 & L2 & L3 & L4 & L5 & _ & Hc).
    replace (k + 1 - 1) with k in Hc by lia.
    exists ps1, be1, al1, sg1, ga1, t1. auto 10.
Qed.

Lemma compute_coeffs_spec (st : state) :
  arrays st -> kk st <= 5 ->
  exists ps be al sg ga,
    compute_coeffs st = Ret (set_gamma ga (set_sigma sg (set_alpha al (set_beta be (set_psi ps st))))) /\
    length ps = 6 /\ length be = 6 /\ length al = 6 /\ length sg = 6 /\ length ga = 6 /\
    (ns st <= kk st + 1 -> coeffs (kk st) (hh st) (psi st) ps be al sg ga) /\
    (kk st + 1 < ns st -> ps = psi st /\ be = beta st /\ al = alpha st /\ sg = sigma st /\ ga = gamma st).
Proof.
  intros (L1 & L2 & L3 & L4 & L5 & L6 & _) Hk. unfold compute_coeffs.
  destruct (Nat.leb_spec (ns st) (kk st + 1)) as [Hn|Hn].
  - rewrite !aset_ret by lia. cbn [bind].
    destruct (coeff_loop_spec (kk st) (hh st) (psi st) (upd (beta st) 0 sone) (upd (alpha st) 0 sone)
      (upd (sigma st) 0 sone) (upd (gamma st) 0 szero)) as
      (ps & be & al & sg & ga & t1 & E & M1 & M2 & M3 & M4 & M5 & Hc);
      rewrite ?upd_length; auto; try (unfold vget; rewrite nth_upd_eq by lia; reflexivity).
    rewrite E. cbn [bind]. rewrite aset_ret by lia. cbn [bind].
    exists (upd ps (kk st) t1), be, al, sg, ga. rewrite upd_length.
    split; [reflexivity|]. do 5 (split; [assumption|]). split; [auto|lia].
  - exists (psi st), (beta st), (alpha st), (sigma st), (gamma st).
    split; [destruct st; reflexivity|]. do 5 (split; [assumption|]). split; [lia|auto].
Qed.

(** -(1 + 1/2 + ... + 1/k) as accumulated by the code, and -(alpha_0 + ...). *)
Fixpoint asum (k : nat) : T :=
  match k with 0 => szero | S i => (asum i - sone / sofnat (i + 1))%sc end.
Fixpoint a0sum (al : list T) (k : nat) : T :=
  match k with 0 => szero | S i => (a0sum al i - vget al i)%sc end.

Lemma leading_coeff_spec (st : state) :
  arrays st -> kk st <= 5 ->
  leading_coeff st =
    Ret (on_lp (set_cj (- asum (kk st) / hh st)%sc) (set_cjlast (cj (lp (nlp st))) st),
         smax (sabs (vget (alpha st) (kk st) + asum (kk st) - a0sum (alpha st) (kk st))%sc)
              (vget (alpha st) (kk st))).
Proof.
  intros (L1 & L2 & L3 & _) Hk. unfold leading_coeff.
  destruct (for_range_total (fun i p => p = (asum i, a0sum (alpha st) i)) 0 (kk st)
    (fun i '(alphas, alpha0) =>
       let* a := aget (alpha st) i in
       Ret ((alphas - sone / sofnat (i + 1))%sc, (alpha0 - a)%sc)) (szero, szero))
    as (p & E & ->); try lia; auto.
  - intros i p Hi ->. rewrite (aget_ret _ i szero) by lia. cbn [bind].
    eexists; split; [reflexivity|]. replace (i + 1) with (S i) by lia. cbn [asum a0sum].
    replace (i + 1) with (S i) by lia. reflexivity.
  - rewrite E. cbn [bind]. cbn [alpha set_cjlast on_lp on_nlp set_nlp kk].
    rewrite (aget_ret _ (kk st) szero) by lia. reflexivity.
Qed.

Lemma scale_rows_spec coefs lo hi (rows : list (list T)) :
  lo <= hi -> hi <= length rows -> hi <= length coefs ->
  exists rows', scale_rows prob coefs lo hi rows = Ret rows' /\ length rows' = length rows /\
    (forall i, lo <= i < hi -> row rows' i = vscale n (vget coefs i) (row rows i)) /\
    (forall i, i < lo \/ hi <= i -> row rows' i = row rows i).
Proof.
  intros Hle H1' H2'. unfold scale_rows. rewrite !slice_chk_ret by lia. cbn [bind].
  apply (for_range_each (fun i r => vscale n (vget coefs i) r) []); auto.
  intros i l Hi Hl. rewrite (aget_ret _ i szero) by lia. cbn [bind].
  rewrite (aget_ret _ i []) by lia. cbn [bind]. rewrite aset_ret by lia. reflexivity.
Qed.

Lemma scale_phi_spec (st : state) :
  arrays st -> kk st <= 5 ->
  exists ph, scale_phi prob st = Ret (set_phi ph st) /\ length ph = 6 /\
    (forall i, ns st <= i <= kk st -> row ph i = vscale n (vget (beta st) i) (row (phi st) i)) /\
    (forall i, i < ns st \/ kk st < i -> row ph i = row (phi st) i).
Proof.
  intros (L1 & L2 & L3 & L4 & _) Hk. unfold scale_phi.
  destruct (Nat.leb_spec (ns st) (kk st)) as [Hn|Hn].
  - destruct (scale_rows_spec (beta st) (ns st) (kk st + 1) (phi st)) as (ph & E & Hl & Hi & Ho); try lia.
    rewrite E. cbn [bind]. exists ph. split; [reflexivity|]. split; [lia|]. split; intros i Hb.
    + apply Hi. lia.
    + apply Ho. lia.
  - exists (phi st). split; [destruct st; reflexivity|]. split; [exact L1|]. split; [intros; lia|auto].
Qed.

(** Partial sums of rows and of scaled rows, as accumulated by the code. *)
Fixpoint rowsum (ph : list (list T)) (k : nat) : list T :=
  match k with 0 => vzero n | S i => vadd n (rowsum ph i) (row ph i) end.
Fixpoint rowcomb (c : list T) (ph : list (list T)) (lo : nat) (k : nat) : list T :=
  match k with
  | 0 => vzero n
  | S i => vscaled_add n (rowcomb c ph lo i) (vget c i) (row ph (lo + i))
  end.
(** gamma_1 phi_1 + ... + gamma_k phi_k. *)
Fixpoint rowcomb1 (c : list T) (ph : list (list T)) (k : nat) : list T :=
  match k with
  | 0 => vzero n
  | S i => vscaled_add n (rowcomb1 c ph i) (vget c (S i)) (row ph (S i))
  end.

Lemma predict_spec (st : state) :
  arrays st -> kk st <= 5 ->
  predict prob st =
    Ret (on_nlp (fun s => set_yppredict (rowcomb1 (gamma st) (phi st) (kk st))
                         (set_yypredict (rowsum (phi st) (kk st + 1)) s)) st).
Proof.
  intros (L1 & L2 & L3 & L4 & L5 & L6 & _) Hk. unfold predict.
  rewrite !slice_chk_ret by lia. cbn [bind].
  destruct (for_range_total (fun i v => v = rowsum (phi st) i) 0 (kk st + 1)
    (fun i acc => let* p := aget (phi st) i in Ret (vadd n acc p)) (vzero n)) as (v & E & ->); try lia; auto.
  { intros i v Hi ->. rewrite (aget_ret _ i []) by lia. cbn [bind]. eexists; split; [reflexivity|].
    replace (i + 1) with (S i) by lia. reflexivity. }
  rewrite E. cbn [bind].
  destruct (for_range_total (fun i v => v = rowcomb1 (gamma st) (phi st) (i - 1)) 1 (kk st + 1)
    (fun i acc => let* g := aget (gamma st) i in
                  let* p := aget (phi st) i in Ret (vscaled_add n acc g p)) (vzero n))
    as (v & E' & ->); try lia; auto.
  { intros i v Hi ->. rewrite (aget_ret _ i szero) by lia. cbn [bind].
    rewrite (aget_ret _ i []) by lia. cbn [bind]. eexists; split; [reflexivity|].
    destruct i as [|i]; [lia|]. replace (S i + 1 - 1) with (S i) by lia.
    replace (S i - 1) with i by lia. reflexivity. }
  rewrite E'. cbn [bind]. replace (kk st + 1 - 1) with (kk st) by lia. reflexivity.
Qed.

Lemma restore_spec (st : state) t :
  arrays st -> kk st <= 5 -> 1 <= ns st ->
  exists ps cv ph, restore prob st t = Ret (set_phi ph (set_cvals cv (set_psi ps (on_nlp (set_tn t) st)))) /\
    length ps = 6 /\ length cv = 6 /\ length ph = 6 /\
    (forall i, i < kk st -> vget ps i = (vget (psi st) (i + 1) - hh st)%sc) /\
    (forall i, kk st <= i -> vget ps i = vget (psi st) i) /\
    (forall i, ns st <= i <= kk st -> row ph i = vscale n (srecip (vget (beta st) i)) (row (phi st) i)) /\
    (forall i, i < ns st \/ kk st < i -> row ph i = row (phi st) i).
Proof.
  intros (L1 & L2 & L3 & L4 & L5 & L6 & L7 & L8) Hk Hns. unfold restore. cbv zeta.
  cbn [kk on_nlp set_nlp psi hh ns phi beta cvals set_psi set_cvals].
  destruct (for_range_total
    (fun j ps => length ps = 6 /\
       (forall i, i < j - 1 -> vget ps i = (vget (psi st) (i + 1) - hh st)%sc) /\
       (forall i, j - 1 <= i -> vget ps i = vget (psi st) i)) 1 (kk st + 1)
    (fun j ps => let* p := aget ps j in aset ps (j - 1) (p - hh st)%sc) (psi st))
    as (ps & E & Hl & Hi & Ho); try lia.
  { split; [exact L2|]. split; [intros; lia|auto]. }
  { intros j ps Hj (Hl & Hi & Ho). rewrite (aget_ret _ j szero) by lia. cbn [bind].
    rewrite aset_ret by lia. eexists; split; [reflexivity|]. rewrite upd_length. split; [exact Hl|].
    unfold vget in *. split; intros i Hb.
    - destruct (Nat.eq_dec (j - 1) i) as [<-|Hne].
      + rewrite nth_upd_eq by lia. rewrite Ho by lia. replace (j - 1 + 1) with j by lia. reflexivity.
      + rewrite nth_upd_neq by exact Hne. apply Hi. lia.
    - rewrite nth_upd_neq by lia. apply Ho. lia. }
  replace (kk st + 1 - 1) with (kk st) in * by lia.
  rewrite E. cbn [bind].
  destruct (Nat.leb_spec (ns st) (kk st)) as [Hn|Hn].
  - rewrite !slice_chk_ret by lia. cbn [bind].
    destruct (for_range_total
      (fun k cv => length cv = 6 /\
         (forall i, i < k -> vget cv i = srecip (vget (beta st) (ns st + i)))) 0 (kk st - ns st + 1)
      (fun i cv => let* b := aget (beta st) (ns st + i) in aset cv i (srecip b)) (cvals st))
      as (cv & E' & Hlc & Hc); try lia.
    { split; [exact L7|intros; lia]. }
    { intros i cv Hb (Hlc & Hc). rewrite (aget_ret _ (ns st + i) szero) by lia. cbn [bind].
      rewrite aset_ret by lia. eexists; split; [reflexivity|]. rewrite upd_length. split; [exact Hlc|].
      intros j Hj. unfold vget in *. destruct (Nat.eq_dec i j) as [<-|Hne].
      - rewrite nth_upd_eq by lia. reflexivity.
      - rewrite nth_upd_neq by exact Hne. apply Hc. lia. }
    rewrite E'. cbn [bind].
    destruct (for_range_each (fun i r => vscale n (vget cv (i - ns st)) r) [] (ns st) (kk st + 1)
      (fun i ph => let* c := aget cv (i - ns st) in
                   let* p := aget ph i in aset ph i (vscale n c p)) (phi st))
      as (ph & E'' & Hlp & Hp & Hq); try lia.
    { intros i l Hb Hll. rewrite (aget_ret _ (i - ns st) szero) by lia. cbn [bind].
      rewrite (aget_ret _ i []) by lia. cbn [bind]. rewrite aset_ret by lia. reflexivity. }
    rewrite E''. cbn [bind]. exists ps, cv, ph. split; [reflexivity|].
    split; [exact Hl|]. split; [exact Hlc|]. split; [lia|]. split; [exact Hi|]. split; [exact Ho|].
    split; intros i Hb.
    + unfold row in *. rewrite Hp by lia. rewrite Hc by lia. replace (ns st + (i - ns st)) with i by lia.
      reflexivity.
    + apply Hq. lia.
  - exists ps, (cvals st), (phi st). split; [destruct st; reflexivity|].
    split; [exact Hl|]. split; [exact L7|]. split; [exact L1|]. split; [exact Hi|]. split; [exact Ho|].
    split; [intros; lia|auto].
Qed.

(** ee + phi_k + phi_(k-1) + ... + phi_j, as accumulated from the top. *)
Fixpoint tailsum (e : list T) (ph : list (list T)) (j cnt : nat) : list T :=
  match cnt with
  | 0 => e
  | S c => vadd n (tailsum e ph (S j) c) (row ph j)
  end.

Lemma update_phi_spec (st : state) :
  arrays st -> kused st <= 5 -> maxord st <= 5 -> kused st <= maxord st ->
  exists ph, update_phi prob st = Ret (set_phi ph st) /\ length ph = 6 /\
    (forall j, j <= kused st -> row ph j = tailsum (ee st) (phi st) j (kused st + 1 - j)) /\
    (kused st < maxord st -> row ph (kused st + 1) = ee st) /\
    (kused st = maxord st -> row ph (kused st + 1) = row (phi st) (kused st + 1)) /\
    (forall j, kused st + 1 < j -> row ph j = row (phi st) j).
Proof.
  intros (L1 & _) Hk Hm Hkm. unfold update_phi.
  assert (Hp : exists ph0,
    (if kused st <? maxord st then aset (phi st) (kused st + 1) (ee st) else Ret (phi st)) = Ret ph0 /\
    length ph0 = 6 /\
    (kused st < maxord st -> row ph0 (kused st + 1) = ee st) /\
    (kused st = maxord st -> row ph0 (kused st + 1) = row (phi st) (kused st + 1)) /\
    (forall j, j <> kused st + 1 -> row ph0 j = row (phi st) j)).
  { destruct (Nat.ltb_spec (kused st) (maxord st)) as [Hb|Hb].
    - rewrite aset_ret by lia. eexists; split; [reflexivity|]. rewrite upd_length. split; [exact L1|].
      unfold row. split; [intros _; apply nth_upd_eq; lia|]. split; [lia|].
      intros j Hj. apply nth_upd_neq. lia.
    - exists (phi st). split; [reflexivity|]. split; [exact L1|]. split; [lia|]. auto. }
  destruct Hp as (ph0 & E0 & L0 & P1 & P2 & P3). rewrite E0. cbn [bind].
  rewrite slice_chk_ret by lia. cbn [bind].
  destruct (for_range_rev_total
    (fun i '(ph, tmp) => length ph = 6 /\ tmp = tailsum (ee st) (phi st) i (kused st + 1 - i) /\
       (forall j, i <= j <= kused st -> row ph j = tailsum (ee st) (phi st) j (kused st + 1 - j)) /\
       (forall j, j < i \/ kused st < j -> row ph j = row ph0 j)) 0 (kused st + 1)
    (fun i '(ph, tmp) =>
         let* p := aget ph i in
         let tmp := vadd n tmp p in
         let* ph := aset ph i tmp in
         Ret (ph, tmp)) (ph0, ee st)) as ((ph & tmp) & E & Hl & _ & Hi & Ho); try lia.
  - split; [exact L0|]. split; [replace (kused st + 1 - (kused st + 1)) with 0 by lia; reflexivity|].
    split; [intros; lia|auto].
  - intros i (ph & tmp) Hb (Hl & -> & Hi & Ho). rewrite (aget_ret _ i []) by lia. cbn [bind].
    rewrite aset_ret by lia. cbn [bind]. eexists; split; [reflexivity|]. cbn beta iota. rewrite upd_length.
    split; [exact Hl|].
    assert (Et : vadd n (tailsum (ee st) (phi st) (i + 1) (kused st + 1 - (i + 1))) (nth i ph [])
                 = tailsum (ee st) (phi st) i (kused st + 1 - i)).
    { replace (kused st + 1 - i) with (S (kused st + 1 - (i + 1))) by lia. cbn [tailsum].
      replace (S i) with (i + 1) by lia. f_equal.
      fold (row ph i). rewrite Ho by lia. apply P3. lia. }
    split; [exact Et|]. unfold row in *. split; intros j Hj.
    + destruct (Nat.eq_dec i j) as [<-|Hne].
      * rewrite nth_upd_eq by lia. exact Et.
      * rewrite nth_upd_neq by exact Hne. apply Hi. lia.
    + rewrite nth_upd_neq by lia. apply Ho. lia.
  - cbv zeta in E |- *. rewrite E. cbn [bind]. exists ph. split; [reflexivity|]. split; [exact Hl|].
    split; [intros j Hj; apply Hi; lia|].
    rewrite !Ho by lia. split; [exact P1|]. split; [exact P2|].
    intros j Hj. rewrite Ho by lia. apply P3. lia.
Qed.

(** The coefficients c_j and d_j of [get_solution], by the code's recurrence:
    (c_j, d_j, gam after j iterations). *)
Fixpoint cdg (ps : list T) (delt : T) (j : nat) : T * T * T :=
  match j with
  | 0 => (sone, szero, (delt / vget ps 0)%sc)
  | S i => let '(c, d, g) := cdg ps delt i in
           ((c * g)%sc, (d * g + c / vget ps i)%sc, ((delt + vget ps i) / vget ps (S i))%sc)
  end.
Definition cj_ (ps : list T) (delt : T) (j : nat) : T := fst (fst (cdg ps delt j)).
Definition dj_ (ps : list T) (delt : T) (j : nat) : T := snd (fst (cdg ps delt j)).

Lemma lincomb_spec coefs rows lo cnt :
  cnt <= length coefs -> lo + cnt <= length rows ->
  lincomb prob coefs rows lo cnt = Ret (rowcomb coefs rows lo cnt).
Proof.
  intros Hc Hr. unfold lincomb.
  destruct (for_range_total (fun i v => v = rowcomb coefs rows lo i) 0 cnt
    (fun i acc => let* c := aget coefs i in
                  let* p := aget rows (lo + i) in
                  Ret (vscaled_add n acc c p)) (vzero n)) as (v & E & ->); try lia; auto.
  intros i v Hi ->. rewrite (aget_ret _ i szero) by lia. cbn [bind].
  rewrite (aget_ret _ (lo + i) []) by lia. cbn [bind]. eexists; split; [reflexivity|].
  replace (i + 1) with (S i) by lia. reflexivity.
Qed.

Definition kord (st : state) : nat := if kused st =? 0 then 1 else kused st.

Lemma gs_loop_spec (ps : list T) (delt : T) k cv dv :
  k <= 5 -> length ps = 6 -> length cv = 6 -> length dv = 5 -> vget cv 0 = sone ->
  exists c d g cv' dv',
    for_range 1 (k + 1) (gs_body ps delt) (sone, szero, (delt / vget ps 0)%sc, cv, dv)
      = Ret (c, d, g, cv', dv') /\
    length cv' = 6 /\ length dv' = 5 /\
    (forall j, j <= k -> vget cv' j = cj_ ps delt j) /\
    (forall j, j < k -> vget dv' j = dj_ ps delt (S j)).
Proof.
  intros Hk Lp Lc Ld C0.
  destruct (for_range_total
    (fun i '(c, d, g, cv', dv') => (c, d, g) = cdg ps delt (i - 1) /\
       length cv' = 6 /\ length dv' = 5 /\
       (forall j, j < i -> vget cv' j = cj_ ps delt j) /\
       (forall j, j + 1 < i -> vget dv' j = dj_ ps delt (S j))) 1 (k + 1)
    (gs_body ps delt) (sone, szero, (delt / vget ps 0)%sc, cv, dv)) as (s & E & HP); try lia.
  - split; [reflexivity|]. split; [exact Lc|]. split; [exact Ld|]. split; [|intros; lia].
    intros j Hj. replace j with 0 by lia. exact C0.
  - intros i ((((c & d) & g) & cv1) & dv1) Hi (Ec & L1 & L2 & Hc & Hd).
    destruct i as [|i]; [lia|]. replace (S i - 1) with i in Ec by lia.
    unfold gs_body. replace (S i - 1) with i by lia.
    rewrite (aget_ret ps i szero) by lia. cbn [bind].
    rewrite (aget_ret ps (S i) szero) by lia. cbn [bind].
    rewrite !aset_ret by lia. cbn [bind]. eexists; split; [reflexivity|]. cbn beta iota.
    replace (S i + 1 - 1) with (S i) by lia. cbn [cdg]. rewrite <- Ec.
    split; [reflexivity|]. rewrite !upd_length. split; [exact L1|]. split; [exact L2|].
    unfold vget in *. split; intros j Hj.
    + destruct (Nat.eq_dec (S i) j) as [<-|Hne].
      * rewrite nth_upd_eq by lia. unfold cj_. cbn [cdg]. rewrite <- Ec. reflexivity.
      * rewrite nth_upd_neq by exact Hne. apply Hc. lia.
    + destruct (Nat.eq_dec i j) as [<-|Hne].
      * rewrite nth_upd_eq by lia. unfold dj_. cbn [cdg]. rewrite <- Ec. reflexivity.
      * rewrite nth_upd_neq by exact Hne. apply Hd. lia.
  - destruct s as ((((c & d) & g) & cv') & dv'). destruct HP as (_ & L1 & L2 & Hc & Hd).
    exists c, d, g, cv', dv'. split; [exact E|]. split; [exact L1|]. split; [exact L2|].
    split; intros j Hj; [apply Hc|apply Hd]; lia.
Qed.

Lemma get_solution_spec (st : state) t :
  arrays st -> kused st <= 5 ->
  match time_check st t with
  | Some e => get_solution prob st t = Ret (st, Err e)
  | None =>
      exists cv dv,
        get_solution prob st t =
          Ret (on_nlp (fun s => set_yp (rowcomb dv (phi st) 1 (kord st))
                                (set_yy (rowcomb cv (phi st) 0 (kord st + 1)) s))
                      (set_dvals dv (set_cvals cv st)), Ok tt) /\
        length cv = 6 /\ length dv = 5 /\
        (forall j, j <= kord st -> vget cv j = cj_ (psi st) (t - tn (nlp st))%sc j) /\
        (forall j, j < kord st -> vget dv j = dj_ (psi st) (t - tn (nlp st))%sc (S j))
  end.
Proof.
  intros (L1 & L2 & L3 & L4 & L5 & L6 & L7 & L8) Hk. unfold get_solution.
  destruct (time_check st t) as [e|]; [reflexivity|]. cbv zeta. fold (kord st).
  assert (Hko : 1 <= kord st <= 5).
  { unfold kord. destruct (Nat.eqb_spec (kused st) 0); lia. }
  rewrite (aget_ret _ 0 szero) by lia. cbn [bind]. rewrite aset_ret by lia. cbn [bind].
  destruct (gs_loop_spec (psi st) (t - tn (nlp st))%sc (kord st) (upd (cvals st) 0 sone) (dvals st))
    as (c & d & g & cv & dv & E & Lc & Ld & Hc & Hd); rewrite ?upd_length; try lia; auto.
  { unfold vget. rewrite nth_upd_eq by lia. reflexivity. }
  unfold vget at 1 in E. rewrite E. cbn [bind cvals dvals phi set_dvals set_cvals].
  rewrite !lincomb_spec by lia. cbn [bind]. exists cv, dv. auto.
Qed.

End Loops.
