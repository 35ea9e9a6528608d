(** * DenseRnd: the dense solver in arithmetic with rounding *)
Require Import List Arith Bool Lia Reals Lra.
Import ListNotations.
Require Import Verif.Base Verif.Scalar Verif.ScalarR Verif.RoundR Verif.Dense Verif.BaseFacts
  Verif.RSum Verif.DenseSpec Verif.DenseFacts Verif.DenseR Verif.DenseSolveR.
Open Scope R_scope.

Lemma rsum_abs_le n f : Rabs (rsum n f) <= rsum n (fun p => Rabs (f p)).
Proof.
  induction n as [|n IH]; cbn [rsum]; [rewrite Rabs_R0; lra|].
  eapply Rle_trans; [apply Rabs_triang|]. lra.
Qed.

Lemma finite_choice {B} (P : nat -> B -> Prop) (d : B) n :
  (forall i, (i < n)%nat -> exists v, P i v) -> exists f, forall i, (i < n)%nat -> P i (f i).
Proof.
  induction n as [|n IH]; intros H; [exists (fun _ => d); intros; lia|].
  destruct IH as (f & Hf); [intros; apply H; lia|]. destruct (H n ltac:(lia)) as (v & Hv).
  exists (fun i => if (i =? n)%nat then v else f i). intros i Hi. destruct (i =? n)%nat eqn:E.
  - apply Nat.eqb_eq in E. subst i. exact Hv.
  - apply Nat.eqb_neq in E. apply Hf. lia.
Qed.

(** Growth of the entries in one step of the elimination. *)
Definition growth (u : R) : R := / (1 - u) * (1 + (/ (1 - u)) ^ 3).

Lemma growth_ge_1 u rnd : rounding u rnd -> 1 <= growth u.
Proof.
  intros Hr. pose proof (q_ge_1 u rnd Hr) as Hq. unfold growth. set (q := / (1 - u)) in *.
  assert (0 < q ^ 3) by (apply pow_lt; lra). nra.
Qed.

Section Rnd.
Variables (u : R) (rnd : R -> R).
Hypothesis Hr : rounding u rnd.
Local Instance SRnd : Scalar R := ScalarRnd rnd.

(** Pivot search returns an entry of maximal absolute value. *)
Lemma pivot_search_max_rnd (a : mat R) k l :
  (k < nrows a)%nat -> (k < ncols a)%nat -> @pivot_search R SRnd a k = Ret l ->
  forall i, (k <= i < nrows a)%nat -> Rabs (elem a i k) <= Rabs (elem a l k).
Proof. exact (pivot_search_max a k l). Qed.

(** Elimination of one entry, with the rounding errors shown. *)
Lemma eliminated a x y : exists c d, near u 1 c /\ near u 1 d /\ a = rnd (a - rnd (x * y)) * c + x * y * d.
Proof.
  destruct (rnd_near u rnd Hr (x * y)) as (d & Ed & Nd). rewrite Ed.
  destruct (rnd_near u rnd Hr (a - x * y * d)) as (c & Ec & Nc). rewrite Ec.
  exists (/ c), d. split; [apply (near_inv u rnd Hr); exact Nc|]. split; [exact Nd|].
  pose proof (near_pos u rnd Hr _ _ Nc). field. lra.
Qed.

Lemma quotient a p : p <> 0 -> exists c, near u 2 c /\ a = rnd (a * rnd (1 / p)) * p * c.
Proof.
  intros Hp. destruct (rnd_near u rnd Hr (1 / p)) as (d & Ed & Nd). rewrite Ed.
  destruct (rnd_near u rnd Hr (a * (1 / p * d))) as (c & Ec & Nc). rewrite Ec.
  exists (/ (d * c)). split; [apply (near_inv u rnd Hr); apply (near_mult u rnd Hr 1 1); assumption|].
  pose proof (near_pos u rnd Hr _ _ Nc). pose proof (near_pos u rnd Hr _ _ Nd). field. repeat split; lra.
Qed.

Lemma grow_entry a x y M :
  Rabs a <= M -> Rabs x <= M -> Rabs y <= (/ (1 - u)) ^ 2 -> Rabs (rnd (a - rnd (x * y))) <= growth u * M.
Proof.
  intros Ha Hx Hy. pose proof (q_ge_1 u rnd Hr) as Hq. unfold growth. set (q := / (1 - u)) in *.
  destruct (rnd_near u rnd Hr (x * y)) as (d & Ed & Nd). rewrite Ed.
  destruct (rnd_near u rnd Hr (a - x * y * d)) as (c & Ec & Nc). rewrite Ec.
  pose proof (near_pos u rnd Hr _ _ Nc) as Pc. pose proof (near_pos u rnd Hr _ _ Nd) as Pd.
  destruct Nc as (_ & Nc), Nd as (_ & Nd). fold q in Nc, Nd. rewrite pow_1 in Nc, Nd.
  rewrite Rabs_mult, (Rabs_right c) by lra. rewrite (Rmult_comm _ c), (Rmult_assoc q).
  apply Rmult_le_compat; [lra|apply Rabs_pos|exact Nc|].
  eapply Rle_trans; [apply Rabs_triang|]. rewrite Rabs_Ropp, !Rabs_mult, (Rabs_right d) by lra.
  rewrite Rmult_plus_distr_r, Rmult_1_l. apply Rplus_le_compat; [exact Ha|].
  replace (q ^ 3 * M) with (M * q ^ 2 * q) by ring.
  apply Rmult_le_compat; [apply Rmult_le_pos; apply Rabs_pos|lra| |exact Nd].
  apply Rmult_le_compat; auto using Rabs_pos.
Qed.

Section Factor.
Variables (m n : nat) (A : nat -> nat -> R).
Hypothesis Hmn : (n <= m)%nat.

(** Invariant after [k] elimination steps: that of DenseR, with a factor for the
    rounding errors in each term. *)
Definition rnd_inv (k : nat) (F : nat -> nat -> R) (piv : list nat) : Prop :=
  (forall i j, (i < m)%nat -> (j < n)%nat -> exists e c,
     (forall p, (p < k)%nat -> near u (k + 1) (e p)) /\ near u k c /\
     A (row_of piv k i) j =
     rsum k (fun p => Lpart F i p * Upart F p j * e p)
     + (if (k <=? i)%nat && (k <=? j)%nat then F i j * c else 0)) /\
  (forall p, (p < k)%nat -> F p p <> 0) /\
  (forall p i, (p < k)%nat -> (p < i < m)%nat -> Rabs (F i p) <= (/ (1 - u)) ^ 2) /\
  (forall p, (p < k)%nat -> (p <= nth p piv 0 < m)%nat) /\
  (forall M, (forall i j, (i < m)%nat -> (j < n)%nat -> Rabs (A i j) <= M) ->
     forall i j, (i < m)%nat -> (j < n)%nat -> (i <= j \/ k <= j)%nat ->
       Rabs (F i j) <= growth u ^ (Nat.min i k) * M).

Lemma rnd_inv_0 piv : rnd_inv 0 A piv.
Proof.
  split; [|split; [intros; lia|split; [intros; lia|split; [intros; lia|]]]].
  2:{ intros M HM i j Hi Hj _. rewrite Nat.min_0_r. cbn [pow]. rewrite Rmult_1_l. apply HM; assumption. }
  intros i j Hi Hj. exists (fun _ => 1), 1. split; [intros; lia|]. split; [apply near_0|]. simpl. ring.
Qed.

Lemma rnd_step_inv k (a : mat R) piv a' piv' :
  nrows a = m -> ncols a = n -> (k < n)%nat -> (n <= length piv)%nat ->
  rnd_inv k (elem a) piv ->
  rf_step a piv k = Ret (a', piv', Ok tt) ->
  nrows a' = m /\ ncols a' = n /\ length piv' = length piv /\ rnd_inv (S k) (elem a') piv'.
Proof.
  intros Dm Dn Hk Hlp (Hf & Hd & Hmul & Hpv & Hg) E.
  destruct (rf_step_ret a piv k) as (l & El & Hl & Hs); try lia.
  rewrite E in Hs.
  destruct (seqb (elem a l k) szero) eqn:Ez; [discriminate Hs|].
  destruct Hs as (a2 & E2 & (D1 & D2) & V). inversion E2; subst a2 piv'. clear E2.
  assert (Hnz : elem a l k <> 0) by (apply Reqb_false; exact Ez).
  assert (Hmax := pivot_search_max_rnd a k l ltac:(lia) ltac:(lia) El).
  set (t := transp k l) in *. set (F := elem a) in *. set (F' := elem a') in *.
  assert (Ht : forall i, (i < m)%nat -> (t i < m)%nat) by (intros; apply transp_lt; lia).
  assert (Htb : forall i, (i < k)%nat -> t i = i) by (intros; apply transp_id_below; lia).
  assert (Htg : forall i, (k <= i)%nat -> (k <= t i)%nat) by (intros; apply transp_ge; lia).
  assert (Htk : t k = l) by apply transp_k.
  assert (V1 : forall i j, (i < m)%nat -> (j < n)%nat -> (i <= k)%nat -> F' i j = F (t i) j).
  { intros i j Hi Hj Hik. unfold F'. rewrite V by lia. cbv zeta.
    replace (k <? i)%nat with false by (symmetry; apply Nat.ltb_ge; lia). reflexivity. }
  assert (V2 : forall i j, (i < m)%nat -> (j < k)%nat -> F' i j = F (t i) j).
  { intros i j Hi Hj. unfold F'. rewrite V by lia. cbv zeta.
    replace (j =? k)%nat with false by (symmetry; apply Nat.eqb_neq; lia).
    replace (k <? j)%nat with false by (symmetry; apply Nat.ltb_ge; lia).
    destruct (k <? i)%nat; reflexivity. }
  assert (V3 : forall i, (k < i < m)%nat -> F' i k = rnd (F (t i) k * rnd (1 / F l k))).
  { intros i Hi. unfold F'. rewrite V by lia. cbv zeta.
    replace (k <? i)%nat with true by (symmetry; apply Nat.ltb_lt; lia).
    rewrite Nat.eqb_refl. unfold srecip. fold t. rewrite Htk. reflexivity. }
  assert (V4 : forall i j, (k < i < m)%nat -> (k < j < n)%nat ->
                 F' i j = if Reqb (F l j) 0 then F (t i) j else rnd (F (t i) j - rnd (F l j * F' i k))).
  { intros i j Hi Hj. rewrite V3 by lia. unfold F'. rewrite V by lia. cbv zeta.
    replace (k <? i)%nat with true by (symmetry; apply Nat.ltb_lt; lia).
    replace (j =? k)%nat with false by (symmetry; apply Nat.eqb_neq; lia).
    replace (k <? j)%nat with true by (symmetry; apply Nat.ltb_lt; lia).
    fold t. rewrite Htk. unfold sneqb, srecip. simpl. fold F.
    destruct (Reqb (F l j) 0); reflexivity. }
  assert (Hrow : forall i, row_of (upd piv k l) (S k) i = row_of piv k (t i)).
  { intros i. simpl. rewrite nth_upd_eq by lia. apply row_of_ext.
    intros p Hp. apply nth_upd_neq. lia. }
  split; [congruence|]. split; [congruence|]. split; [apply upd_length|].
  assert (Hmul' : forall p i, (p < S k)%nat -> (p < i < m)%nat -> Rabs (F' i p) <= (/ (1 - u)) ^ 2).
  { intros p i Hp Hi. destruct (Nat.eq_dec p k) as [->|Hne].
    + rewrite V3 by lia. destruct (quotient (F (t i) k) (F l k) Hnz) as (d & Nd & Eq).
      pose proof (near_inv u rnd Hr _ _ Nd) as Ni. pose proof (near_pos u rnd Hr _ _ Nd) as Pd.
      assert (Hpos : 0 < Rabs (F l k)) by (apply Rabs_pos_lt; exact Hnz).
      assert (Hle : Rabs (F (t i) k) <= Rabs (F l k)) by (apply Hmax; split; [apply Htg; lia | rewrite Dm; apply Ht; lia]).
      set (v := rnd (F (t i) k * rnd (1 / F l k))) in *.
      rewrite Eq, !Rabs_mult, (Rabs_right d) in Hle by lra.
      apply Rle_trans with (/ d); [|apply Ni].
      apply Rmult_le_reg_r with (Rabs (F l k) * d); [nra|].
      replace (/ d * (Rabs (F l k) * d)) with (Rabs (F l k)) by (field; lra). lra.
    + rewrite V2 by lia. apply Hmul; [lia|]. destruct (Nat.lt_ge_cases i k) as [Hik|Hik].
      * rewrite Htb by lia. lia.
      * assert (k <= t i)%nat by (apply Htg; lia). assert (t i < m)%nat by (apply Ht; lia). lia. }
  split; [|split; [|split; [exact Hmul'|split]]].
  - intros i j Hi Hj. rewrite Hrow. destruct (Hf (t i) j (Ht i Hi) Hj) as (e & c & Ne & Nc & ->).
    assert (Hold : rsum k (fun p => Lpart F (t i) p * Upart F p j * e p)
                   = rsum k (fun p => Lpart F' i p * Upart F' p j * e p)).
    { apply rsum_ext. intros p Hp. f_equal. f_equal.
      - unfold Lpart. destruct (Nat.lt_ge_cases i k) as [Hik|Hik].
        + rewrite (Htb i) by lia.
          destruct (p <? i)%nat eqn:Epi; [|reflexivity].
          rewrite V2 by (auto; lia). rewrite Htb by lia. reflexivity.
        + replace (p <? i)%nat with true by (symmetry; apply Nat.ltb_lt; lia).
          assert (k <= t i)%nat by (apply Htg; lia).
          replace (p <? t i)%nat with true by (symmetry; apply Nat.ltb_lt; lia).
          symmetry. apply V2; lia.
      - unfold Upart. destruct (p <=? j)%nat eqn:Epj; [|reflexivity].
        rewrite V1 by lia. rewrite Htb by lia. reflexivity. }
    rewrite Hold. clear Hold.
    (* it suffices to split the remaining term *)
    cut (exists ek c', near u (k + 2) ek /\ near u (k + 1) c' /\
           (if (k <=? t i)%nat && (k <=? j)%nat then F (t i) j * c else 0) =
           Lpart F' i k * Upart F' k j * ek + (if (S k <=? i)%nat && (S k <=? j)%nat then F' i j * c' else 0)).
    { intros (ek & c' & Nk & Nc' & Eq). exists (fun p => if (p =? k)%nat then ek else e p), c'.
      split; [|split].
      - intros p Hp. destruct (p =? k)%nat eqn:Ep; [replace (S k + 1)%nat with (k + 2)%nat by lia; exact Nk|].
        apply Nat.eqb_neq in Ep. apply (near_le u rnd Hr (k + 1)); [lia|]. apply Ne. lia.
      - replace (S k) with (k + 1)%nat by lia. exact Nc'.
      - rewrite Eq. cbn [rsum]. rewrite Nat.eqb_refl, <- Rplus_assoc. f_equal. f_equal.
        apply rsum_ext. intros p Hp. replace (p =? k)%nat with false by (symmetry; apply Nat.eqb_neq; lia). reflexivity. }
    destruct (Nat.lt_trichotomy i k) as [Hik|[Hik|Hik]].
    + exists 1, 1. split; [apply (near_1 u rnd Hr)|]. split; [apply (near_1 u rnd Hr)|]. rewrite Htb by lia.
      replace (k <=? i)%nat with false by (symmetry; apply Nat.leb_gt; lia).
      replace (S k <=? i)%nat with false by (symmetry; apply Nat.leb_gt; lia).
      unfold Lpart. replace (k <? i)%nat with false by (symmetry; apply Nat.ltb_ge; lia).
      replace (k =? i)%nat with false by (symmetry; apply Nat.eqb_neq; lia). simpl. ring.
    + subst i. exists c, 1. split; [apply (near_le u rnd Hr k); [lia|exact Nc]|]. split; [apply (near_1 u rnd Hr)|]. rewrite Htk.
      replace (k <=? l)%nat with true by (symmetry; apply Nat.leb_le; lia).
      replace (S k <=? k)%nat with false by (symmetry; apply Nat.leb_gt; lia).
      unfold Lpart. rewrite Nat.ltb_irrefl, Nat.eqb_refl. cbn [andb].
      unfold Upart. destruct (k <=? j)%nat eqn:Ekj; [|ring].
      rewrite V1 by lia. rewrite Htk. ring.
    + assert (k <= t i)%nat by (apply Htg; lia).
      replace (k <=? t i)%nat with true by (symmetry; apply Nat.leb_le; lia).
      replace (S k <=? i)%nat with true by (symmetry; apply Nat.leb_le; lia). cbn [andb].
      unfold Lpart. replace (k <? i)%nat with true by (symmetry; apply Nat.ltb_lt; lia).
      unfold Upart.
      destruct (Nat.lt_trichotomy j k) as [Hjk|[Hjk|Hjk]].
      * exists 1, 1. split; [apply (near_1 u rnd Hr)|]. split; [apply (near_1 u rnd Hr)|].
        replace (k <=? j)%nat with false by (symmetry; apply Nat.leb_gt; lia).
        replace (S k <=? j)%nat with false by (symmetry; apply Nat.leb_gt; lia). ring.
      * subst j. rewrite Nat.leb_refl.
        replace (S k <=? k)%nat with false by (symmetry; apply Nat.leb_gt; lia).
        destruct (quotient (F (t i) k) (F l k) Hnz) as (d & Nd & Eq).
        exists (c * d), 1. split; [apply (near_mult u rnd Hr); assumption|]. split; [apply (near_1 u rnd Hr)|].
        rewrite V3 by lia. rewrite V1 by lia. rewrite Htk. rewrite Eq at 1. ring.
      * replace (k <=? j)%nat with true by (symmetry; apply Nat.leb_le; lia).
        replace (S k <=? j)%nat with true by (symmetry; apply Nat.leb_le; lia).
        rewrite (V4 i j) by lia. rewrite (V1 k j) by lia. rewrite Htk.
        destruct (Reqb (F l j) 0) eqn:E0.
        -- apply Reqb_true in E0. exists 1, c. split; [apply (near_1 u rnd Hr)|].
           split; [apply (near_le u rnd Hr k); [lia|exact Nc]|]. rewrite E0. ring.
        -- destruct (eliminated (F (t i) j) (F l j) (F' i k)) as (d1 & d2 & N1 & N2 & Eq).
           exists (c * d2), (c * d1). split; [apply (near_le u rnd Hr (k + 1)); [lia|]; apply (near_mult u rnd Hr); assumption|].
           split; [apply (near_mult u rnd Hr); assumption|]. rewrite Eq at 1. ring.
  - intros p Hp. destruct (Nat.eq_dec p k) as [->|Hne].
    + rewrite V1 by lia. rewrite Htk. exact Hnz.
    + rewrite V2 by lia. rewrite Htb by lia. apply Hd; lia.
  - intros p Hp. rewrite nth_upd.
    replace (k <? length piv)%nat with true by (symmetry; apply Nat.ltb_lt; lia).
    destruct (k =? p)%nat eqn:Ekp; cbn [andb].
    + apply Nat.eqb_eq in Ekp; subst p; lia.
    + apply Nat.eqb_neq in Ekp. apply Hpv. lia.
  - intros M HM i j Hi Hj Hij. specialize (Hg M HM).
    destruct (Nat.lt_trichotomy i k) as [Hik|[Hik|Hik]].
    + rewrite V1 by lia. rewrite Htb by lia. specialize (Hg i j Hi Hj ltac:(lia)).
      rewrite Nat.min_l in Hg |- * by lia. exact Hg.
    + subst i. rewrite V1 by lia. rewrite Htk. specialize (Hg l j ltac:(lia) Hj ltac:(lia)).
      rewrite Nat.min_r in Hg by lia. rewrite Nat.min_l by lia. exact Hg.
    + assert (Hti : (k <= t i)%nat) by (apply Htg; lia).
      rewrite V4 by lia. pose proof (Hg (t i) j (Ht i Hi) Hj ltac:(lia)) as G1. pose proof (Hg l j ltac:(lia) Hj ltac:(lia)) as G2.
      rewrite Nat.min_r in G1, G2 by lia. rewrite Nat.min_r by lia.
      pose proof (growth_ge_1 u rnd Hr) as G0. replace (growth u ^ S k * M) with (growth u * (growth u ^ k * M)) by (cbn; ring).
      destruct (Reqb (F l j) 0).
      * pose proof (Rabs_pos (F (t i) j)). nra.
      * apply grow_entry; [exact G1|exact G2|apply Hmul'; lia].
Qed.

Lemma rnd_loop_inv cnt : forall k (a : mat R) piv a' piv',
  nrows a = m -> ncols a = n -> (k + cnt = n)%nat -> (n <= length piv)%nat ->
  rnd_inv k (elem a) piv ->
  rf_loop cnt k a piv = Ret (a', piv', Ok tt) ->
  nrows a' = m /\ ncols a' = n /\ length piv' = length piv /\ rnd_inv n (elem a') piv'.
Proof.
  induction cnt as [|cnt IH]; intros k a piv a' piv' Dm Dn Hkc Hlp Hinv E; simpl in E.
  - inversion E; subst a' piv'. replace n with k in * by lia. auto.
  - apply bind_ret_inv in E. destruct E as (((a1 & p1) & r1) & E1 & E2).
    destruct r1 as [[]|c]; [|discriminate].
    destruct (rnd_step_inv k a piv a1 p1) as (D1 & D2 & L & Hi); auto; try lia.
    specialize (IH (S k) a1 p1 a' piv' D1 D2 ltac:(lia) ltac:(lia) Hi E2).
    rewrite L in IH. exact IH.
Qed.

Lemma rnd_factor piv0 F piv :
  length piv0 = n ->
  dense_setup piv0 (mkmat m n A) = Ret (piv, F, Ok tt) ->
  nrows F = m /\ ncols F = n /\ length piv = n /\ rnd_inv n (elem F) piv.
Proof.
  intros Hp E. unfold dense_setup in E. apply bind_ret_inv in E.
  destruct E as (((a1 & p1) & r1) & E1 & E2). inversion E2; subst. clear E2.
  unfold dense_get_rf in E1. cbn [ncols nrows] in E1.
  replace (n <=? m)%nat with true in E1 by (symmetry; apply Nat.leb_le; lia).
  apply rnd_loop_inv in E1; auto; try lia.
  - rewrite Hp in E1. exact E1.
  - apply rnd_inv_0.
Qed.
Lemma rnd_loop_err cnt : forall k (a : mat R) piv a' piv' c,
  nrows a = m -> ncols a = n -> (k + cnt = n)%nat -> (n <= length piv)%nat ->
  rnd_inv k (elem a) piv ->
  rf_loop cnt k a piv = Ret (a', piv', Err c) ->
  exists k', (k <= k' < n)%nat /\ c = (k' + 1)%nat /\ (forall i, (i < k)%nat -> nth i piv' 0%nat = nth i piv 0%nat) /\
    rnd_inv k' (elem a') piv' /\ forall i, (k' <= i < m)%nat -> elem a' i k' = 0.
Proof.
  induction cnt as [|cnt IH]; intros k a piv a' piv' c Dm Dn Hkc Hlp Hinv E; simpl in E; [discriminate E|].
  apply bind_ret_inv in E. destruct E as (((a1 & p1) & r1) & E1 & E2).
  destruct (rf_step_ret a piv k) as (l & El & Hl & Hs); try lia.
  assert (Hp1 : p1 = upd piv k l).
  { rewrite E1 in Hs. destruct (seqb (elem a l k) szero); [inversion Hs; reflexivity|].
    destruct Hs as (a2 & E3 & _). inversion E3. reflexivity. }
  destruct r1 as [[]|c1].
  - destruct (rnd_step_inv k a piv a1 p1) as (D1 & D2 & L & Hi); auto; try lia.
    destruct (IH (S k) a1 p1 a' piv' c D1 D2 ltac:(lia) ltac:(lia) Hi E2) as (k' & Hk' & Ec & Hp & Hrest).
    exists k'. split; [lia|]. split; [exact Ec|]. split; [|exact Hrest].
    intros i Hi0. rewrite Hp by lia. rewrite Hp1. apply nth_upd_neq. lia.
  - assert (Hpp : forall i, (i < k)%nat -> nth i p1 0%nat = nth i piv 0%nat) by (intros i Hi; rewrite Hp1; apply nth_upd_neq; lia).
    assert (Hc : c1 = (k + 1)%nat /\ a1 = a /\ forall i, (k <= i < m)%nat -> elem a i k = 0).
    { rewrite E1 in Hs. destruct (seqb (elem a l k) szero) eqn:Ez; [|destruct Hs as (a2 & E3 & _); discriminate E3].
      inversion Hs; subst. split; auto. split; auto. apply Reqb_true in Ez. simpl in Ez. intros i Hi.
      pose proof (pivot_search_max_rnd a k l ltac:(lia) ltac:(lia) El i ltac:(lia)) as Hm.
      rewrite Ez, Rabs_R0 in Hm. pose proof (Rabs_pos (elem a i k)).
      destruct (Req_dec (elem a i k) 0) as [|Hne]; auto. apply Rabs_pos_lt in Hne. lra. }
    destruct Hc as (Hc & Ha & Hz). inversion E2. subst a1 a' c c1 piv'. clear E2.
    exists k. split; [lia|]. split; [reflexivity|].
    split; [exact Hpp|]. split; [|exact Hz].
    destruct Hinv as (Hf & Hd & Hmul & Hpv & Hg). split; [|split; [exact Hd|split; [exact Hmul|split; [|exact Hg]]]].
    + intros i j Hi Hj. rewrite (row_of_ext p1 piv k Hpp). apply Hf; assumption.
    + intros p Hp. rewrite Hpp by exact Hp. apply Hpv. exact Hp.
Qed.

Lemma rnd_error piv0 F piv c :
  length piv0 = n ->
  dense_setup piv0 (mkmat m n A) = Ret (piv, F, Err c) ->
  exists k, (k < n)%nat /\ c = (k + 1)%nat /\ rnd_inv k (elem F) piv /\
    forall i, (k <= i < m)%nat -> elem F i k = 0.
Proof.
  intros Hp E. unfold dense_setup in E. apply bind_ret_inv in E.
  destruct E as (((a1 & p1) & r1) & E1 & E2). inversion E2; subst. clear E2.
  unfold dense_get_rf in E1. cbn [ncols nrows] in E1.
  replace (n <=? m)%nat with true in E1 by (symmetry; apply Nat.leb_le; lia).
  apply rnd_loop_err in E1; auto; try lia; [|apply rnd_inv_0].
  destruct E1 as (k & Hk & Ec & _ & Hrest). exists k. split; [lia|]. split; [exact Ec|exact Hrest].
Qed.

(** A vanishing column makes the columns of a nearby matrix dependent. *)
Lemma rnd_dependent k F piv :
  (k < n)%nat -> rnd_inv k F piv -> (forall i, (k <= i < m)%nat -> F i k = 0) ->
  exists dA, dependent_cols m (k + 1) (fun i j => A i j + dA i j) /\
    forall i j, (i < m)%nat -> (j < n)%nat ->
      Rabs (dA (row_of piv k i) j) <= ((/ (1 - u)) ^ (k + 1) - 1) * rsum k (fun p => Rabs (Lpart F i p) * Rabs (Upart F p j)).
Proof.
  intros Hk (Hf & Hd & _ & Hpv & _) Hz.
  destruct (finite_choice (fun r (row : nat -> R) => forall i, (i < m)%nat -> row_of piv k i = r -> forall j, (j < n)%nat ->
     ((i < k)%nat \/ (j <= k)%nat -> A r j + row j = rsum k (fun p => Lpart F i p * Upart F p j)) /\
     Rabs (row j) <= ((/ (1 - u)) ^ (k + 1) - 1) * rsum k (fun p => Rabs (Lpart F i p) * Rabs (Upart F p j))) (fun _ => 0) m) as (dA & HA).
  { intros r Hri. destruct (row_of_onto piv m k ltac:(lia) Hpv r Hri) as (i & Hi & Er).
    destruct (finite_choice (fun j ec => (forall p, (p < k)%nat -> near u (k + 1) (fst ec p)) /\
       A (row_of piv k i) j = rsum k (fun p => Lpart F i p * Upart F p j * fst ec p) + (if (k <=? i)%nat && (k <=? j)%nat then F i j * snd ec else 0))
       (fun _ => 1, 1) n) as (ec & Hec).
    { intros j Hj. destruct (Hf i j Hi Hj) as (e & c & Ne & _ & Ea). exists (e, c). split; [exact Ne|exact Ea]. }
    exists (fun j => rsum k (fun p => Lpart F i p * Upart F p j * (1 - fst (ec j) p))).
    intros i' Hi' Er' j Hj. assert (i' = i) by (apply (row_of_inj piv k); congruence). subst i'.
    destruct (Hec j Hj) as (Ne & Ea). split.
    - intros Hij. rewrite <- Er, Ea.
      replace (if (k <=? i)%nat && (k <=? j)%nat then F i j * snd (ec j) else 0) with 0.
      + rewrite Rplus_0_r, <- rsum_plus. apply rsum_ext. intros; ring.
      + destruct (k <=? i)%nat eqn:E1; cbn [andb]; auto. destruct (k <=? j)%nat eqn:E2; auto.
        apply Nat.leb_le in E1, E2. assert (j = k) by lia. subst j. rewrite Hz by lia. ring.
    - eapply Rle_trans; [apply rsum_abs_le|]. rewrite <- rsum_scal. apply rsum_le. intros p Hp.
      rewrite !Rabs_mult, Rmult_comm. apply Rmult_le_compat_r; [apply Rmult_le_pos; apply Rabs_pos|].
      rewrite Rabs_minus_sym. pose proof (near_diff u rnd Hr (k + 1) 0 (fst (ec j) p) 1 (Ne p Hp) (near_0 u)) as D.
      rewrite Nat.add_0_r in D. exact D. }
  exists dA. split.
  - destruct (upper_solvable m n Hmn F k (fun p => - Upart F p k) Hd) as (x & Hx).
    exists (fun j => if (j =? k)%nat then 1 else x j). split.
    + exists k. split; [lia|]. rewrite Nat.eqb_refl. lra.
    + intros r Hri. destruct (row_of_onto piv m k ltac:(lia) Hpv r Hri) as (i & Hi & Er).
      replace (k + 1)%nat with (S k) by lia. cbn [rsum]. rewrite Nat.eqb_refl.
      rewrite (rsum_ext k _ (fun j => rsum k (fun p => Lpart F i p * (Upart F p j * x j)))).
      * rewrite rsum_swap.
        rewrite (rsum_ext k _ (fun p => Lpart F i p * - Upart F p k)).
        2:{ intros p Hp. rewrite rsum_scal. rewrite Hx by lia. reflexivity. }
        rewrite (proj1 (HA r Hri i Hi Er k ltac:(lia)) ltac:(lia)).
        rewrite Rmult_1_r, <- rsum_plus. apply rsum_0. intros; ring.
      * intros j Hj. replace (j =? k)%nat with false by (symmetry; apply Nat.eqb_neq; lia).
        rewrite (proj1 (HA r Hri i Hi Er j ltac:(lia)) ltac:(lia)).
        rewrite <- rsum_scal_r. apply rsum_ext. intros; ring.
  - intros i j Hi Hj. apply (proj2 (HA _ (row_of_lt piv m k ltac:(lia) Hpv i Hi) i Hi eq_refl j Hj)).
Qed.
End Factor.

Lemma rnd_permute n piv (b : list R) :
  length b = n -> length piv = n -> (forall k, (k < n)%nat -> (k <= nth k piv 0 < n)%nat) ->
  exists b', permute_rhs n piv b = Ret b' /\ length b' = n /\
    forall i, (i < n)%nat -> nth i b' 0 = nth (row_of piv n i) b 0.
Proof. exact (permute_rhs_spec n piv b). Qed.

Lemma rnd_forward (a : mat R) n (b : list R) :
  (1 <= n)%nat -> nrows a = n -> ncols a = n -> length b = n ->
  exists y, forward_subst a n b = Ret y /\ length y = n /\
    forall i, (i < n)%nat -> exists e, (forall p, near u (n - 1) (e p)) /\
      nth i b 0 = rsum n (fun p => Lpart (elem a) i p * nth p y 0 * e p).
Proof.
  intros Hn Dr Dc Lb. unfold forward_subst. rewrite usub_ret by lia. cbn [bind].
  set (F := elem a).
  match goal with |- context [for_range 0 (n - 1) ?f b] =>
  destruct (for_range_total (fun k y => length y = n /\ forall i, (i < n)%nat ->
             exists e c, (forall p, near u (Nat.min i k) (e p)) /\ near u (Nat.min i k) c /\
             nth i b 0 = rsum (Nat.min i k) (fun p => F i p * nth p y 0 * e p) + nth i y 0 * c)
             0 (n - 1) f b) as (y & E & L & V) end; try lia.
  - split; auto. intros i Hi. rewrite Nat.min_0_r. exists (fun _ => 1), 1. split; [intros; apply near_0|].
    split; [apply near_0|]. simpl. ring.
  - intros k y Hk (L & V). rewrite (aget_ret y k 0) by lia. cbn [bind].
    set (yk := nth k y 0).
    match goal with |- exists s, for_range _ _ ?f y = _ /\ _ =>
    destruct (for_range_total (fun r z => length z = n /\ forall i, nth i z 0 =
               if (k <? i)%nat && (i <? r)%nat then rnd (nth i y 0 - rnd (F i k * yk)) else nth i y 0)
               (k + 1) n f y) as (z & E & Lz & Vz) end; try lia.
    + split; auto. intros i. destruct (k <? i)%nat eqn:E1, (i <? k + 1)%nat eqn:E2; auto.
      apply Nat.ltb_lt in E1, E2. lia.
    + intros r z Hr0 (Lz & Vz). rewrite mget_ret by lia. cbn [bind].
      rewrite (aget_ret z r 0) by lia. cbn [bind]. rewrite aset_ret by lia.
      eexists; split; [reflexivity|]. rewrite upd_length. split; auto.
      intros i. rewrite nth_upd, Lz.
      replace (r <? n)%nat with true by (symmetry; apply Nat.ltb_lt; lia). rewrite andb_true_r.
      destruct (r =? i)%nat eqn:E1.
      * apply Nat.eqb_eq in E1; subst i.
        replace (k <? r)%nat with true by (symmetry; apply Nat.ltb_lt; lia).
        replace (r <? r + 1)%nat with true by (symmetry; apply Nat.ltb_lt; lia). cbn [andb].
        rewrite Vz, Nat.ltb_irrefl, andb_false_r. reflexivity.
      * apply Nat.eqb_neq in E1. rewrite Vz.
        replace (i <? r + 1)%nat with (i <? r)%nat; auto.
        destruct (i <? r)%nat eqn:E2, (i <? r + 1)%nat eqn:E3; auto;
          rewrite ?Nat.ltb_lt, ?Nat.ltb_ge in *; lia.
    + exists z. split; [exact E|]. split; auto. intros i Hi. destruct (V i Hi) as (e & c & Ne & Nc & ->).
      assert (Hlow : forall p, (p <= k)%nat -> nth p z 0 = nth p y 0).
      { intros p Hp. rewrite Vz. replace (k <? p)%nat with false by (symmetry; apply Nat.ltb_ge; lia). reflexivity. }
      destruct (Nat.le_gt_cases i k) as [Hik|Hik].
      * exists e, c. rewrite !Nat.min_l in * by lia. split; [exact Ne|]. split; [exact Nc|]. rewrite Hlow by lia. f_equal.
        apply rsum_ext. intros p Hp. rewrite Hlow by lia. reflexivity.
      * rewrite !Nat.min_r in * by lia. destruct (eliminated (nth i y 0) (F i k) yk) as (d1 & d2 & N1 & N2 & Eq).
        exists (fun p => if (p =? k)%nat then c * d2 else e p), (c * d1).
        split; [intros p; destruct (p =? k)%nat; [apply (near_mult u rnd Hr); assumption|apply (near_le u rnd Hr k); [lia|apply Ne]]|].
        split; [apply (near_mult u rnd Hr); assumption|].
        replace (k + 1)%nat with (S k) by lia. cbn [rsum]. rewrite Nat.eqb_refl.
        rewrite (Vz i). replace (k <? i)%nat with true by (symmetry; apply Nat.ltb_lt; lia).
        replace (i <? n)%nat with true by (symmetry; apply Nat.ltb_lt; lia). cbn [andb].
        rewrite (Hlow k) by lia. fold yk.
        rewrite (rsum_ext k (fun p => F i p * nth p z 0 * (if (p =? k)%nat then c * d2 else e p)) (fun p => F i p * nth p y 0 * e p));
          [rewrite Eq at 1; ring|].
        intros p Hp. rewrite Hlow by lia. replace (p =? k)%nat with false by (symmetry; apply Nat.eqb_neq; lia). reflexivity.
  - exists y. split; [exact E|]. split; auto. intros i Hi. destruct (V i Hi) as (e & c & Ne & Nc & ->).
    rewrite Nat.min_l in * by lia.
    exists (fun p => if (p =? i)%nat then c else e p).
    split; [intros p; apply (near_le u rnd Hr i); [lia|]; destruct (p =? i)%nat; auto|].
    rewrite (rsum_cut n (S i)).
    + cbn [rsum]. unfold Lpart at 2. rewrite Nat.ltb_irrefl, Nat.eqb_refl.
      rewrite Rmult_1_l. f_equal. apply rsum_ext. intros p Hp.
      replace (p =? i)%nat with false by (symmetry; apply Nat.eqb_neq; lia).
      unfold Lpart. apply Nat.ltb_lt in Hp. rewrite Hp. reflexivity.
    + lia.
    + intros p Hp. unfold Lpart.
      replace (p <? i)%nat with false by (symmetry; apply Nat.ltb_ge; lia).
      replace (p =? i)%nat with false by (symmetry; apply Nat.eqb_neq; lia). ring.
Qed.

(** Loop invariant of backward substitution. *)
Definition rbs_inv (F : nat -> nat -> R) (n : nat) (y : list R) (k : nat) (b : list R) : Prop :=
  length b = n /\ forall i, (i < n)%nat -> exists e c, (forall p, near u (n - k) (e p)) /\ near u (n - k) c /\
    nth i y 0 = rsum n (fun p => if (k <=? p)%nat && (i <=? p)%nat then F i p * nth p b 0 * e p else 0)
                + (if (i <? k)%nat then nth i b 0 * c else 0).

Lemma divided a p : p <> 0 -> exists c, near u 1 c /\ a = rnd (a / p) * p * c.
Proof.
  intros Hp. destruct (rnd_near u rnd Hr (a / p)) as (d & Ed & Nd). rewrite Ed.
  exists (/ d). split; [apply (near_inv u rnd Hr); exact Nd|].
  pose proof (near_pos u rnd Hr _ _ Nd). field. split; lra.
Qed.

Lemma rbs_step F n y k (b z : list R) v :
  (k < n)%nat -> F k k <> 0 -> rbs_inv F n y (S k) b ->
  length z = n -> v = rnd (nth k b 0 / F k k) -> nth k z 0 = v ->
  (forall i, (k < i < n)%nat -> nth i z 0 = nth i b 0) ->
  (forall i, (i < k)%nat -> nth i z 0 = rnd (nth i b 0 - rnd (F i k * v))) ->
  rbs_inv F n y k z.
Proof.
  intros Hk Hd (L & V) Lz Ev Zk Zhi Zlo. split; auto. intros i Hi. destruct (V i Hi) as (e & c & Ne & Nc & ->).
  cut (exists ek c', near u (n - k) ek /\ near u (n - k) c' /\
        (if (i <? S k)%nat then nth i b 0 * c else 0) =
        (if (i <=? k)%nat then F i k * v * ek else 0) + (if (i <? k)%nat then nth i z 0 * c' else 0)).
  { intros (ek & c' & Nk & Nc' & Eq). exists (fun p => if (p =? k)%nat then ek else e p), c'.
    split; [intros p; destruct (p =? k)%nat; [exact Nk|apply (near_le u rnd Hr (n - S k)); [lia|apply Ne]]|].
    split; [exact Nc'|]. rewrite Eq, <- Rplus_assoc. f_equal.
    rewrite (rsum_ext n (fun p => if (k <=? p)%nat && (i <=? p)%nat then F i p * nth p z 0 * (if (p =? k)%nat then ek else e p) else 0)
       (fun p => (if (S k <=? p)%nat && (i <=? p)%nat then F i p * nth p b 0 * e p else 0)
                 + (if (p =? k)%nat then (if (i <=? k)%nat then F i k * v * ek else 0) else 0))).
    2:{ intros p Hp. destruct (Nat.lt_trichotomy p k) as [Hpk|[Hpk|Hpk]].
        - replace (k <=? p)%nat with false by (symmetry; apply Nat.leb_gt; lia).
          replace (S k <=? p)%nat with false by (symmetry; apply Nat.leb_gt; lia).
          replace (p =? k)%nat with false by (symmetry; apply Nat.eqb_neq; lia). simpl. ring.
        - subst p. rewrite Nat.leb_refl, Nat.eqb_refl.
          replace (S k <=? k)%nat with false by (symmetry; apply Nat.leb_gt; lia). cbn [andb].
          rewrite Zk. destruct (i <=? k)%nat; ring.
        - replace (k <=? p)%nat with true by (symmetry; apply Nat.leb_le; lia).
          replace (S k <=? p)%nat with true by (symmetry; apply Nat.leb_le; lia).
          replace (p =? k)%nat with false by (symmetry; apply Nat.eqb_neq; lia). cbn [andb].
          rewrite Zhi by lia. ring. }
    rewrite rsum_plus. rewrite (rsum_single n k (fun p => if (p =? k)%nat then _ else 0)); auto.
    2:{ intros p Hp Hne. apply Nat.eqb_neq in Hne. rewrite Hne. reflexivity. }
    rewrite Nat.eqb_refl. reflexivity. }
  destruct (Nat.lt_trichotomy i k) as [Hik|[Hik|Hik]].
  - destruct (eliminated (nth i b 0) (F i k) v) as (d1 & d2 & N1 & N2 & Eq).
    exists (c * d2), (c * d1). replace (n - k)%nat with (n - S k + 1)%nat by lia.
    split; [apply (near_mult u rnd Hr); assumption|]. split; [apply (near_mult u rnd Hr); assumption|].
    replace (i <? S k)%nat with true by (symmetry; apply Nat.ltb_lt; lia).
    replace (i <=? k)%nat with true by (symmetry; apply Nat.leb_le; lia).
    replace (i <? k)%nat with true by (symmetry; apply Nat.ltb_lt; lia).
    rewrite Zlo by lia. rewrite Eq at 1. ring.
  - subst i. destruct (divided (nth k b 0) (F k k) Hd) as (d & Nd & Eq).
    exists (c * d), 1. replace (n - k)%nat with (n - S k + 1)%nat by lia.
    split; [apply (near_mult u rnd Hr); assumption|]. split; [apply (near_1 u rnd Hr)|].
    replace (k <? S k)%nat with true by (symmetry; apply Nat.ltb_lt; lia).
    rewrite Nat.leb_refl, Nat.ltb_irrefl. rewrite Eq at 1. rewrite <- Ev. ring.
  - exists 1, 1. split; [apply (near_1 u rnd Hr)|]. split; [apply (near_1 u rnd Hr)|].
    replace (i <? S k)%nat with false by (symmetry; apply Nat.ltb_ge; lia).
    replace (i <=? k)%nat with false by (symmetry; apply Nat.leb_gt; lia).
    replace (i <? k)%nat with false by (symmetry; apply Nat.ltb_ge; lia). ring.
Qed.

Lemma rnd_backward (a : mat R) n (y : list R) :
  (1 <= n)%nat -> nrows a = n -> ncols a = n -> length y = n ->
  (forall p, (p < n)%nat -> elem a p p <> 0) ->
  exists x, backward_subst a n y = Ret x /\ length x = n /\
    forall i, (i < n)%nat -> exists e, (forall p, near u n (e p)) /\
      nth i y 0 = rsum n (fun p => Upart (elem a) i p * nth p x 0 * e p).
Proof.
  intros Hn Dr Dc Ly Hd. unfold backward_subst. set (F := elem a) in *.
  match goal with |- context [for_range_rev 1 n ?f y] =>
    destruct (for_range_rev_total (rbs_inv F n y) 1 n f y) as (b & E & I) end; try lia.
  - split; auto. intros i Hi. exists (fun _ => 1), 1. rewrite Nat.sub_diag.
    split; [intros; apply near_0|]. split; [apply near_0|].
    rewrite rsum_0.
    + apply Nat.ltb_lt in Hi. rewrite Hi. ring.
    + intros p Hp. replace (n <=? p)%nat with false by (symmetry; apply Nat.leb_gt; lia). reflexivity.
  - intros k b Hk I. assert (L := proj1 I).
    rewrite (aget_ret b k 0) by lia. cbn [bind]. rewrite mget_ret by lia. cbn [bind].
    rewrite aset_ret by lia. cbn [bind].
    rewrite (aget_ret _ k 0) by (rewrite upd_length; lia). cbn [bind].
    rewrite nth_upd_eq by lia. fold F.
    change (sdiv (nth k b 0) (F k k)) with (rnd (nth k b 0 / F k k)).
    set (v := rnd (nth k b 0 / F k k)).
    match goal with |- exists s, for_range 0 k ?f ?b0 = _ /\ _ =>
    destruct (for_range_total (fun r z => length z = n /\ forall i, nth i z 0 =
               if (i <? r)%nat then rnd (nth i b0 0 - rnd (F i k * v)) else nth i b0 0)
               0 k f b0) as (z & E & Lz & Vz) end; try lia.
    + rewrite upd_length. split; auto.
    + intros r z Hr0 (Lz & Vz). rewrite mget_ret by lia. cbn [bind].
      rewrite (aget_ret z r 0) by lia. cbn [bind]. rewrite aset_ret by lia.
      eexists; split; [reflexivity|]. rewrite upd_length. split; auto.
      intros i. rewrite nth_upd, Lz.
      replace (r <? n)%nat with true by (symmetry; apply Nat.ltb_lt; lia). rewrite andb_true_r.
      destruct (r =? i)%nat eqn:E1.
      * apply Nat.eqb_eq in E1; subst i.
        replace (r <? r + 1)%nat with true by (symmetry; apply Nat.ltb_lt; lia).
        rewrite Vz, Nat.ltb_irrefl. reflexivity.
      * apply Nat.eqb_neq in E1. rewrite Vz.
        replace (i <? r + 1)%nat with (i <? r)%nat; auto.
        destruct (i <? r)%nat eqn:E2, (i <? r + 1)%nat eqn:E3; auto;
          rewrite ?Nat.ltb_lt, ?Nat.ltb_ge in *; lia.
    + exists z. split; [exact E|].
      replace (k + 1)%nat with (S k) in I by lia.
      apply (rbs_step F n y k b z v); auto; try lia.
      * apply Hd; lia.
      * rewrite Vz, Nat.ltb_irrefl. apply nth_upd_eq. lia.
      * intros i Hi. rewrite Vz. replace (i <? k)%nat with false by (symmetry; apply Nat.ltb_ge; lia).
        apply nth_upd_neq. lia.
      * intros i Hi. rewrite Vz. replace (i <? k)%nat with true by (symmetry; apply Nat.ltb_lt; lia).
        rewrite nth_upd_neq by lia. reflexivity.
  - rewrite E. cbn [bind]. assert (L := proj1 I).
    rewrite (aget_ret b 0%nat 0) by lia. cbn [bind]. rewrite mget_ret by lia. cbn [bind].
    rewrite aset_ret by lia. eexists; split; [reflexivity|]. rewrite upd_length.
    split; auto. fold F. change (sdiv (nth 0 b 0) (F 0%nat 0%nat)) with (rnd (nth 0 b 0 / F 0%nat 0%nat)).
    set (v := rnd (nth 0 b 0 / F 0%nat 0%nat)).
    assert (I0 : rbs_inv F n y 0 (upd b 0 v)).
    { apply (rbs_step F n y 0 b _ v); auto; try lia.
      - rewrite upd_length; auto.
      - apply nth_upd_eq; lia.
      - intros i Hi. apply nth_upd_neq. lia. }
    intros i Hi. destruct (proj2 I0 i Hi) as (e & c & Ne & _ & ->). exists e. rewrite Nat.sub_0_r in Ne. split; [exact Ne|].
    replace (i <? 0)%nat with false by (symmetry; apply Nat.ltb_ge; lia). rewrite Rplus_0_r.
    apply rsum_ext. intros p Hp. unfold Upart. cbn [Nat.leb andb].
    destruct (i <=? p)%nat; ring.
Qed.

(** The computed solution solves a perturbed system, row by row. *)
Lemma rnd_solve n (A : nat -> nat -> R) piv0 F piv b tol :
  (1 <= n)%nat -> length piv0 = n -> length b = n ->
  dense_setup piv0 (mkmat n n A) = Ret (piv, F, Ok tt) ->
  exists x dA, dense_solve piv F b tol = Ret x /\ length x = n /\
    solves n (fun i j => A i j + dA i j) x b /\
    forall i j, (i < n)%nat -> (j < n)%nat ->
      Rabs (dA (row_of piv n i) j) <= ((/ (1 - u)) ^ (3 * n) - 1) * rsum n (fun p => Rabs (Lpart (elem F) i p) * Rabs (Upart (elem F) p j)).
Proof.
  intros Hn Lp0 Lb E.
  destruct (rnd_factor n n A (le_n n) piv0 F piv Lp0 E) as (Dr & Dc & Lp & (Hf & Hd & _ & Hpv & _)).
  unfold dense_solve, dense_get_rs. rewrite Dc.
  destruct (rnd_permute n piv b) as (b1 & E1 & L1 & V1); auto.
  rewrite E1. cbn [bind].
  destruct (rnd_forward F n b1) as (y & E2 & L2 & V2); auto.
  rewrite E2. cbn [bind].
  destruct (rnd_backward F n y) as (x & E3 & L3 & V3); auto.
  destruct (finite_choice _ (fun _ => 1) n V3) as (eu & Hu). clear V3.
  set (Lf := Lpart (elem F)) in *. set (Uf := Upart (elem F)) in *.
  destruct (finite_choice (fun r (row : nat -> R) =>
     rsum n (fun j => (A r j + row j) * nth j x 0) = nth r b 0 /\
     forall i, (i < n)%nat -> row_of piv n i = r -> forall j, (j < n)%nat ->
       Rabs (row j) <= ((/ (1 - u)) ^ (3 * n) - 1) * rsum n (fun p => Rabs (Lf i p) * Rabs (Uf p j))) (fun _ => 0) n) as (dA & HA).
  { intros r Hri. destruct (row_of_onto piv n n (le_n n) Hpv r Hri) as (i & Hi & Er).
    destruct (V2 i Hi) as (el & Nl & Eb).
    exists (fun j => rsum n (fun p => Lf i p * Uf p j * (el p * eu p j)) - A r j). split.
    - rewrite (rsum_ext n _ (fun j => rsum n (fun p => Lf i p * el p * (Uf p j * nth j x 0 * eu p j)))).
      + rewrite rsum_swap, <- Er, <- V1, Eb by exact Hi. apply rsum_ext. intros p Hp. rewrite rsum_scal.
        rewrite <- (proj2 (Hu p Hp)). ring.
      + intros j Hj. replace (A r j + (rsum n (fun p => Lf i p * Uf p j * (el p * eu p j)) - A r j))
          with (rsum n (fun p => Lf i p * Uf p j * (el p * eu p j))) by ring.
        rewrite <- rsum_scal_r. apply rsum_ext. intros p Hp. ring.
    - intros i' Hi' Er' j Hj. assert (i' = i) by (apply (row_of_inj piv n); congruence). subst i'.
      destruct (Hf i j Hi Hj) as (e & c & Ne & _ & Ea). rewrite Er in Ea.
      replace (n <=? i)%nat with false in Ea by (symmetry; apply Nat.leb_gt; lia). cbn [andb] in Ea. rewrite Rplus_0_r in Ea.
      rewrite Ea. change (Lpart (elem F)) with Lf. change (Upart (elem F)) with Uf. rewrite <- rsum_minus.
      eapply Rle_trans; [apply rsum_abs_le|]. rewrite <- rsum_scal. apply rsum_le. intros p Hp.
      replace (Lf i p * Uf p j * (el p * eu p j) - Lf i p * Uf p j * e p) with (Lf i p * Uf p j * (el p * eu p j - e p)) by ring.
      rewrite !Rabs_mult, Rmult_comm. apply Rmult_le_compat_r; [apply Rmult_le_pos; apply Rabs_pos|].
      replace (3 * n)%nat with ((n - 1 + n) + (n + 1))%nat by lia. apply (near_diff u rnd Hr).
      + apply (near_mult u rnd Hr); [apply Nl|apply Hu; exact Hp].
      + apply Ne. exact Hp. }
  exists x, dA. split; [exact E3|]. split; [exact L3|]. split.
  - intros r Hri. apply HA. exact Hri.
  - intros i j Hi Hj. apply (proj2 (HA (row_of piv n i) (row_of_lt piv n n (le_n n) Hpv i Hi)) i Hi eq_refl j Hj).
Qed.

(** The factors. *)
Lemma rnd_lu m n (A : nat -> nat -> R) piv0 F piv :
  (n <= m)%nat -> length piv0 = n ->
  dense_setup piv0 (mkmat m n A) = Ret (piv, F, Ok tt) ->
  forall i j, (i < m)%nat -> (j < n)%nat ->
    Rabs (A (row_of piv n i) j - rsum n (fun p => Lpart (elem F) i p * Upart (elem F) p j))
    <= ((/ (1 - u)) ^ (n + 1) - 1) * rsum n (fun p => Rabs (Lpart (elem F) i p) * Rabs (Upart (elem F) p j)).
Proof.
  intros Hmn Lp0 E i j Hi Hj.
  destruct (rnd_factor m n A Hmn piv0 F piv Lp0 E) as (Dr & Dc & Lp & (Hf & _)).
  destruct (Hf i j Hi Hj) as (e & c & Ne & _ & ->).
  replace (n <=? j)%nat with false by (symmetry; apply Nat.leb_gt; lia). rewrite andb_false_r, Rplus_0_r.
  rewrite <- rsum_minus. eapply Rle_trans; [apply rsum_abs_le|]. rewrite <- rsum_scal. apply rsum_le. intros p Hp.
  set (v := Lpart (elem F) i p * Upart (elem F) p j). replace (v * e p - v) with (v * (e p - 1)) by ring. unfold v.
  rewrite !Rabs_mult, Rmult_comm. apply Rmult_le_compat_r; [apply Rmult_le_pos; apply Rabs_pos|].
  pose proof (near_diff u rnd Hr (n + 1) 0 (e p) 1 (Ne p Hp) (near_0 u)) as D. rewrite Nat.add_0_r in D. exact D.
Qed.
End Rnd.
