(** * DenseR: correctness of the dense solver in exact arithmetic *)
Require Import List Arith Bool Lia Reals Lra.
Import ListNotations.
Require Import Verif.Base Verif.Scalar Verif.ScalarR Verif.Dense Verif.BaseFacts
  Verif.RSum Verif.DenseSpec Verif.DenseFacts.
Open Scope R_scope.

Lemma transp_lt k l i m : (k < m)%nat -> (l < m)%nat -> (i < m)%nat -> (transp k l i < m)%nat.
Proof.
  intros Hk Hl Hi. unfold transp. destruct (i =? k)%nat; auto. destruct (i =? l)%nat; auto.
Qed.

Lemma transp_invol k l i : transp k l (transp k l i) = i.
Proof.
  unfold transp. destruct (i =? k)%nat eqn:E1.
  - apply Nat.eqb_eq in E1; subst. rewrite Nat.eqb_refl.
    destruct (l =? k)%nat eqn:E2; auto. apply Nat.eqb_eq in E2; auto.
  - destruct (i =? l)%nat eqn:E2.
    + apply Nat.eqb_eq in E2; subst. rewrite Nat.eqb_refl. reflexivity.
    + rewrite E1, E2. reflexivity.
Qed.

Lemma transp_id_below k l i : (k <= l)%nat -> (i < k)%nat -> transp k l i = i.
Proof.
  intros Hkl Hi. unfold transp.
  replace (i =? k)%nat with false by (symmetry; apply Nat.eqb_neq; lia).
  replace (i =? l)%nat with false by (symmetry; apply Nat.eqb_neq; lia). reflexivity.
Qed.

Lemma transp_ge k l i : (k <= l)%nat -> (k <= i)%nat -> (k <= transp k l i)%nat.
Proof.
  intros Hkl Hi. unfold transp. destruct (i =? k)%nat; auto. destruct (i =? l)%nat; auto.
Qed.

Lemma transp_k k l : transp k l k = l.
Proof. unfold transp. rewrite Nat.eqb_refl. reflexivity. Qed.

Lemma row_of_ext p q k : (forall i, (i < k)%nat -> nth i p 0%nat = nth i q 0%nat) ->
  forall i, row_of p k i = row_of q k i.
Proof.
  induction k as [|k IH]; simpl; intros Hpq i; auto.
  rewrite Hpq by lia. apply IH. intros; apply Hpq; lia.
Qed.

(** The row permutation is a bijection of the rows. *)
Lemma row_of_lt piv m k : (k <= m)%nat -> (forall i, (i < k)%nat -> (i <= nth i piv 0 < m)%nat) ->
  forall i, (i < m)%nat -> (row_of piv k i < m)%nat.
Proof.
  induction k as [|k IH]; simpl; intros Hk Hp i Hi; auto.
  assert (Hpk := Hp k ltac:(lia)).
  apply IH; [lia | intros; apply Hp; lia|]. apply transp_lt; lia.
Qed.

Lemma row_of_onto piv m k : (k <= m)%nat -> (forall i, (i < k)%nat -> (i <= nth i piv 0 < m)%nat) ->
  forall r, (r < m)%nat -> exists i, (i < m)%nat /\ row_of piv k i = r.
Proof.
  induction k as [|k IH]; simpl; intros Hk Hp r Hr; [eauto|].
  assert (Hpk := Hp k ltac:(lia)).
  destruct (IH ltac:(lia) ltac:(intros; apply Hp; lia) r Hr) as (i & Hi & E).
  exists (transp k (nth k piv 0%nat) i). split; [apply transp_lt; lia|].
  rewrite transp_invol. exact E.
Qed.

Lemma row_of_inj piv k : forall i j, row_of piv k i = row_of piv k j -> i = j.
Proof.
  induction k as [|k IH]; simpl; intros i j E; auto.
  apply IH in E. rewrite <- (transp_invol k (nth k piv 0%nat) i), E. apply transp_invol.
Qed.

(** Pivot search returns an entry of maximal absolute value. *)
Lemma pivot_search_max (a : mat R) k l :
  (k < nrows a)%nat -> (k < ncols a)%nat -> pivot_search a k = Ret l ->
  forall i, (k <= i < nrows a)%nat -> Rabs (elem a i k) <= Rabs (elem a l k).
Proof.
  intros Hk Hc E. unfold pivot_search in E.
  eapply (for_range_inv (fun i l => (k <= l < i)%nat /\ forall r, (k <= r < i)%nat ->
            Rabs (elem a r k) <= Rabs (elem a l k))) in E; try lia.
  - apply E.
  - split; [lia|]. intros r Hr. replace r with k by lia. lra.
  - intros i l0 l' Hi (Hl & Hm) E'. rewrite !mget_ret in E' by lia. simpl in E'.
    destruct (Rltb (Rabs (elem a l0 k)) (Rabs (elem a i k))) eqn:El; inversion E'; subst.
    + apply Rltb_true in El. split; [lia|]. intros r Hr.
      destruct (Nat.eq_dec r l') as [->|Hne]; [lra|].
      apply Rle_trans with (Rabs (elem a l0 k)); [apply Hm; lia | lra].
    + apply Rltb_false in El. split; [lia|]. intros r Hr.
      destruct (Nat.eq_dec r i) as [->|Hne]; [lra|]. apply Hm; lia.
Qed.

Section Factor.
Variables (m n : nat) (A : nat -> nat -> R).
Hypothesis Hmn : (n <= m)%nat.

(** Invariant after [k] elimination steps. *)
Definition rf_inv (k : nat) (F : nat -> nat -> R) (piv : list nat) : Prop :=
  (forall i j, (i < m)%nat -> (j < n)%nat ->
     A (row_of piv k i) j =
     rsum k (fun p => Lpart F i p * Upart F p j)
     + (if (k <=? i)%nat && (k <=? j)%nat then F i j else 0)) /\
  (forall p, (p < k)%nat -> F p p <> 0) /\
  (forall p i, (p < k)%nat -> (p < i < m)%nat -> Rabs (F i p) <= 1) /\
  (forall p, (p < k)%nat -> (p <= nth p piv 0 < m)%nat).

Lemma rf_inv_0 piv : rf_inv 0 A piv.
Proof.
  split; [|repeat split; intros; lia].
  intros i j Hi Hj. simpl. ring.
Qed.

Lemma rf_step_inv k (a : mat R) piv a' piv' :
  nrows a = m -> ncols a = n -> (k < n)%nat -> (n <= length piv)%nat ->
  rf_inv k (elem a) piv ->
  rf_step a piv k = Ret (a', piv', Ok tt) ->
  nrows a' = m /\ ncols a' = n /\ length piv' = length piv /\ rf_inv (S k) (elem a') piv'.
Proof.
  intros Dm Dn Hk Hlp (Hf & Hd & Hmul & Hpv) E.
  destruct (rf_step_ret a piv k) as (l & El & Hl & Hs); try lia.
  rewrite E in Hs.
  destruct (seqb (elem a l k) szero) eqn:Ez; [discriminate Hs|].
  destruct Hs as (a2 & E2 & (D1 & D2) & V). inversion E2; subst a2 piv'. clear E2.
  assert (Hnz : elem a l k <> 0) by (apply Reqb_false; exact Ez).
  assert (Hmax := pivot_search_max a k l ltac:(lia) ltac:(lia) El).
  set (t := transp k l) in *. set (F := elem a) in *. set (F' := elem a') in *.
  assert (Ht : forall i, (i < m)%nat -> (t i < m)%nat) by (intros; apply transp_lt; lia).
  assert (Htb : forall i, (i < k)%nat -> t i = i) by (intros; apply transp_id_below; lia).
  assert (Htg : forall i, (k <= i)%nat -> (k <= t i)%nat) by (intros; apply transp_ge; lia).
  assert (Htk : t k = l) by apply transp_k.
  (* entries of F' *)
  assert (V1 : forall i j, (i < m)%nat -> (j < n)%nat -> (i <= k)%nat -> F' i j = F (t i) j).
  { intros i j Hi Hj Hik. unfold F'. rewrite V by lia. cbv zeta.
    replace (k <? i)%nat with false by (symmetry; apply Nat.ltb_ge; lia). reflexivity. }
  assert (V2 : forall i j, (i < m)%nat -> (j < k)%nat -> F' i j = F (t i) j).
  { intros i j Hi Hj. unfold F'. rewrite V by lia. cbv zeta.
    replace (j =? k)%nat with false by (symmetry; apply Nat.eqb_neq; lia).
    replace (k <? j)%nat with false by (symmetry; apply Nat.ltb_ge; lia).
    destruct (k <? i)%nat; reflexivity. }
  assert (V3 : forall i, (k < i < m)%nat -> F' i k = F (t i) k / F l k).
  { intros i Hi. unfold F'. rewrite V by lia. cbv zeta.
    replace (k <? i)%nat with true by (symmetry; apply Nat.ltb_lt; lia).
    rewrite Nat.eqb_refl. unfold srecip. simpl. fold t. rewrite Htk. unfold F. field. exact Hnz. }
  assert (V4 : forall i j, (k < i < m)%nat -> (k < j < n)%nat ->
                 F' i j = F (t i) j - F l j * F' i k).
  { intros i j Hi Hj. rewrite V3 by lia. unfold F'. rewrite V by lia. cbv zeta.
    replace (k <? i)%nat with true by (symmetry; apply Nat.ltb_lt; lia).
    replace (j =? k)%nat with false by (symmetry; apply Nat.eqb_neq; lia).
    replace (k <? j)%nat with true by (symmetry; apply Nat.ltb_lt; lia).
    fold t. rewrite Htk. unfold sneqb, srecip. simpl. fold F.
    destruct (Reqb (F l j) 0) eqn:E0; simpl.
    - apply Reqb_true in E0. rewrite E0. unfold F. field. exact Hnz.
    - unfold F. field. exact Hnz. }
  assert (Hrow : forall i, row_of (upd piv k l) (S k) i = row_of piv k (t i)).
  { intros i. simpl. rewrite nth_upd_eq by lia. apply row_of_ext.
    intros p Hp. apply nth_upd_neq. lia. }
  split; [congruence|]. split; [congruence|]. split; [apply upd_length|].
  split; [|split; [|split]].
  - intros i j Hi Hj. rewrite Hrow. rewrite Hf by (auto; lia). cbn [rsum].
    rewrite (rsum_ext k (fun p => Lpart F' i p * Upart F' p j)
                        (fun p => Lpart F (t i) p * Upart F p j)).
    2:{ intros p Hp. f_equal.
        - unfold Lpart. destruct (Nat.lt_ge_cases i k) as [Hik|Hik].
          + rewrite (Htb i) by lia.
            destruct (p <? i)%nat eqn:Epi; [|reflexivity].
            rewrite V2 by (auto; lia). rewrite Htb by lia. reflexivity.
          + replace (p <? i)%nat with true by (symmetry; apply Nat.ltb_lt; lia).
            assert (k <= t i)%nat by (apply Htg; lia).
            replace (p <? t i)%nat with true by (symmetry; apply Nat.ltb_lt; lia).
            apply V2; lia.
        - unfold Upart. destruct (p <=? j)%nat eqn:Epj; [|reflexivity].
          rewrite V1 by lia. rewrite Htb by lia. reflexivity. }
    rewrite Rplus_assoc. f_equal.
    destruct (Nat.lt_trichotomy i k) as [Hik|[Hik|Hik]].
    + rewrite Htb by lia.
      replace (k <=? i)%nat with false by (symmetry; apply Nat.leb_gt; lia).
      replace (S k <=? i)%nat with false by (symmetry; apply Nat.leb_gt; lia).
      unfold Lpart. replace (k <? i)%nat with false by (symmetry; apply Nat.ltb_ge; lia).
      replace (k =? i)%nat with false by (symmetry; apply Nat.eqb_neq; lia). simpl. ring.
    + subst i. rewrite Htk.
      replace (k <=? l)%nat with true by (symmetry; apply Nat.leb_le; lia).
      replace (S k <=? k)%nat with false by (symmetry; apply Nat.leb_gt; lia).
      unfold Lpart. rewrite Nat.ltb_irrefl, Nat.eqb_refl. cbn [andb].
      unfold Upart. destruct (k <=? j)%nat eqn:Ekj; [|ring].
      rewrite V1 by lia. rewrite Htk. ring.
    + assert (k <= t i)%nat by (apply Htg; lia).
      replace (k <=? t i)%nat with true by (symmetry; apply Nat.leb_le; lia).
      replace (S k <=? i)%nat with true by (symmetry; apply Nat.leb_le; lia). cbn [andb].
      unfold Lpart. replace (k <? i)%nat with true by (symmetry; apply Nat.ltb_lt; lia).
      unfold Upart.
      destruct (Nat.lt_trichotomy j k) as [Hjk|[Hjk|Hjk]].
      * replace (k <=? j)%nat with false by (symmetry; apply Nat.leb_gt; lia).
        replace (S k <=? j)%nat with false by (symmetry; apply Nat.leb_gt; lia). ring.
      * subst j. rewrite Nat.leb_refl.
        replace (S k <=? k)%nat with false by (symmetry; apply Nat.leb_gt; lia).
        rewrite V3 by lia. rewrite V1 by lia. rewrite Htk. field. exact Hnz.
      * replace (k <=? j)%nat with true by (symmetry; apply Nat.leb_le; lia).
        replace (S k <=? j)%nat with true by (symmetry; apply Nat.leb_le; lia).
        rewrite (V4 i j) by lia. rewrite (V1 k j) by lia. rewrite Htk. ring.
  - intros p Hp. destruct (Nat.eq_dec p k) as [->|Hne].
    + rewrite V1 by lia. rewrite Htk. exact Hnz.
    + rewrite V2 by lia. rewrite Htb by lia. apply Hd; lia.
  - intros p i Hp Hi. destruct (Nat.eq_dec p k) as [->|Hne].
    + rewrite V3 by lia. unfold Rdiv. rewrite Rabs_mult, Rabs_inv.
      assert (Hpos : 0 < Rabs (F l k)) by (apply Rabs_pos_lt; exact Hnz).
      apply Rmult_le_reg_r with (Rabs (F l k)); [exact Hpos|].
      rewrite Rmult_assoc, Rinv_l by lra. rewrite Rmult_1_r, Rmult_1_l.
      apply Hmax. split; [apply Htg; lia | rewrite Dm; apply Ht; lia].
    + rewrite V2 by lia. apply Hmul; [lia|]. destruct (Nat.lt_ge_cases i k) as [Hik|Hik].
      * rewrite Htb by lia. lia.
      * assert (k <= t i)%nat by (apply Htg; lia). assert (t i < m)%nat by (apply Ht; lia). lia.
  - intros p Hp. rewrite nth_upd.
    replace (k <? length piv)%nat with true by (symmetry; apply Nat.ltb_lt; lia).
    destruct (k =? p)%nat eqn:Ekp; cbn [andb].
    + apply Nat.eqb_eq in Ekp; subst p; lia.
    + apply Nat.eqb_neq in Ekp. apply Hpv. lia.
Qed.

(** On failure at step [c-1] the invariant holds with a vanishing column. *)
Lemma rf_step_err k (a : mat R) piv a' piv' c :
  nrows a = m -> ncols a = n -> (k < n)%nat -> (n <= length piv)%nat ->
  rf_step a piv k = Ret (a', piv', Err c) ->
  c = (k + 1)%nat /\ a' = a /\ forall i, (k <= i < m)%nat -> elem a i k = 0.
Proof.
  intros Dm Dn Hk Hlp E.
  destruct (rf_step_ret a piv k) as (l & El & Hl & Hs); try lia.
  rewrite E in Hs.
  destruct (seqb (elem a l k) szero) eqn:Ez.
  - inversion Hs; subst. split; auto. split; auto.
    apply Reqb_true in Ez. simpl in Ez. intros i Hi.
    assert (Hm := pivot_search_max a k l ltac:(lia) ltac:(lia) El i ltac:(lia)).
    rewrite Ez, Rabs_R0 in Hm. assert (Hp := Rabs_pos (elem a i k)).
    destruct (Req_dec (elem a i k) 0) as [|Hne]; auto.
    apply Rabs_pos_lt in Hne. lra.
  - destruct Hs as (a2 & E2 & _). discriminate E2.
Qed.

Lemma rf_loop_inv cnt : forall k (a : mat R) piv a' piv' r,
  nrows a = m -> ncols a = n -> (k + cnt = n)%nat -> (n <= length piv)%nat ->
  rf_inv k (elem a) piv ->
  rf_loop cnt k a piv = Ret (a', piv', r) ->
  match r with
  | Ok _ => nrows a' = m /\ ncols a' = n /\ length piv' = length piv /\ rf_inv n (elem a') piv'
  | Err c => exists k' q, (k <= k' < n)%nat /\ c = (k' + 1)%nat /\
               rf_inv k' (elem a') q /\ forall i, (k' <= i < m)%nat -> elem a' i k' = 0
  end.
Proof.
  induction cnt as [|cnt IH]; intros k a piv a' piv' r Dm Dn Hkc Hlp Hinv E; simpl in E.
  - inversion E; subst a' piv' r. replace n with k in * by lia. auto.
  - apply bind_ret_inv in E. destruct E as (((a1 & p1) & r1) & E1 & E2).
    destruct r1 as [[]|c].
    + destruct (rf_step_inv k a piv a1 p1) as (D1 & D2 & L & Hi); auto; try lia.
      specialize (IH (S k) a1 p1 a' piv' r D1 D2 ltac:(lia) ltac:(lia) Hi E2).
      destruct r as [[]|c].
      * rewrite L in IH. exact IH.
      * destruct IH as (k' & q & Hk' & Hrest). exists k', q. split; [lia | exact Hrest].
    + inversion E2; subst. destruct (rf_step_err k a piv a' piv' c) as (Hc & Ha & Hz); auto; try lia.
      subst a'. exists k, piv. repeat split; auto; try lia; try apply Hinv; auto.
Qed.

Lemma factor_correct piv0 F piv :
  length piv0 = n ->
  dense_setup piv0 (mkmat m n A) = Ret (piv, F, Ok tt) ->
  nrows F = m /\ ncols F = n /\ length piv = n /\ rf_inv n (elem F) piv.
Proof.
  intros Hp E. unfold dense_setup in E. apply bind_ret_inv in E.
  destruct E as (((a1 & p1) & r1) & E1 & E2). inversion E2; subst. clear E2.
  unfold dense_get_rf in E1. cbn [ncols nrows] in E1.
  replace (n <=? m)%nat with true in E1 by (symmetry; apply Nat.leb_le; lia).
  apply rf_loop_inv in E1; auto; try lia.
  - rewrite Hp in E1. exact E1.
  - apply rf_inv_0.
Qed.

Lemma factor_error piv0 F piv c :
  length piv0 = n ->
  dense_setup piv0 (mkmat m n A) = Ret (piv, F, Err c) ->
  exists k q, (k < n)%nat /\ c = (k + 1)%nat /\ rf_inv k (elem F) q /\
              forall i, (k <= i < m)%nat -> elem F i k = 0.
Proof.
  intros Hp E. unfold dense_setup in E. apply bind_ret_inv in E.
  destruct E as (((a1 & p1) & r1) & E1 & E2). inversion E2; subst. clear E2.
  unfold dense_get_rf in E1. cbn [ncols nrows] in E1.
  replace (n <=? m)%nat with true in E1 by (symmetry; apply Nat.leb_le; lia).
  apply rf_loop_inv in E1; auto; try lia; [|apply rf_inv_0].
  destruct E1 as (k & q & Hk & Hrest). exists k, q. split; [lia | exact Hrest].
Qed.

(** ** Independence of the columns already eliminated *)

Lemma lower_injective (F : nat -> nat -> R) k (z : nat -> R) :
  (forall i, (i < k)%nat -> rsum k (fun p => Lpart F i p * z p) = 0) ->
  forall i, (i < k)%nat -> z i = 0.
Proof.
  intros Hz i. induction i as [i IH] using lt_wf_ind. intros Hi.
  specialize (Hz i Hi).
  rewrite (rsum_single k i) in Hz; auto.
  - unfold Lpart in Hz. rewrite Nat.ltb_irrefl, Nat.eqb_refl in Hz. lra.
  - intros p Hp Hne. unfold Lpart. destruct (p <? i)%nat eqn:E.
    + apply Nat.ltb_lt in E. rewrite IH by lia. ring.
    + replace (p =? i)%nat with false by (symmetry; apply Nat.eqb_neq; lia). ring.
Qed.

Lemma upper_injective (F : nat -> nat -> R) k (x : nat -> R) :
  (forall p, (p < k)%nat -> F p p <> 0) ->
  (forall p, (p < k)%nat -> rsum k (fun j => Upart F p j * x j) = 0) ->
  forall j, (j < k)%nat -> x j = 0.
Proof.
  intros Hd Hx.
  assert (Hrev : forall d j, (j < k)%nat -> (k - 1 - j = d)%nat -> x j = 0).
  { intros d. induction d as [d IH] using lt_wf_ind. intros j Hj Hjd.
    specialize (Hx j Hj). rewrite (rsum_single k j) in Hx; auto.
    - unfold Upart in Hx. rewrite Nat.leb_refl in Hx.
      apply Rmult_integral in Hx. destruct Hx as [Hx|Hx]; auto.
      exfalso. exact (Hd j Hj Hx).
    - intros p Hp Hne. unfold Upart. destruct (j <=? p)%nat eqn:E; [|ring].
      apply Nat.leb_le in E. rewrite (IH (k - 1 - p)%nat) by lia. ring. }
  intros j Hj. eapply Hrev; eauto.
Qed.

Lemma upper_solvable (F : nat -> nat -> R) k (c : nat -> R) :
  (forall p, (p < k)%nat -> F p p <> 0) ->
  exists x : nat -> R, forall p, (p < k)%nat -> rsum k (fun j => Upart F p j * x j) = c p.
Proof.
  intros Hd.
  (* unknowns determined from the last one down to row r *)
  assert (H : forall d, (d <= k)%nat -> exists x : nat -> R,
             forall p, (k - d <= p < k)%nat -> rsum k (fun j => Upart F p j * x j) = c p).
  { induction d as [|d IH]; intros Hdk; [exists (fun _ => 0); intros; lia|].
    destruct IH as (x & Hx); [lia|].
    set (r := (k - S d)%nat).
    set (v := (c r - rsum k (fun j => if (j =? r)%nat then 0 else Upart F r j * x j)) / F r r).
    exists (fun j => if (j =? r)%nat then v else x j).
    intros p Hp. destruct (Nat.eq_dec p r) as [->|Hne].
    - rewrite (rsum_ext _ _ (fun j => (if (j =? r)%nat then 0 else Upart F r j * x j)
                                      + (if (j =? r)%nat then Upart F r r * v else 0))).
      2:{ intros j Hj. destruct (j =? r)%nat eqn:E; [|ring].
          apply Nat.eqb_eq in E; subst j. ring. }
      rewrite rsum_plus. rewrite (rsum_single k r (fun j => if (j =? r)%nat then _ else 0)).
      + rewrite Nat.eqb_refl. unfold Upart at 2. rewrite Nat.leb_refl. unfold v.
        field. apply Hd. lia.
      + lia.
      + intros j Hj Hjr. apply Nat.eqb_neq in Hjr. rewrite Hjr. reflexivity.
    - rewrite <- (Hx p) by lia. apply rsum_ext. intros j Hj.
      destruct (j =? r)%nat eqn:E; auto. apply Nat.eqb_eq in E; subst j.
      unfold Upart. replace (p <=? r)%nat with false by (symmetry; apply Nat.leb_gt; lia). ring. }
  destruct (H k (le_n k)) as (x & Hx). exists x. intros p Hp. apply Hx. lia.
Qed.

Lemma rf_inv_independent k F piv :
  (k <= n)%nat -> rf_inv k F piv -> independent_cols m k A.
Proof.
  intros Hk (Hf & Hd & _ & Hpv) x Hx.
  apply (upper_injective F); auto.
  apply (lower_injective F k (fun p => rsum k (fun j => Upart F p j * x j))).
  intros i Hi.
  assert (Hr : (row_of piv k i < m)%nat) by (apply row_of_lt; auto; lia).
  specialize (Hx _ Hr). rewrite <- Hx.
  rewrite (rsum_ext k (fun j => A (row_of piv k i) j * x j)
             (fun j => rsum k (fun p => Lpart F i p * (Upart F p j * x j)))).
  - rewrite rsum_swap. apply rsum_ext. intros p Hp. rewrite rsum_scal. reflexivity.
  - intros j Hj. rewrite Hf by lia.
    replace (k <=? i)%nat with false by (symmetry; apply Nat.leb_gt; lia). cbn [andb].
    rewrite Rplus_0_r, <- rsum_scal_r. apply rsum_ext. intros; ring.
Qed.

Lemma rf_inv_dependent k F piv :
  (k < n)%nat -> rf_inv k F piv -> (forall i, (k <= i < m)%nat -> F i k = 0) ->
  dependent_cols m (k + 1) A.
Proof.
  intros Hk (Hf & Hd & _ & Hpv) Hz.
  destruct (upper_solvable F k (fun p => - Upart F p k) Hd) as (x & Hx).
  exists (fun j => if (j =? k)%nat then 1 else x j). split.
  - exists k. split; [lia|]. rewrite Nat.eqb_refl. lra.
  - intros r Hr.
    destruct (row_of_onto piv m k ltac:(lia) Hpv r Hr) as (i & Hi & <-).
    replace (k + 1)%nat with (S k) by lia. cbn [rsum]. rewrite Nat.eqb_refl.
    rewrite (rsum_ext k _ (fun j => rsum k (fun p => Lpart F i p * (Upart F p j * x j)))).
    + rewrite rsum_swap.
      rewrite (rsum_ext k _ (fun p => Lpart F i p * - Upart F p k)).
      2:{ intros p Hp. rewrite rsum_scal. rewrite Hx by lia. reflexivity. }
      rewrite Hf by lia.
      replace (if (k <=? i)%nat && (k <=? k)%nat then F i k else 0) with 0.
      * rewrite Rplus_0_r, Rmult_1_r, <- rsum_plus. apply rsum_0. intros; ring.
      * destruct (k <=? i)%nat eqn:E; cbn [andb]; auto.
        apply Nat.leb_le in E. rewrite Nat.leb_refl. symmetry. apply Hz. lia.
    + intros j Hj. replace (j =? k)%nat with false by (symmetry; apply Nat.eqb_neq; lia).
      rewrite Hf by lia. replace (k <=? j)%nat with false by (symmetry; apply Nat.leb_gt; lia).
      rewrite andb_false_r, Rplus_0_r, <- rsum_scal_r. apply rsum_ext. intros; ring.
Qed.

End Factor.

Lemma dependent_not_independent m c A :
  dependent_cols m c A -> independent_cols m c A -> False.
Proof. intros (x & (j & Hj & Hne) & Hx) Hi. exact (Hne (Hi x Hx j Hj)). Qed.

Lemma independent_prefix m c d A : (d <= c)%nat -> independent_cols m c A -> independent_cols m d A.
Proof.
  intros Hdc Hi x Hx j Hj.
  assert (E := Hi (fun j => if (j <? d)%nat then x j else 0)).
  specialize (E ltac:(intros i Him; rewrite (rsum_cut c d); [rewrite <- (Hx i Him); apply rsum_ext; intros p Hp;
     replace (p <? d)%nat with true by (symmetry; apply Nat.ltb_lt; lia); reflexivity | lia |
     intros p Hp; replace (p <? d)%nat with false by (symmetry; apply Nat.ltb_ge; lia); ring]) j ltac:(lia)).
  cbv beta in E. replace (j <? d)%nat with true in E by (symmetry; apply Nat.ltb_lt; lia). exact E.
Qed.
