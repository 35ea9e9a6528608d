(** * DenseFacts: what each loop of the dense solver computes (any scalar) *)
Require Import List Arith Bool Lia.
Import ListNotations.
Require Import Verif.Base Verif.Scalar Verif.Dense Verif.BaseFacts Verif.DenseSpec.

Section DenseFacts.
Context {T : Type} `{Scalar T}.

Notation same_dims a b := (nrows b = nrows a /\ ncols b = ncols a).

Lemma mget_ret (a : mat T) i j : i < nrows a -> j < ncols a -> mget a i j = Ret (elem a i j).
Proof.
  unfold mget; intros Hi Hj. apply Nat.ltb_lt in Hi, Hj. rewrite Hi, Hj. reflexivity.
Qed.

Lemma mset_ret (a : mat T) i j v :
  i < nrows a -> j < ncols a ->
  exists a', mset a i j v = Ret a' /\ same_dims a a' /\
    forall i' j', elem a' i' j' = if (i' =? i) && (j' =? j) then v else elem a i' j'.
Proof.
  unfold mset; intros Hi Hj. apply Nat.ltb_lt in Hi, Hj. rewrite Hi, Hj.
  simpl. eexists; split; [reflexivity|]. split; [simpl; auto|]. simpl. reflexivity.
Qed.

Lemma mswap_ret (a : mat T) k l c :
  k < nrows a -> l < nrows a -> c < ncols a ->
  exists a', mswap a k c l c = Ret a' /\ same_dims a a' /\
    forall i j, elem a' i j =
      if j =? c then (if i =? l then elem a k c else if i =? k then elem a l c else elem a i j)
      else elem a i j.
Proof.
  intros Hk Hl Hc. unfold mswap. rewrite !mget_ret by assumption. simpl.
  destruct (mset_ret a k c (elem a l c)) as (a1 & E1 & (D1 & D1') & V1); try assumption.
  rewrite E1; simpl.
  destruct (mset_ret a1 l c (elem a k c)) as (a2 & E2 & (D2 & D2') & V2); try congruence.
  exists a2. split; [exact E2|]. split; [split; congruence|].
  intros i j. rewrite V2, V1.
  destruct (j =? c), (i =? l), (i =? k); reflexivity.
Qed.

Lemma pivot_search_ret (a : mat T) k :
  k < nrows a -> k < ncols a ->
  exists l, pivot_search a k = Ret l /\ k <= l < nrows a.
Proof.
  intros Hk Hc. unfold pivot_search.
  destruct (for_range_total (fun i l => k <= l < i) (k + 1) (nrows a)
              (fun i l => let* aik := mget a i k in
                          let* alk := mget a l k in
                          Ret (if (sabs alk <? sabs aik)%sc then i else l)) k)
    as (l & E & P); try lia.
  - intros i l Hi Hl. rewrite !mget_ret by lia. simpl.
    destruct (sabs (elem a l k) <? sabs (elem a i k))%sc; eexists; (split; [reflexivity|]); lia.
  - exists l; split; auto.
Qed.

Lemma swap_rows_ret (a : mat T) k l :
  k < nrows a -> l < nrows a ->
  exists a', swap_rows a k l = Ret a' /\ same_dims a a' /\
    forall i j, j < ncols a -> elem a' i j = elem a (transp k l i) j.
Proof.
  intros Hk Hl. unfold swap_rows. destruct (l =? k) eqn:Elk.
  - apply Nat.eqb_eq in Elk; subst l. exists a. split; auto. split; auto.
    intros i j _. unfold transp. destruct (i =? k) eqn:E; auto.
    apply Nat.eqb_eq in E; congruence.
  - apply Nat.eqb_neq in Elk.
    destruct (for_range_total
                (fun c b => same_dims a b /\ forall i j,
                     elem b i j = if j <? c then elem a (transp k l i) j else elem a i j)
                0 (ncols a) (fun i a => mswap a k i l i) a) as (b & E & (D & V)); try lia.
    + split; auto.
    + intros c b Hc ((D1 & D2) & V).
      destruct (mswap_ret b k l c) as (b' & E' & (D1' & D2') & V'); try lia.
      exists b'; split; auto. split; [split; congruence|].
      intros i j. rewrite V', !V.
      assert (Hlt : (j <? c + 1) = (j <? c) || (j =? c)).
      { destruct (j <? c) eqn:E1, (j =? c) eqn:E2, (j <? c + 1) eqn:E3; auto;
          rewrite ?Nat.ltb_lt, ?Nat.ltb_ge, ?Nat.eqb_eq, ?Nat.eqb_neq in *; lia. }
      rewrite Hlt. unfold transp.
      destruct (j =? c) eqn:E1.
      * apply Nat.eqb_eq in E1; subst j.
        replace (c <? c) with false by (symmetry; apply Nat.ltb_ge; lia). simpl.
        destruct (i =? l) eqn:E2, (i =? k) eqn:E3; auto.
        apply Nat.eqb_eq in E2, E3. subst. congruence.
      * rewrite orb_false_r. reflexivity.
    + exists b. split; auto. split; auto. intros i j Hj. rewrite V.
      apply Nat.ltb_lt in Hj. rewrite Hj. reflexivity.
Qed.

Lemma scale_col_ret (a : mat T) k :
  k < nrows a -> k < ncols a ->
  exists a', scale_col a k = Ret a' /\ same_dims a a' /\
    forall i j, elem a' i j =
      if (j =? k) && ((k <? i) && (i <? nrows a))
      then (elem a i k * srecip (elem a k k))%sc else elem a i j.
Proof.
  intros Hk Hc. unfold scale_col. rewrite mget_ret by assumption. simpl.
  set (mult := srecip (elem a k k)).
  destruct (for_range_total
              (fun r b => same_dims a b /\ forall i j, elem b i j =
                 if (j =? k) && ((k <? i) && (i <? r)) then (elem a i k * mult)%sc else elem a i j)
              (k + 1) (nrows a)
              (fun i a => let* v := mget a i k in mset a i k (v * mult)%sc) a)
    as (b & E & (D & V)); try lia.
  - split; auto. intros i j.
    replace ((k <? i) && (i <? k + 1)) with false; [rewrite andb_false_r; reflexivity|].
    destruct (k <? i) eqn:E1, (i <? k + 1) eqn:E2; auto.
    apply Nat.ltb_lt in E1, E2. lia.
  - intros r b Hr ((D1 & D2) & V). rewrite mget_ret by lia. simpl.
    destruct (mset_ret b r k (elem b r k * mult)%sc) as (b' & E' & (D1' & D2') & V'); try lia.
    exists b'; split; auto. split; [split; congruence|].
    intros i j. rewrite V'.
    destruct (i =? r) eqn:E1.
    + apply Nat.eqb_eq in E1; subst i.
      replace (k <? r) with true by (symmetry; apply Nat.ltb_lt; lia).
      replace (r <? r + 1) with true by (symmetry; apply Nat.ltb_lt; lia).
      destruct (j =? k) eqn:E2; simpl.
      * rewrite V. rewrite Nat.ltb_irrefl, !andb_false_r. reflexivity.
      * rewrite V, E2. reflexivity.
    + apply Nat.eqb_neq in E1. simpl. rewrite V.
      assert (Hlt : (i <? r + 1) = (i <? r)).
      { destruct (i <? r + 1) eqn:E2, (i <? r) eqn:E3; auto;
          rewrite ?Nat.ltb_lt, ?Nat.ltb_ge in *; lia. }
      rewrite Hlt. reflexivity.
  - exists b. auto.
Qed.

Lemma update_cols_ret (a : mat T) k :
  k < nrows a -> k < ncols a ->
  exists a', update_cols a k = Ret a' /\ same_dims a a' /\
    forall i j, elem a' i j =
      if ((k <? j) && (j <? ncols a)) && ((k <? i) && (i <? nrows a))
      then (if sneqb (elem a k j) szero
            then (elem a i j - elem a k j * elem a i k)%sc else elem a i j)
      else elem a i j.
Proof.
  intros Hk Hc. unfold update_cols.
  destruct (for_range_total
              (fun c b => same_dims a b /\ forall i j, elem b i j =
                 if ((k <? j) && (j <? c)) && ((k <? i) && (i <? nrows a))
                 then (if sneqb (elem a k j) szero
                       then (elem a i j - elem a k j * elem a i k)%sc else elem a i j)
                 else elem a i j)
              (k + 1) (ncols a)
              (fun j a =>
                 let* akj := mget a k j in
                 if sneqb akj szero then
                   for_range (k + 1) (nrows a)
                     (fun i a =>
                        let* aik := mget a i k in
                        let* aij := mget a i j in
                        mset a i j (aij - akj * aik)%sc) a
                 else Ret a) a) as (b & E & (D & V)); try lia.
  - split; auto. intros i j.
    replace ((k <? j) && (j <? k + 1)) with false; [reflexivity|].
    destruct (k <? j) eqn:E1, (j <? k + 1) eqn:E2; auto.
    apply Nat.ltb_lt in E1, E2. lia.
  - intros c b Hcc ((D1 & D2) & V). rewrite mget_ret by lia. simpl.
    assert (Hkc : forall j, elem b k j = elem a k j).
    { intros j. rewrite V. rewrite Nat.ltb_irrefl, !andb_false_r. reflexivity. }
    assert (Hik : forall i, elem b i k = elem a i k).
    { intros i. rewrite V. rewrite Nat.ltb_irrefl. reflexivity. }
    rewrite Hkc.
    assert (Hstep : forall j, (j <? c + 1) = (j <? c) || (j =? c)).
    { intros j. destruct (j <? c) eqn:E1, (j =? c) eqn:E2, (j <? c + 1) eqn:E3; auto;
        rewrite ?Nat.ltb_lt, ?Nat.ltb_ge, ?Nat.eqb_eq, ?Nat.eqb_neq in *; lia. }
    destruct (sneqb (elem a k c) szero) eqn:Enz.
    + destruct (for_range_total
                  (fun r d => same_dims b d /\ forall i j, elem d i j =
                     if (j =? c) && ((k <? i) && (i <? r))
                     then (elem a i c - elem a k c * elem a i k)%sc else elem b i j)
                  (k + 1) (nrows b)
                  (fun i a0 =>
                     let* aik := mget a0 i k in
                     let* aij := mget a0 i c in
                     mset a0 i c (aij - elem a k c * aik)%sc) b) as (d & E' & ((Dd1 & Dd2) & Vd)); try lia.
      * split; auto. intros i j.
        replace ((k <? i) && (i <? k + 1)) with false; [rewrite andb_false_r; reflexivity|].
        destruct (k <? i) eqn:E1, (i <? k + 1) eqn:E2; auto. apply Nat.ltb_lt in E1, E2. lia.
      * intros r d Hr ((F1 & F2) & Vd). rewrite !mget_ret by lia. simpl.
        match goal with |- context [mset d r c ?v] =>
          destruct (mset_ret d r c v) as (d' & E' & (F1' & F2') & V'); try lia end.
        exists d'; split; auto. split; [split; congruence|].
        intros i j. rewrite V'. rewrite !Vd.
        destruct (i =? r) eqn:E1.
        -- apply Nat.eqb_eq in E1; subst i.
           replace (k <? r) with true by (symmetry; apply Nat.ltb_lt; lia).
           replace (r <? r + 1) with true by (symmetry; apply Nat.ltb_lt; lia).
           rewrite Nat.ltb_irrefl. rewrite !andb_false_r.
           destruct (j =? c) eqn:E2; simpl; auto.
           rewrite Hik. rewrite V.
           rewrite Nat.ltb_irrefl. rewrite !andb_false_r. reflexivity.
        -- apply Nat.eqb_neq in E1. simpl.
           assert (Hlt : (i <? r + 1) = (i <? r)).
           { destruct (i <? r + 1) eqn:E2, (i <? r) eqn:E3; auto;
               rewrite ?Nat.ltb_lt, ?Nat.ltb_ge in *; lia. }
           rewrite Hlt. reflexivity.
      * exists d. split; [exact E'|]. split; [split; congruence|].
        intros i j. rewrite Vd, Hstep, D1. rewrite V.
        destruct (j =? c) eqn:E2.
        -- apply Nat.eqb_eq in E2; subst j. rewrite Nat.ltb_irrefl. simpl. rewrite Enz.
           replace (k <? c) with true by (symmetry; apply Nat.ltb_lt; lia). simpl.
           destruct ((k <? i) && (i <? nrows a)); reflexivity.
        -- rewrite orb_false_r. simpl. reflexivity.
    + exists b. split; auto. split; auto. intros i j. rewrite V, Hstep.
      destruct (j =? c) eqn:E2.
      * apply Nat.eqb_eq in E2; subst j. rewrite Nat.ltb_irrefl, Enz. simpl.
        rewrite andb_false_r. simpl.
        destruct ((k <? c) && true && ((k <? i) && (i <? nrows a))); reflexivity.
      * rewrite orb_false_r. reflexivity.
  - exists b. auto.
Qed.

(** Result of one elimination step. *)
Lemma rf_step_ret (a : mat T) piv k :
  k < nrows a -> k < ncols a -> k < length piv ->
  exists l, pivot_search a k = Ret l /\ k <= l < nrows a /\
    if (elem a l k =? szero)%sc
    then rf_step a piv k = Ret (a, upd piv k l, Err (k + 1))
    else exists a', rf_step a piv k = Ret (a', upd piv k l, Ok tt) /\ same_dims a a' /\
      forall i j, i < nrows a -> j < ncols a ->
        elem a' i j =
          let s i j := elem a (transp k l i) j in
          let m i := (s i k * srecip (s k k))%sc in
          if k <? i then
            if j =? k then m i
            else if k <? j then
                   (if sneqb (s k j) szero then (s i j - s k j * m i)%sc else s i j)
                 else s i j
          else s i j.
Proof.
  intros Hk Hc Hp. destruct (pivot_search_ret a k Hk Hc) as (l & El & Hl).
  exists l. split; auto. split; auto. unfold rf_step. rewrite El. simpl.
  rewrite aset_ret by assumption. simpl. rewrite mget_ret by lia. simpl.
  destruct (elem a l k =? szero)%sc; [reflexivity|].
  destruct (swap_rows_ret a k l) as (a1 & E1 & (D1 & D1') & V1); try lia.
  rewrite E1; simpl.
  destruct (scale_col_ret a1 k) as (a2 & E2 & (D2 & D2') & V2); try lia.
  rewrite E2; simpl.
  destruct (update_cols_ret a2 k) as (a3 & E3 & (D3 & D3') & V3); try lia.
  rewrite E3; simpl. exists a3. split; auto. split; [split; congruence|].
  intros i j Hi Hj. rewrite V3.
  assert (Hkj : forall j, j < ncols a -> elem a2 k j = elem a (transp k l k) j).
  { intros j' Hj'. rewrite V2. rewrite Nat.ltb_irrefl. simpl. rewrite andb_false_r. apply V1. exact Hj'. }
  assert (Hsame : forall i j, j < ncols a -> j <> k -> elem a2 i j = elem a (transp k l i) j).
  { intros i' j' Hj' Hne. rewrite V2. apply Nat.eqb_neq in Hne. rewrite Hne. simpl. apply V1. exact Hj'. }
  assert (Hm : forall i, i < nrows a -> k < i ->
             elem a2 i k = (elem a (transp k l i) k * srecip (elem a (transp k l k) k))%sc).
  { intros i' Hi' Hlt. rewrite V2, Nat.eqb_refl. rewrite D1.
    apply Nat.ltb_lt in Hi', Hlt. rewrite Hi', Hlt. simpl. rewrite !V1 by assumption. reflexivity. }
  replace (ncols a2) with (ncols a) by congruence.
  replace (nrows a2) with (nrows a) by congruence.
  assert (Hj' := Hj). assert (Hi' := Hi). apply Nat.ltb_lt in Hj', Hi'. rewrite Hj', Hi'.
  rewrite !andb_true_r. simpl.
  destruct (k <? i) eqn:Eki.
  - assert (Hki := Eki). apply Nat.ltb_lt in Hki. rewrite andb_true_r.
    destruct (j =? k) eqn:Ejk.
    + apply Nat.eqb_eq in Ejk; subst j. rewrite Nat.ltb_irrefl. apply Hm; assumption.
    + assert (Hjk := Ejk). apply Nat.eqb_neq in Hjk.
      destruct (k <? j) eqn:Ekj.
      * rewrite Hkj by assumption. rewrite Hm by assumption.
        rewrite Hsame by assumption. reflexivity.
      * apply Hsame; assumption.
  - rewrite !andb_false_r. rewrite V2, Eki. simpl. rewrite andb_false_r. apply V1. exact Hj.
Qed.

(** Factorisation never panics; the pivots are in range. *)
Lemma rf_loop_ret cnt : forall k (a : mat T) piv,
  k + cnt <= nrows a -> k + cnt <= ncols a -> k + cnt <= length piv ->
  exists a' piv' r, rf_loop cnt k a piv = Ret (a', piv', r) /\ same_dims a a' /\
    length piv' = length piv /\
    (forall i d, i < k \/ k + cnt <= i -> nth i piv' d = nth i piv d) /\
    (r = Ok tt -> forall i d, k <= i < k + cnt -> i <= nth i piv' d < nrows a) /\
    (forall c, r = Err c -> k < c <= k + cnt).
Proof.
  induction cnt as [|cnt IH]; intros k a piv Hr Hc Hp; simpl.
  - exists a, piv, (Ok tt). repeat split; auto; try lia; intros; (discriminate || lia).
  - destruct (rf_step_ret a piv k) as (l & El & Hl & Hs); try lia.
    destruct (elem a l k =? szero)%sc.
    + rewrite Hs. simpl. exists a, (upd piv k l), (Err (k + 1)).
      split; auto. split; auto. split; [apply upd_length|].
      split; [intros i d Hi; apply nth_upd_neq; lia|].
      split; [discriminate|]. intros c E; inversion E; lia.
    + destruct Hs as (a1 & E1 & (D1 & D1') & _). rewrite E1. simpl.
      destruct (IH (S k) a1 (upd piv k l)) as (a' & piv' & r & E & (D & D') & L & Hout & Hin & Herr);
        try (rewrite ?upd_length; lia).
      exists a', piv', r. split; auto. split; [split; congruence|].
      rewrite upd_length in L. split; auto. split.
      { intros i d Hi. rewrite Hout by lia. apply nth_upd_neq. lia. }
      split.
      * intros Hok i d Hi. destruct (Nat.eq_dec i k) as [->|Hne].
        -- rewrite Hout by lia. rewrite nth_upd_eq by lia. lia.
        -- rewrite <- D1. apply Hin; auto. lia.
      * intros c E0. specialize (Herr c E0). lia.
Qed.

(** Back-substitution never panics for [n >= 1]. *)
Lemma permute_rhs_ret n piv (b : list T) :
  (forall k, k < Nat.min n (length piv) -> nth k piv 0 < length b) ->
  Nat.min n (length piv) <= length b ->
  exists b', permute_rhs n piv b = Ret b' /\ length b' = length b.
Proof.
  intros Hp Hn. unfold permute_rhs.
  apply (for_range_total (fun _ b' => length b' = length b) 0); try lia.
  intros k b' Hk Hb. rewrite (aget_ret _ k 0) by lia. simpl.
  destruct (nth k piv 0 =? k) eqn:E; [eauto|].
  assert (Hpk := Hp k ltac:(lia)). unfold vswap.
  rewrite (aget_ret b' k szero) by lia. simpl.
  rewrite (aget_ret b' (nth k piv 0) szero) by lia. simpl.
  rewrite aset_ret by lia. simpl. rewrite aset_ret by (rewrite upd_length; lia).
  eexists; split; [reflexivity|]. rewrite !upd_length. exact Hb.
Qed.

Lemma forward_subst_ret (a : mat T) n (b : list T) :
  1 <= n -> n <= nrows a -> n <= ncols a -> n <= length b ->
  exists b', forward_subst a n b = Ret b' /\ length b' = length b.
Proof.
  intros Hn Hr Hc Hb. unfold forward_subst. rewrite usub_ret by lia. simpl.
  apply (for_range_total (fun _ b' => length b' = length b) 0); try lia.
  intros k b' Hk Hb'. rewrite (aget_ret b' k szero) by lia. simpl.
  apply (for_range_total (fun _ b'' => length b'' = length b) (k + 1)); try lia.
  intros i b'' Hi Hb''. rewrite mget_ret by lia. simpl.
  rewrite (aget_ret b'' i szero) by lia. simpl. rewrite aset_ret by lia.
  eexists; split; [reflexivity|]. rewrite upd_length. exact Hb''.
Qed.

Lemma backward_subst_ret (a : mat T) n (b : list T) :
  1 <= n -> n <= nrows a -> n <= ncols a -> n <= length b ->
  exists b', backward_subst a n b = Ret b' /\ length b' = length b.
Proof.
  intros Hn Hr Hc Hb. unfold backward_subst.
  match goal with |- context [for_range_rev 1 n ?f b] =>
    destruct (for_range_rev_total (fun _ b' => length b' = length b) 1 n f b) as (b1 & E1 & L1) end;
    try lia.
  - intros k b' Hk Hb'. rewrite (aget_ret b' k szero) by lia. simpl.
    rewrite mget_ret by lia. simpl. rewrite aset_ret by lia. simpl.
    rewrite (aget_ret _ k szero) by (rewrite upd_length; lia). simpl.
    apply (for_range_total (fun _ b'' => length b'' = length b) 0); try lia.
    { rewrite upd_length; exact Hb'. }
    intros i b'' Hi Hb''. rewrite mget_ret by lia. simpl.
    rewrite (aget_ret b'' i szero) by lia. simpl. rewrite aset_ret by lia.
    eexists; split; [reflexivity|]. rewrite upd_length. exact Hb''.
  - rewrite E1. simpl. rewrite (aget_ret b1 0 szero) by lia. simpl.
    rewrite mget_ret by lia. simpl. rewrite aset_ret by lia.
    eexists; split; [reflexivity|]. rewrite upd_length. exact L1.
Qed.

Lemma dense_get_rs_ret (a : mat T) piv (b : list T) :
  1 <= ncols a -> ncols a <= nrows a -> ncols a <= length b -> length piv = ncols a ->
  (forall k, k < ncols a -> nth k piv 0 < length b) ->
  exists x, dense_get_rs a piv b = Ret x /\ length x = length b.
Proof.
  intros Hn Hr Hb Hp Hpiv. unfold dense_get_rs.
  destruct (permute_rhs_ret (ncols a) piv b) as (b1 & E1 & L1).
  { intros k Hk; apply Hpiv; lia. } { lia. }
  rewrite E1; simpl.
  destruct (forward_subst_ret a (ncols a) b1) as (b2 & E2 & L2); try lia.
  rewrite E2; simpl.
  destruct (backward_subst_ret a (ncols a) b2) as (b3 & E3 & L3); try lia.
  exists b3. split; auto. lia.
Qed.

End DenseFacts.
