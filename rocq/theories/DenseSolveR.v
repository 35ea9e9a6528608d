(** * DenseSolveR: back-substitution solves the factored system *)
Require Import List Arith Bool Lia Reals Lra.
Import ListNotations.
Require Import Verif.Base Verif.Scalar Verif.ScalarR Verif.Dense Verif.BaseFacts
  Verif.RSum Verif.DenseSpec Verif.DenseFacts Verif.DenseR.
Open Scope R_scope.

Lemma permute_rhs_spec n piv (b : list R) :
  length b = n -> length piv = n -> (forall k, (k < n)%nat -> (k <= nth k piv 0 < n)%nat) ->
  exists b', permute_rhs n piv b = Ret b' /\ length b' = n /\
    forall i, (i < n)%nat -> nth i b' 0 = nth (row_of piv n i) b 0.
Proof.
  intros Lb Lp Hp. unfold permute_rhs. rewrite Lp, Nat.min_id.
  apply (for_range_total (fun k b' => length b' = n /\
           forall i, (i < n)%nat -> nth i b' 0 = nth (row_of piv k i) b 0)); try lia.
  { split; auto. }
  intros k b' Hk (L & V). rewrite (aget_ret _ k 0%nat) by lia. simpl.
  assert (Hpk := Hp k ltac:(lia)). set (pk := nth k piv 0%nat) in *.
  replace (k + 1)%nat with (S k) by lia. cbn [row_of]. fold pk.
  destruct (pk =? k)%nat eqn:E.
  - exists b'; split; auto. split; auto. intros i Hi.
    apply Nat.eqb_eq in E. rewrite E.
    replace (transp k k i) with i; [apply V; exact Hi|].
    unfold transp. destruct (i =? k)%nat eqn:Ei; auto. apply Nat.eqb_eq in Ei. congruence.
  - apply Nat.eqb_neq in E. unfold vswap.
    rewrite (aget_ret b' k 0) by lia. simpl. rewrite (aget_ret b' pk 0) by lia. simpl.
    rewrite aset_ret by lia. simpl. rewrite aset_ret by (rewrite upd_length; lia).
    eexists; split; [reflexivity|]. rewrite !upd_length. split; auto.
    intros i Hi. rewrite !nth_upd, upd_length, L.
    replace (pk <? n)%nat with true by (symmetry; apply Nat.ltb_lt; lia).
    replace (k <? n)%nat with true by (symmetry; apply Nat.ltb_lt; lia). rewrite !andb_true_r.
    unfold transp. rewrite (Nat.eqb_sym i k), (Nat.eqb_sym i pk).
    destruct (k =? i)%nat eqn:E1.
    + apply Nat.eqb_eq in E1. subst i.
      replace (pk =? k)%nat with false by (symmetry; apply Nat.eqb_neq; lia). apply V. lia.
    + destruct (pk =? i)%nat eqn:E2; [apply V; lia | apply V; exact Hi].
Qed.

Lemma forward_subst_spec (a : mat R) n (b : list R) :
  (1 <= n)%nat -> nrows a = n -> ncols a = n -> length b = n ->
  exists y, forward_subst a n b = Ret y /\ length y = n /\
    forall i, (i < n)%nat -> nth i b 0 = rsum n (fun p => Lpart (elem a) i p * nth p y 0).
Proof.
  intros Hn Dr Dc Lb. unfold forward_subst. rewrite usub_ret by lia. cbn [bind].
  set (F := elem a).
  match goal with |- context [for_range 0 (n - 1) ?f b] =>
  destruct (for_range_total (fun k y => length y = n /\ forall i, (i < n)%nat ->
             nth i b 0 = rsum (Nat.min i k) (fun p => F i p * nth p y 0) + nth i y 0)
             0 (n - 1) f b) as (y & E & L & V) end; try lia.
  - split; auto. intros i Hi. rewrite Nat.min_0_r. simpl. ring.
  - intros k y Hk (L & V). rewrite (aget_ret y k 0) by lia. cbn [bind].
    set (yk := nth k y 0).
    match goal with |- exists s, for_range _ _ ?f y = _ /\ _ =>
    destruct (for_range_total (fun r z => length z = n /\ forall i, nth i z 0 =
               if (k <? i)%nat && (i <? r)%nat then nth i y 0 - F i k * yk else nth i y 0)
               (k + 1) n f y) as (z & E & Lz & Vz) end; try lia.
    + split; auto. intros i. destruct (k <? i)%nat eqn:E1, (i <? k + 1)%nat eqn:E2; auto.
      apply Nat.ltb_lt in E1, E2. lia.
    + intros r z Hr (Lz & Vz). rewrite mget_ret by lia. cbn [bind].
      rewrite (aget_ret z r 0) by lia. cbn [bind]. rewrite aset_ret by lia.
      eexists; split; [reflexivity|]. rewrite upd_length. split; auto.
      intros i. rewrite nth_upd, Lz.
      replace (r <? n)%nat with true by (symmetry; apply Nat.ltb_lt; lia). rewrite andb_true_r.
      destruct (r =? i)%nat eqn:E1.
      * apply Nat.eqb_eq in E1; subst i.
        replace (k <? r)%nat with true by (symmetry; apply Nat.ltb_lt; lia).
        replace (r <? r + 1)%nat with true by (symmetry; apply Nat.ltb_lt; lia). cbn [andb].
        rewrite Vz, Nat.ltb_irrefl, andb_false_r. reflexivity.
      * apply Nat.eqb_neq in E1. rewrite Vz.
        replace (i <? r + 1)%nat with (i <? r)%nat; auto.
        destruct (i <? r)%nat eqn:E2, (i <? r + 1)%nat eqn:E3; auto;
          rewrite ?Nat.ltb_lt, ?Nat.ltb_ge in *; lia.
    + exists z. split; [exact E|]. split; auto. intros i Hi. rewrite (V i Hi).
      assert (Hlow : forall p, (p <= k)%nat -> nth p z 0 = nth p y 0).
      { intros p Hp. rewrite Vz. replace (k <? p)%nat with false by (symmetry; apply Nat.ltb_ge; lia). reflexivity. }
      destruct (Nat.le_gt_cases i k) as [Hik|Hik].
      * rewrite !Nat.min_l by lia. rewrite Hlow by lia. f_equal.
        apply rsum_ext. intros p Hp. rewrite Hlow by lia. reflexivity.
      * rewrite !Nat.min_r by lia. replace (k + 1)%nat with (S k) by lia. cbn [rsum].
        rewrite (Vz i). replace (k <? i)%nat with true by (symmetry; apply Nat.ltb_lt; lia).
        replace (i <? n)%nat with true by (symmetry; apply Nat.ltb_lt; lia). cbn [andb].
        rewrite (Hlow k) by lia. fold yk.
        rewrite (rsum_ext k (fun p => F i p * nth p z 0) (fun p => F i p * nth p y 0)); [ring|].
        intros p Hp. rewrite Hlow by lia. reflexivity.
  - exists y. split; [exact E|]. split; auto. intros i Hi. rewrite (V i Hi).
    rewrite Nat.min_l by lia.
    rewrite (rsum_cut n (S i)).
    + cbn [rsum]. unfold Lpart at 2. rewrite Nat.ltb_irrefl, Nat.eqb_refl.
      rewrite Rmult_1_l. f_equal. apply rsum_ext. intros p Hp.
      unfold Lpart. apply Nat.ltb_lt in Hp. rewrite Hp. reflexivity.
    + lia.
    + intros p Hp. unfold Lpart.
      replace (p <? i)%nat with false by (symmetry; apply Nat.ltb_ge; lia).
      replace (p =? i)%nat with false by (symmetry; apply Nat.eqb_neq; lia). ring.
Qed.

(** Loop invariant of backward substitution. *)
Definition bs_inv (F : nat -> nat -> R) (n : nat) (y : list R) (k : nat) (b : list R) : Prop :=
  length b = n /\ forall i, (i < n)%nat ->
    nth i y 0 = rsum n (fun p => if (k <=? p)%nat && (i <=? p)%nat then F i p * nth p b 0 else 0)
                + (if (i <? k)%nat then nth i b 0 else 0).

Lemma bs_step F n y k (b z : list R) v :
  (k < n)%nat -> F k k <> 0 -> bs_inv F n y (S k) b ->
  length z = n -> v = nth k b 0 / F k k -> nth k z 0 = v ->
  (forall i, (k < i < n)%nat -> nth i z 0 = nth i b 0) ->
  (forall i, (i < k)%nat -> nth i z 0 = nth i b 0 - F i k * v) ->
  bs_inv F n y k z.
Proof.
  intros Hk Hd (L & V) Lz Ev Zk Zhi Zlo. split; auto. intros i Hi. rewrite (V i Hi).
  rewrite (rsum_ext n (fun p => if (k <=? p)%nat && (i <=? p)%nat then F i p * nth p z 0 else 0)
     (fun p => (if (S k <=? p)%nat && (i <=? p)%nat then F i p * nth p b 0 else 0)
               + (if (p =? k)%nat then (if (i <=? k)%nat then F i k * v else 0) else 0))).
  2:{ intros p Hp. destruct (Nat.lt_trichotomy p k) as [Hpk|[Hpk|Hpk]].
      - replace (k <=? p)%nat with false by (symmetry; apply Nat.leb_gt; lia).
        replace (S k <=? p)%nat with false by (symmetry; apply Nat.leb_gt; lia).
        replace (p =? k)%nat with false by (symmetry; apply Nat.eqb_neq; lia). simpl. ring.
      - subst p. rewrite Nat.leb_refl, Nat.eqb_refl.
        replace (S k <=? k)%nat with false by (symmetry; apply Nat.leb_gt; lia). cbn [andb].
        rewrite Zk. destruct (i <=? k)%nat; ring.
      - replace (k <=? p)%nat with true by (symmetry; apply Nat.leb_le; lia).
        replace (S k <=? p)%nat with true by (symmetry; apply Nat.leb_le; lia).
        replace (p =? k)%nat with false by (symmetry; apply Nat.eqb_neq; lia). cbn [andb].
        rewrite Zhi by lia. ring. }
  rewrite rsum_plus. rewrite (rsum_single n k (fun p => if (p =? k)%nat then _ else 0)); auto.
  2:{ intros p Hp Hne. apply Nat.eqb_neq in Hne. rewrite Hne. reflexivity. }
  rewrite Nat.eqb_refl. rewrite Rplus_assoc. f_equal.
  destruct (Nat.lt_trichotomy i k) as [Hik|[Hik|Hik]].
  - replace (i <? S k)%nat with true by (symmetry; apply Nat.ltb_lt; lia).
    replace (i <=? k)%nat with true by (symmetry; apply Nat.leb_le; lia).
    replace (i <? k)%nat with true by (symmetry; apply Nat.ltb_lt; lia).
    rewrite Zlo by lia. ring.
  - subst i. replace (k <? S k)%nat with true by (symmetry; apply Nat.ltb_lt; lia).
    rewrite Nat.leb_refl, Nat.ltb_irrefl. rewrite Ev. field. exact Hd.
  - replace (i <? S k)%nat with false by (symmetry; apply Nat.ltb_ge; lia).
    replace (i <=? k)%nat with false by (symmetry; apply Nat.leb_gt; lia).
    replace (i <? k)%nat with false by (symmetry; apply Nat.ltb_ge; lia). ring.
Qed.

Lemma backward_subst_spec (a : mat R) n (y : list R) :
  (1 <= n)%nat -> nrows a = n -> ncols a = n -> length y = n ->
  (forall p, (p < n)%nat -> elem a p p <> 0) ->
  exists x, backward_subst a n y = Ret x /\ length x = n /\
    forall i, (i < n)%nat -> nth i y 0 = rsum n (fun p => Upart (elem a) i p * nth p x 0).
Proof.
  intros Hn Dr Dc Ly Hd. unfold backward_subst. set (F := elem a) in *.
  match goal with |- context [for_range_rev 1 n ?f y] =>
    destruct (for_range_rev_total (bs_inv F n y) 1 n f y) as (b & E & I) end; try lia.
  - split; auto. intros i Hi.
    rewrite rsum_0.
    + apply Nat.ltb_lt in Hi. rewrite Hi. ring.
    + intros p Hp. replace (n <=? p)%nat with false by (symmetry; apply Nat.leb_gt; lia). reflexivity.
  - intros k b Hk I. assert (L := proj1 I).
    rewrite (aget_ret b k 0) by lia. cbn [bind]. rewrite mget_ret by lia. cbn [bind].
    rewrite aset_ret by lia. cbn [bind].
    rewrite (aget_ret _ k 0) by (rewrite upd_length; lia). cbn [bind].
    rewrite nth_upd_eq by lia. fold F.
    change (sdiv (nth k b 0) (F k k)) with (nth k b 0 / F k k).
    set (v := nth k b 0 / F k k).
    match goal with |- exists s, for_range 0 k ?f ?b0 = _ /\ _ =>
    destruct (for_range_total (fun r z => length z = n /\ forall i, nth i z 0 =
               if (i <? r)%nat then nth i b0 0 - F i k * v else nth i b0 0)
               0 k f b0) as (z & E & Lz & Vz) end; try lia.
    + rewrite upd_length. split; auto.
    + intros r z Hr (Lz & Vz). rewrite mget_ret by lia. cbn [bind].
      rewrite (aget_ret z r 0) by lia. cbn [bind]. rewrite aset_ret by lia.
      eexists; split; [reflexivity|]. rewrite upd_length. split; auto.
      intros i. rewrite nth_upd, Lz.
      replace (r <? n)%nat with true by (symmetry; apply Nat.ltb_lt; lia). rewrite andb_true_r.
      destruct (r =? i)%nat eqn:E1.
      * apply Nat.eqb_eq in E1; subst i.
        replace (r <? r + 1)%nat with true by (symmetry; apply Nat.ltb_lt; lia).
        rewrite Vz, Nat.ltb_irrefl. reflexivity.
      * apply Nat.eqb_neq in E1. rewrite Vz.
        replace (i <? r + 1)%nat with (i <? r)%nat; auto.
        destruct (i <? r)%nat eqn:E2, (i <? r + 1)%nat eqn:E3; auto;
          rewrite ?Nat.ltb_lt, ?Nat.ltb_ge in *; lia.
    + exists z. split; [exact E|].
      replace (k + 1)%nat with (S k) in I by lia.
      apply (bs_step F n y k b z v); auto; try lia.
      * apply Hd; lia.
      * rewrite Vz, Nat.ltb_irrefl. apply nth_upd_eq. lia.
      * intros i Hi. rewrite Vz. replace (i <? k)%nat with false by (symmetry; apply Nat.ltb_ge; lia).
        apply nth_upd_neq. lia.
      * intros i Hi. rewrite Vz. replace (i <? k)%nat with true by (symmetry; apply Nat.ltb_lt; lia).
        rewrite nth_upd_neq by lia. reflexivity.
  - rewrite E. cbn [bind]. assert (L := proj1 I).
    rewrite (aget_ret b 0%nat 0) by lia. cbn [bind]. rewrite mget_ret by lia. cbn [bind].
    rewrite aset_ret by lia. eexists; split; [reflexivity|]. rewrite upd_length.
    split; auto. fold F. change (sdiv (nth 0 b 0) (F 0%nat 0%nat)) with (nth 0 b 0 / F 0%nat 0%nat).
    set (v := nth 0 b 0 / F 0%nat 0%nat).
    assert (I0 : bs_inv F n y 0 (upd b 0 v)).
    { apply (bs_step F n y 0 b _ v); auto; try lia.
      - rewrite upd_length; auto.
      - apply nth_upd_eq; lia.
      - intros i Hi. apply nth_upd_neq. lia. }
    intros i Hi. rewrite (proj2 I0 i Hi).
    replace (i <? 0)%nat with false by (symmetry; apply Nat.ltb_ge; lia). rewrite Rplus_0_r.
    apply rsum_ext. intros p Hp. unfold Upart. cbn [Nat.leb andb].
    destruct (i <=? p)%nat; ring.
Qed.

Lemma dense_solve_correct n (A : nat -> nat -> R) piv0 F piv b tol :
  (1 <= n)%nat -> length piv0 = n -> length b = n ->
  dense_setup piv0 (mkmat n n A) = Ret (piv, F, Ok tt) ->
  exists x, dense_solve piv F b tol = Ret x /\ length x = n /\ solves n A x b.
Proof.
  intros Hn Lp0 Lb E.
  destruct (factor_correct n n A (le_n n) piv0 F piv Lp0 E) as (Dr & Dc & Lp & (Hf & Hd & _ & Hpv)).
  unfold dense_solve, dense_get_rs. rewrite Dc.
  destruct (permute_rhs_spec n piv b) as (b1 & E1 & L1 & V1); auto.
  rewrite E1. cbn [bind].
  destruct (forward_subst_spec F n b1) as (y & E2 & L2 & V2); auto.
  rewrite E2. cbn [bind].
  destruct (backward_subst_spec F n y) as (x & E3 & L3 & V3); auto.
  exists x. split; [exact E3|]. split; auto.
  intros r Hr.
  destruct (row_of_onto piv n n (le_n n) Hpv r Hr) as (i & Hi & <-).
  rewrite <- V1 by auto. rewrite V2 by auto.
  rewrite (rsum_ext n (fun j => A (row_of piv n i) j * nth j x 0)
            (fun j => rsum n (fun p => Lpart (elem F) i p * (Upart (elem F) p j * nth j x 0)))).
  - rewrite rsum_swap. apply rsum_ext. intros p Hp. rewrite rsum_scal. rewrite <- V3 by auto. reflexivity.
  - intros j Hj. rewrite Hf by auto.
    replace (n <=? i)%nat with false by (symmetry; apply Nat.leb_gt; lia). cbn [andb].
    rewrite Rplus_0_r, <- rsum_scal_r. apply rsum_ext. intros; ring.
Qed.

Lemma dense_solution_unique n (A : nat -> nat -> R) piv0 F piv b x x' :
  length piv0 = n -> length x = n -> length x' = n ->
  dense_setup piv0 (mkmat n n A) = Ret (piv, F, Ok tt) ->
  solves n A x b -> solves n A x' b -> x = x'.
Proof.
  intros Lp0 Lx Lx' E Sx Sx'.
  destruct (factor_correct n n A (le_n n) piv0 F piv Lp0 E) as (Dr & Dc & Lp & Hinv).
  apply (nth_ext x x' 0 0); [congruence|]. intros j Hj.
  assert (Hi := rf_inv_independent n n A (le_n n) n (elem F) piv (le_n n) Hinv
                  (fun j => nth j x 0 - nth j x' 0)).
  cut (nth j x 0 - nth j x' 0 = 0); [lra|]. apply Hi; [|lia].
  intros i Him. specialize (Sx i Him). specialize (Sx' i Him).
  rewrite (rsum_ext n _ (fun j => A i j * nth j x 0 - A i j * nth j x' 0)) by (intros; ring).
  rewrite rsum_minus. lra.
Qed.

(** ** The factorisation always runs to the end (any scalar) *)
Section Total.
Context {T : Type} `{Scalar T}.
Lemma dense_setup_total m n (A : nat -> nat -> T) piv0 :
  (n <= m)%nat -> length piv0 = n ->
  exists piv F r, dense_setup piv0 (mkmat m n A) = Ret (piv, F, r) /\
    nrows F = m /\ ncols F = n /\ length piv = n /\
    (r = Ok tt -> forall k, (k < n)%nat -> (k <= nth k piv 0 < m)%nat) /\
    (forall c, r = Err c -> (1 <= c <= n)%nat).
Proof.
  intros Hmn Lp. unfold dense_setup, dense_get_rf. cbn [ncols nrows].
  replace (n <=? m)%nat with true by (symmetry; apply Nat.leb_le; lia).
  destruct (rf_loop_ret n 0 (mkmat m n A) piv0) as (F & piv & r & E & (D1 & D2) & L & _ & Hok & Herr);
    cbn [nrows ncols]; try lia.
  rewrite E. cbn [bind]. exists piv, F, r. cbn [nrows ncols] in *.
  split; [reflexivity|]. split; [auto|]. split; [auto|]. split; [lia|].
  split; [intros Hr k Hk; apply (Hok Hr k 0%nat); lia|].
  intros c Hc. specialize (Herr c Hc). lia.
Qed.

Lemma dense_solve_total n (A : nat -> nat -> T) piv0 piv F b tol :
  (1 <= n)%nat -> length piv0 = n -> length b = n ->
  dense_setup piv0 (mkmat n n A) = Ret (piv, F, Ok tt) ->
  exists x, dense_solve piv F b tol = Ret x /\ length x = n.
Proof.
  intros Hn Lp Lb E.
  destruct (dense_setup_total n n A piv0 (le_n n) Lp) as (p & F' & r & E' & D1 & D2 & L & Hok & _).
  rewrite E in E'. injection E' as <- <- <-. specialize (Hok eq_refl).
  unfold dense_solve. rewrite <- Lb. apply dense_get_rs_ret; try lia.
  intros k Hk. specialize (Hok k). lia.
Qed.

(** [dense_get_rs] on its own: the shapes and pivot ranges it needs. *)
Lemma dense_empty_panics (a : mat T) piv b : ncols a = 0%nat -> dense_get_rs a piv b = Panic.
Proof. intros E. unfold dense_get_rs. rewrite E. reflexivity. Qed.

Lemma dense_empty_refuted (A : nat -> nat -> T) tol :
  exists piv F, dense_setup (dense_new 0) (mkmat 0 0 A) = Ret (piv, F, Ok tt) /\
    dense_solve piv F [] tol = Panic.
Proof. exists [], (mkmat 0 0 A). split; [reflexivity|]. unfold dense_solve. apply dense_empty_panics. reflexivity. Qed.
End Total.

Lemma dense_setup_ok_iff m n (A : nat -> nat -> R) piv0 :
  (n <= m)%nat -> length piv0 = n ->
  (exists piv F, dense_setup piv0 (mkmat m n A) = Ret (piv, F, Ok tt)) <-> independent_cols m n A.
Proof.
  intros Hmn Lp.
  destruct (dense_setup_total m n A piv0 Hmn Lp) as (piv & F & [[]|c] & E & D1 & D2 & L & _ & _).
  - split; [|eauto]. intros _.
    destruct (factor_correct m n A Hmn piv0 F piv Lp E) as (_ & _ & _ & Hi).
    exact (rf_inv_independent m n A Hmn n (elem F) piv (le_n n) Hi).
  - split.
    + intros (p' & F' & E'). rewrite E in E'. discriminate.
    + intros Hind. exfalso.
      destruct (factor_error m n A Hmn piv0 F piv c Lp E) as (k & q & Hk & -> & Hi & Hz).
      apply (dependent_not_independent m (k + 1) A).
      * exact (rf_inv_dependent m n A Hmn k (elem F) q Hk Hi Hz).
      * apply (independent_prefix m n); [lia | exact Hind].
Qed.

Lemma dense_setup_err_iff m n (A : nat -> nat -> R) piv0 c :
  (n <= m)%nat -> length piv0 = n ->
  (exists piv F, dense_setup piv0 (mkmat m n A) = Ret (piv, F, Err c)) <->
  (1 <= c <= n)%nat /\ dependent_cols m c A /\ independent_cols m (c - 1) A.
Proof.
  intros Hmn Lp.
  assert (Herr : forall c piv F, dense_setup piv0 (mkmat m n A) = Ret (piv, F, Err c) ->
            (1 <= c <= n)%nat /\ dependent_cols m c A /\ independent_cols m (c - 1) A).
  { intros c' piv F E.
    destruct (factor_error m n A Hmn piv0 F piv c' Lp E) as (k & q & Hk & -> & Hi & Hz).
    split; [lia|]. split.
    - exact (rf_inv_dependent m n A Hmn k (elem F) q Hk Hi Hz).
    - replace (k + 1 - 1)%nat with k by lia.
      apply (rf_inv_independent m n A Hmn k (elem F) q); [lia | exact Hi]. }
  split; [intros (piv & F & E); eauto|].
  intros (Hc & Hd & Hi).
  destruct (dense_setup_total m n A piv0 Hmn Lp) as (piv & F & [[]|c'] & E & D1 & D2 & L & _ & _).
  - exfalso. apply (dependent_not_independent m c A Hd).
    apply (independent_prefix m n); [lia|]. apply (dense_setup_ok_iff m n A piv0); eauto.
  - exists piv, F. destruct (Herr _ _ _ E) as (Hc' & Hd' & Hi').
    destruct (Nat.lt_trichotomy c c') as [Hl|[->|Hl]]; [|exact E|]; exfalso.
    + apply (dependent_not_independent m c A Hd). apply (independent_prefix m (c' - 1)); [lia|auto].
    + apply (dependent_not_independent m c' A Hd'). apply (independent_prefix m (c - 1)); [lia|auto].
Qed.

Lemma dense_lu m n (A : nat -> nat -> R) piv0 piv F :
  (n <= m)%nat -> length piv0 = n ->
  dense_setup piv0 (mkmat m n A) = Ret (piv, F, Ok tt) ->
  nrows F = m /\ ncols F = n /\ length piv = n /\
  (forall i, (i < m)%nat -> (row_of piv n i < m)%nat) /\
  (forall r, (r < m)%nat -> exists i, (i < m)%nat /\ row_of piv n i = r) /\
  (forall i j, (i < m)%nat -> (j < n)%nat ->
     A (row_of piv n i) j = rsum n (fun p => Lpart (elem F) i p * Upart (elem F) p j)).
Proof.
  intros Hmn Lp E.
  destruct (factor_correct m n A Hmn piv0 F piv Lp E) as (Dr & Dc & L & (Hf & Hd & Hm & Hpv)).
  split; [auto|]. split; [auto|]. split; [auto|].
  split; [intros i Hi; apply row_of_lt; auto|].
  split; [intros r Hr; destruct (row_of_onto piv m n Hmn Hpv r Hr) as (i & Hi & Er); eauto|].
  intros i j Hi Hj. rewrite Hf by auto.
  replace (n <=? j)%nat with false by (symmetry; apply Nat.leb_gt; lia).
  rewrite andb_false_r. ring.
Qed.

Lemma dense_multipliers m n (A : nat -> nat -> R) piv0 piv F :
  (n <= m)%nat -> length piv0 = n ->
  dense_setup piv0 (mkmat m n A) = Ret (piv, F, Ok tt) ->
  forall i p, (p < n)%nat -> (p < i < m)%nat -> Rabs (elem F i p) <= 1.
Proof.
  intros Hmn Lp E.
  destruct (factor_correct m n A Hmn piv0 F piv Lp E) as (Dr & Dc & L & (Hf & Hd & Hm & Hpv)).
  intros i p Hp Hi. apply Hm; lia.
Qed.
