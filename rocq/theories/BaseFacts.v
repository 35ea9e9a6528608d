(** * BaseFacts: reasoning rules for outcomes, arrays and loops *)
Require Import List Arith Bool Lia.
Import ListNotations.
Require Import Verif.Base.

Lemma bind_ret_inv {A B} (m : outcome A) (k : A -> outcome B) b :
  bind m k = Ret b -> exists a, m = Ret a /\ k a = Ret b.
Proof. destruct m; simpl; intros; try discriminate; eauto. Qed.

Lemma bind_assoc {A B C} (m : outcome A) (f : A -> outcome B) (g : B -> outcome C) :
  bind (bind m f) g = bind m (fun a => bind (f a) g).
Proof. destruct m; reflexivity. Qed.

Lemma aget_ret {A} (l : list A) i d : i < length l -> aget l i = Ret (nth i l d).
Proof.
  unfold aget; intros Hi. rewrite (nth_error_nth' l d Hi). reflexivity.
Qed.

Lemma aget_inv {A} (l : list A) i x : aget l i = Ret x -> i < length l /\ forall d, nth i l d = x.
Proof.
  unfold aget; destruct (nth_error l i) eqn:E; intros Hx; inversion Hx; subst.
  split; [apply nth_error_Some; congruence | intros d; apply nth_error_nth; exact E].
Qed.

Lemma aget_panic {A} (l : list A) i : length l <= i -> aget l i = Panic.
Proof. unfold aget; intros Hi. apply nth_error_None in Hi. rewrite Hi. reflexivity. Qed.

Lemma upd_length {A} (l : list A) i v : length (upd l i v) = length l.
Proof. revert i; induction l as [|h t IH]; intros [|i]; simpl; auto. Qed.

Lemma nth_upd {A} (l : list A) i j v d :
  nth j (upd l i v) d = if (i =? j) && (i <? length l) then v else nth j l d.
Proof.
  revert i j; induction l as [|h t IH]; intros i j; simpl.
  - rewrite andb_false_r. destruct i, j; reflexivity.
  - destruct i as [|i], j as [|j]; simpl; auto.
    rewrite IH. simpl. reflexivity.
Qed.

Lemma nth_upd_eq {A} (l : list A) i v d : i < length l -> nth i (upd l i v) d = v.
Proof.
  intros Hi. rewrite nth_upd, Nat.eqb_refl. apply Nat.ltb_lt in Hi. rewrite Hi. reflexivity.
Qed.

Lemma nth_upd_neq {A} (l : list A) i j v d : i <> j -> nth j (upd l i v) d = nth j l d.
Proof. intros Hij. rewrite nth_upd. apply Nat.eqb_neq in Hij. rewrite Hij. reflexivity. Qed.

Lemma aset_ret {A} (l : list A) i v : i < length l -> aset l i v = Ret (upd l i v).
Proof. unfold aset; intros Hi. apply Nat.ltb_lt in Hi. rewrite Hi. reflexivity. Qed.

Lemma aset_inv {A} (l : list A) i v l' : aset l i v = Ret l' -> i < length l /\ l' = upd l i v.
Proof.
  unfold aset. destruct (i <? length l) eqn:E; intros Hx; inversion Hx; subst.
  apply Nat.ltb_lt in E. auto.
Qed.

Lemma usub_ret a b : b <= a -> usub a b = Ret (a - b).
Proof. unfold usub; intros Hx. apply Nat.leb_le in Hx. rewrite Hx. reflexivity. Qed.

Lemma usub_inv a b c : usub a b = Ret c -> b <= a /\ c = a - b.
Proof.
  unfold usub. destruct (b <=? a) eqn:E; intros Hx; inversion Hx; subst.
  apply Nat.leb_le in E. auto.
Qed.

Lemma slice_chk_ret lo hi len : lo <= len -> hi <= len -> slice_chk lo hi len = Ret tt.
Proof.
  unfold slice_chk; intros H1 H2. apply Nat.leb_le in H1, H2. rewrite H1, H2. reflexivity.
Qed.

Lemma vtab_length {A} n (f : nat -> A) : length (vtab n f) = n.
Proof. unfold vtab. rewrite map_length, seq_length. reflexivity. Qed.

Lemma nth_vtab {A} n (f : nat -> A) i d : i < n -> nth i (vtab n f) d = f i.
Proof.
  intros Hi. unfold vtab.
  rewrite (nth_indep _ d (f 0)) by (rewrite map_length, seq_length; exact Hi).
  rewrite map_nth, seq_nth by exact Hi. reflexivity.
Qed.

Lemma nth_vtab_out {A} n (f : nat -> A) i d : n <= i -> nth i (vtab n f) d = d.
Proof. intros Hi. apply nth_overflow. rewrite vtab_length. exact Hi. Qed.

(** ** Loops *)

Lemma foldm_app {S} (f : nat -> S -> outcome S) l1 l2 s :
  foldm f (l1 ++ l2) s = let* s' := foldm f l1 s in foldm f l2 s'.
Proof.
  revert s; induction l1 as [|i l1 IH]; intros s; simpl; auto.
  destruct (f i s); simpl; auto.
Qed.

(** Total-correctness rule for [for i in lo..hi]. *)
Lemma for_range_total {S} (P : nat -> S -> Prop) lo hi f (s : S) :
  lo <= hi -> P lo s ->
  (forall i s, lo <= i < hi -> P i s -> exists s', f i s = Ret s' /\ P (i + 1) s') ->
  exists s', for_range lo hi f s = Ret s' /\ P hi s'.
Proof.
  intros Hle H0 Hstep. unfold for_range.
  remember (hi - lo) as cnt eqn:Ec.
  revert lo s Hle H0 Hstep Ec; induction cnt as [|cnt IH]; intros lo s Hle H0 Hstep Ec; simpl.
  - exists s; split; auto. replace hi with lo by lia. exact H0.
  - destruct (Hstep lo s) as (s1 & E1 & P1); [lia | exact H0|].
    rewrite E1; simpl. apply IH; try lia.
    + replace (Datatypes.S lo) with (lo + 1) by lia. exact P1.
    + intros i s2 Hi; apply Hstep; lia.
Qed.

(** Partial-correctness rule. *)
Lemma for_range_inv {S} (P : nat -> S -> Prop) lo hi f (s s' : S) :
  lo <= hi -> P lo s ->
  (forall i s s', lo <= i < hi -> P i s -> f i s = Ret s' -> P (i + 1) s') ->
  for_range lo hi f s = Ret s' -> P hi s'.
Proof.
  intros Hle H0 Hstep. unfold for_range.
  remember (hi - lo) as cnt eqn:Ec.
  revert lo s Hle H0 Hstep Ec; induction cnt as [|cnt IH]; intros lo s Hle H0 Hstep Ec; simpl.
  - intros E; inversion E; subst. replace hi with lo by lia. exact H0.
  - intros E. apply bind_ret_inv in E. destruct E as (s1 & E1 & E2).
    apply (IH (Datatypes.S lo) s1); try lia; auto.
    + replace (Datatypes.S lo) with (lo + 1) by lia. eapply Hstep; eauto; lia.
    + intros i s2 s3 Hi; apply Hstep; lia.
Qed.

Lemma for_range_empty {S} lo hi f (s : S) : hi <= lo -> for_range lo hi f s = Ret s.
Proof. intros Hle. unfold for_range. replace (hi - lo) with 0 by lia. reflexivity. Qed.

Lemma for_range_first {S} lo hi f (s : S) :
  lo < hi -> for_range lo hi f s = let* s' := f lo s in for_range (lo + 1) hi f s'.
Proof.
  intros Hlt. unfold for_range. replace (hi - lo) with (Datatypes.S (hi - (lo + 1))) by lia.
  simpl. replace (lo + 1) with (Datatypes.S lo) by lia. reflexivity.
Qed.

Lemma for_range_last {S} lo hi f (s : S) :
  lo <= hi -> for_range lo (hi + 1) f s = let* s' := for_range lo hi f s in f hi s'.
Proof.
  intros Hle. unfold for_range. replace (hi + 1 - lo) with (hi - lo + 1) by lia.
  rewrite seq_app, foldm_app. destruct (foldm f (seq lo (hi - lo)) s); simpl; auto.
  replace (lo + (hi - lo)) with hi by lia. destruct (f hi a); reflexivity.
Qed.

Lemma for_range_ext {S} lo hi (f g : nat -> S -> outcome S) s :
  (forall i s, lo <= i < hi -> f i s = g i s) -> for_range lo hi f s = for_range lo hi g s.
Proof.
  intros Hfg. unfold for_range. remember (hi - lo) as cnt eqn:Ec.
  revert lo s Hfg Ec; induction cnt as [|cnt IH]; intros lo s Hfg Ec; simpl; auto.
  rewrite Hfg by lia. destruct (g lo s); simpl; auto.
  apply IH; [intros i s0 Hi; apply Hfg; lia | lia].
Qed.

(** Total-correctness rule for [for i in (lo..hi).rev()]: [P i] is the
    assertion when the indices [i..hi) have been processed. *)
Lemma for_range_rev_total {S} (P : nat -> S -> Prop) lo hi f (s : S) :
  lo <= hi -> P hi s ->
  (forall i s, lo <= i < hi -> P (i + 1) s -> exists s', f i s = Ret s' /\ P i s') ->
  exists s', for_range_rev lo hi f s = Ret s' /\ P lo s'.
Proof.
  intros Hle H0 Hstep. unfold for_range_rev.
  remember (hi - lo) as cnt eqn:Ec.
  revert hi s Hle H0 Hstep Ec; induction cnt as [|cnt IH]; intros hi s Hle H0 Hstep Ec.
  - exists s; split; auto. replace lo with hi by lia. exact H0.
  - replace (Datatypes.S cnt) with (cnt + 1) by lia.
    rewrite seq_app, rev_app_distr. simpl.
    destruct (Hstep (lo + cnt) s) as (s1 & E1 & P1); [lia | replace (lo + cnt + 1) with hi by lia; exact H0|].
    rewrite E1; simpl. apply (IH (lo + cnt)); try lia; auto.
    intros i s2 Hi; apply Hstep; lia.
Qed.

Lemma for_range_rev_inv {S} (P : nat -> S -> Prop) lo hi f (s s' : S) :
  lo <= hi -> P hi s ->
  (forall i s s', lo <= i < hi -> P (i + 1) s -> f i s = Ret s' -> P i s') ->
  for_range_rev lo hi f s = Ret s' -> P lo s'.
Proof.
  intros Hle H0 Hstep. unfold for_range_rev.
  remember (hi - lo) as cnt eqn:Ec.
  revert hi s Hle H0 Hstep Ec; induction cnt as [|cnt IH]; intros hi s Hle H0 Hstep Ec.
  - simpl. intros E; inversion E; subst. replace lo with hi by lia. exact H0.
  - replace (Datatypes.S cnt) with (cnt + 1) by lia.
    rewrite seq_app, rev_app_distr. simpl. intros E.
    apply bind_ret_inv in E. destruct E as (s1 & E1 & E2).
    apply (IH (lo + cnt) s1); try lia; auto.
    + eapply Hstep; eauto; [lia|]. replace (lo + cnt + 1) with hi by lia. exact H0.
    + intros i s2 s3 Hi; apply Hstep; lia.
Qed.

(** A function of the state that every iteration preserves. *)
Lemma foldm_pres {S X} (g : S -> X) f is (s s' : S) :
  (forall i s s', f i s = Ret s' -> g s' = g s) -> foldm f is s = Ret s' -> g s' = g s.
Proof.
  intros Hf. revert s; induction is as [|i tl IH]; simpl; intros s E.
  - inversion E; reflexivity.
  - apply bind_ret_inv in E. destruct E as (s1 & E1 & E2).
    rewrite (IH _ E2). eapply Hf; eauto.
Qed.
