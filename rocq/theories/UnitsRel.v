(** * UnitsRel: two runs side by side; vectors and comparisons under a change of units *)
Require Import List Arith Bool Reals Lia Lra.
Import ListNotations.
Require Import Verif.Base Verif.BaseFacts Verif.Scalar Verif.ScalarR Verif.Norms Verif.NormsR
  Verif.VecR Verif.RSum Verif.Units.
Open Scope nat_scope.

(** ** Outcomes *)

Lemma orel_bind {A B A' B'} (P : A -> A' -> Prop) (Q : B -> B' -> Prop) x x' k k' :
  orel P x x' -> (forall a a', P a a' -> orel Q (k a) (k' a')) -> orel Q (bind x k) (bind x' k').
Proof. destruct x, x'; cbn; try tauto. intros H HK. exact (HK _ _ H). Qed.

Lemma orel_bind_eq {A B A' B'} (P : A -> A' -> Prop) (Q : B -> B' -> Prop) x x' k k' :
  orel P x x' -> (forall a a', x = Ret a -> P a a' -> orel Q (k a) (k' a')) -> orel Q (bind x k) (bind x' k').
Proof. destruct x, x'; cbn; try tauto. intros H HK. exact (HK _ _ eq_refl H). Qed.

Lemma orel_mono {A B} (P Q : A -> B -> Prop) x y :
  orel P x y -> (forall a b, P a b -> Q a b) -> orel Q x y.
Proof. destruct x, y; cbn; auto. Qed.

Lemma orel_eq {A} (x : outcome A) : orel eq x x.
Proof. destruct x; cbn; auto. Qed.

Lemma orel_ret {A B} (P : A -> B -> Prop) x y a : orel P x y -> x = Ret a -> exists b, y = Ret b /\ P a b.
Proof. intros H ->. destruct y; cbn in H; try tauto. eauto. Qed.

Lemma foldm_rel {S S'} (P : S -> S' -> Prop) f f' is s s' :
  (forall i a a', In i is -> P a a' -> orel P (f i a) (f' i a')) -> P s s' ->
  orel P (foldm f is s) (foldm f' is s').
Proof.
  revert s s'. induction is as [|i is IH]; cbn [foldm]; intros s s' H Hs; [exact Hs|].
  eapply orel_bind; [apply H; [left; reflexivity|exact Hs]|].
  intros a a' Ha. apply IH; [|exact Ha]. intros j b b' Hj. apply H. right. exact Hj.
Qed.

Lemma for_range_rel {S S'} (P : S -> S' -> Prop) lo hi f f' s s' :
  (forall i a a', lo <= i < hi -> P a a' -> orel P (f i a) (f' i a')) -> P s s' ->
  orel P (for_range lo hi f s) (for_range lo hi f' s').
Proof.
  intros H. apply foldm_rel. intros i a a' Hi. apply H. apply in_seq in Hi. lia.
Qed.

Lemma for_range_rev_rel {S S'} (P : S -> S' -> Prop) lo hi f f' s s' :
  (forall i a a', lo <= i < hi -> P a a' -> orel P (f i a) (f' i a')) -> P s s' ->
  orel P (for_range_rev lo hi f s) (for_range_rev lo hi f' s').
Proof.
  intros H. apply foldm_rel. intros i a a' Hi. apply H. apply in_rev, in_seq in Hi. lia.
Qed.

(** Indexed version. *)
Lemma for_range_rel_i {S S'} (P : nat -> S -> S' -> Prop) lo hi f f' s s' :
  lo <= hi -> (forall i a a', lo <= i < hi -> P i a a' -> orel (P (Datatypes.S i)) (f i a) (f' i a')) -> P lo s s' ->
  orel (P hi) (for_range lo hi f s) (for_range lo hi f' s').
Proof.
  intros Hle. unfold for_range. remember (hi - lo) as d eqn:Ed. revert lo Hle Ed s s'.
  induction d as [|d IH]; intros lo Hle Ed s s' H Hs; cbn [seq foldm].
  - replace hi with lo by lia. exact Hs.
  - eapply orel_bind; [apply H; [lia|exact Hs]|]. intros a a' Ha.
    apply IH; [lia|lia| |exact Ha]. intros j b b' Hj. apply H. lia.
Qed.

Lemma aget_map {A B} (g : A -> B) l i : orel (fun a b => b = g a) (aget l i) (aget (map g l) i).
Proof. unfold aget. rewrite nth_error_map. destruct (nth_error l i); cbn; auto. Qed.

Lemma upd_map {A B} (g : A -> B) l i v : upd (map g l) i (g v) = map g (upd l i v).
Proof. revert i. induction l as [|a l IH]; intros [|i]; cbn; [reflexivity..|]. now rewrite IH. Qed.

Lemma aset_map {A B} (g : A -> B) l i v v' :
  v' = g v -> orel (fun a b => b = map g a) (aset l i v) (aset (map g l) i v').
Proof. intros ->. unfold aset. rewrite map_length, upd_map. destruct (i <? length l); cbn; auto. Qed.

(** ** Comparisons *)
Open Scope R_scope.

Lemma ltb_iff a b c d : (a < b <-> c < d) -> Rltb a b = Rltb c d.
Proof. intros H. unfold Rltb. destruct (Rlt_dec a b), (Rlt_dec c d); tauto. Qed.
Lemma leb_iff a b c d : (a <= b <-> c <= d) -> Rleb a b = Rleb c d.
Proof. intros H. unfold Rleb. destruct (Rle_dec a b), (Rle_dec c d); tauto. Qed.
Lemma eqb_iff a b c d : (a = b <-> c = d) -> Reqb a b = Reqb c d.
Proof. intros H. unfold Reqb. destruct (Req_EM_T a b), (Req_EM_T c d); tauto. Qed.

Lemma ltb_mul k a b a' b' : 0 < k -> a' = k * a -> b' = k * b -> Rltb a' b' = Rltb a b.
Proof.
  intros Hk -> ->. apply ltb_iff. split; intros H.
  - apply Rmult_lt_reg_l with k; assumption.
  - apply Rmult_lt_compat_l; assumption.
Qed.
Lemma leb_mul k a b a' b' : 0 < k -> a' = k * a -> b' = k * b -> Rleb a' b' = Rleb a b.
Proof.
  intros Hk -> ->. apply leb_iff. split; intros H.
  - apply Rmult_le_reg_l with k; assumption.
  - apply Rmult_le_compat_l; lra.
Qed.
Lemma eqb_mul k a b a' b' : k <> 0 -> a' = k * a -> b' = k * b -> Reqb a' b' = Reqb a b.
Proof.
  intros Hk -> ->. apply eqb_iff. split; intros H; [|now rewrite H].
  apply Rmult_eq_reg_l with k; assumption.
Qed.
Lemma neqb_mul k a b a' b' : k <> 0 -> a' = k * a -> b' = k * b -> sneqb a' b' = sneqb a b.
Proof. intros Hk Ha Hb. unfold sneqb. cbn [seqb ScalarR]. f_equal. exact (eqb_mul k _ _ _ _ Hk Ha Hb). Qed.

Lemma signum_mul L h : L <> 0 -> h <> 0 -> Rabs L * Rsignum (L * h) = L * Rsignum h.
Proof.
  intros HL Hh. unfold Rsignum, Rabs.
  destruct (Rcase_abs L), (Rlt_dec (L * h) 0), (Rlt_dec h 0); try nra.
Qed.

(** ** Scaled vectors *)

Lemma sv_length f v : length (sv f v) = length v.
Proof. apply vtab_length. Qed.

Lemma sv_get f v i : vget (sv f v) i = f i * vget v i.
Proof.
  unfold sv, vget. destruct (Nat.lt_ge_cases i (length v)) as [H|H].
  - rewrite nth_vtab by exact H. reflexivity.
  - rewrite nth_vtab_out, (nth_overflow v) by exact H. cbn. lra.
Qed.

Lemma vget_ext_list (v w : list R) : length v = length w -> (forall i, vget v i = vget w i) -> v = w.
Proof. intros Hl H. apply (nth_ext _ _ szero szero); [exact Hl|]. intros i _. exact (H i). Qed.

Lemma vget_vtab n (f : nat -> R) i : (i < n)%nat -> vget (vtab n f) i = f i.
Proof. intros H. apply nth_vtab. exact H. Qed.

Lemma vtab_ext {A} n (f g : nat -> A) : (forall i, (i < n)%nat -> f i = g i) -> vtab n f = vtab n g.
Proof. intros H. apply map_ext_in. intros i Hi. apply in_seq in Hi. apply H. lia. Qed.

Lemma sv_vtab f n g : sv f (vtab n g) = vtab n (fun i => f i * g i).
Proof.
  unfold sv. rewrite vtab_length. apply vtab_ext. intros i Hi. rewrite vget_vtab by exact Hi. reflexivity.
Qed.

Lemma sv_sv f g v : sv f (sv g v) = sv (fun i => f i * g i) v.
Proof.
  unfold sv at 1. rewrite sv_length. apply vtab_ext. intros i _. rewrite sv_get. ring.
Qed.

Lemma sv_ext f g v : (forall i, f i = g i) -> sv f v = sv g v.
Proof. intros H. apply vtab_ext. intros i _. now rewrite H. Qed.

Lemma vtab_vget (v : list R) : vtab (length v) (fun i => vget v i) = v.
Proof.
  apply vget_ext_list; [apply vtab_length|]. intros i. destruct (Nat.lt_ge_cases i (length v)) as [H|H].
  - apply vget_vtab. exact H.
  - unfold vget. rewrite nth_vtab_out, nth_overflow by exact H. reflexivity.
Qed.

Lemma sv_id f v : (forall i, f i = 1) -> sv f v = v.
Proof.
  intros H. rewrite <- (vtab_vget v) at 2. apply vtab_ext. intros i _. rewrite H. ring.
Qed.

Lemma sv_back f g v : (forall i, f i * g i = 1) -> sv f (sv g v) = v.
Proof. intros H. rewrite sv_sv. apply sv_id. exact H. Qed.

Lemma vget_zero n i : vget (vzero n) i = 0.
Proof. unfold vget, vzero. destruct (Nat.lt_ge_cases i n). - apply nth_repeat. - apply nth_overflow. rewrite repeat_length. assumption. Qed.

Lemma sv_zero f n : sv f (vzero n) = vzero n.
Proof.
  apply vget_ext_list; [apply sv_length|]. intros i. rewrite sv_get, vget_zero. ring.
Qed.

Lemma vadd_sv f n a b : vadd n (sv f a) (sv f b) = sv f (vadd n a b).
Proof. unfold vadd. rewrite sv_vtab. apply vtab_ext. intros i _. rewrite !sv_get. cbn. ring. Qed.
Lemma vsub_sv f n a b : vsub n (sv f a) (sv f b) = sv f (vsub n a b).
Proof. unfold vsub. rewrite sv_vtab. apply vtab_ext. intros i _. rewrite !sv_get. cbn. ring. Qed.
Lemma vscale_sv f g n c k a : (forall i, f i * c = g i * k) -> vscale n c (sv f a) = sv g (vscale n k a).
Proof.
  intros H. unfold vscale. rewrite sv_vtab. apply vtab_ext. intros i _. rewrite sv_get. cbn [smul ScalarR].
  replace (f i * vget a i * c) with (f i * c * vget a i) by ring. rewrite H. ring.
Qed.
Lemma vscaled_add_sv f g n y c k x :
  (forall i, c * g i = f i * k) -> vscaled_add n (sv f y) c (sv g x) = sv f (vscaled_add n y k x).
Proof.
  intros H. unfold vscaled_add. rewrite sv_vtab. apply vtab_ext. intros i _. rewrite !sv_get.
  cbn [smul sadd ScalarR]. replace (c * (g i * vget x i)) with (c * g i * vget x i) by ring. rewrite H. ring.
Qed.
Lemma vneg_sv f n a : vneg n (sv f a) = sv f (vneg n a).
Proof. unfold vneg. rewrite sv_vtab. apply vtab_ext. intros i _. rewrite !sv_get. cbn. ring. Qed.

(** ** Combinations of the equations *)
Lemma mv_length M v : length (mv M v) = length v.
Proof. apply vtab_length. Qed.
Lemma mv_get M v i : (i < length v)%nat -> vget (mv M v) i = rsum (length v) (fun k => M i k * vget v k).
Proof. intros Hi. apply vget_vtab, Hi. Qed.
Lemma mv_vtab M n f : mv M (vtab n f) = vtab n (fun i => rsum n (fun k => M i k * f k)).
Proof.
  unfold mv. rewrite vtab_length. apply vtab_ext. intros i _. apply rsum_ext. intros k Hk. rewrite vget_vtab by exact Hk. reflexivity.
Qed.
Lemma mv_zero M n : mv M (vzero n) = vzero n.
Proof.
  unfold vzero, mv. rewrite repeat_length. transitivity (vtab n (fun _ : nat => 0)).
  - apply vtab_ext. intros i _. apply rsum_0. intros k _. change (repeat szero n) with (vzero n). rewrite vget_zero. ring.
  - apply vget_ext_list; [rewrite vtab_length, repeat_length; reflexivity|]. intros i.
    change (repeat szero n) with (vzero n). rewrite vget_zero. destruct (le_lt_dec n i) as [Hi|Hi].
    + unfold vget. apply nth_vtab_out, Hi.
    + apply vget_vtab, Hi.
Qed.
Lemma mv_neg M n a : length a = n -> vneg n (mv M a) = mv M (vneg n a).
Proof.
  intros Ha. unfold vneg at 2. rewrite mv_vtab. unfold vneg. apply vtab_ext. intros i Hi. rewrite mv_get by lia. rewrite Ha.
  cbn [sneg ScalarR]. transitivity ((-1) * rsum n (fun k => M i k * vget a k)); [ring|].
  rewrite <- rsum_scal. apply rsum_ext. intros k _. ring.
Qed.
Lemma rsum_pick n i f : (i < n)%nat -> rsum n (fun k => (if (i =? k)%nat then 1 else 0) * f k) = f i.
Proof.
  intros Hi. rewrite (rsum_single n i); [|exact Hi|].
  - rewrite Nat.eqb_refl. ring.
  - intros k _ Hk. destruct (Nat.eqb_spec i k); [congruence|]. ring.
Qed.
Lemma mv_mv M N n v : length v = n ->
  (forall i k, (i < n)%nat -> (k < n)%nat -> rsum n (fun p => N i p * M p k) = if (i =? k)%nat then 1 else 0) ->
  mv N (mv M v) = v.
Proof.
  intros Hv E. unfold mv at 2. rewrite mv_vtab, Hv. apply vget_ext_list; [rewrite vtab_length; congruence|]. intros i.
  destruct (le_lt_dec n i) as [Hi|Hi].
  - unfold vget. rewrite nth_vtab_out by exact Hi. rewrite nth_overflow by lia. reflexivity.
  - rewrite vget_vtab by exact Hi.
    rewrite (rsum_ext n _ (fun p => rsum n (fun k => N i p * M p k * vget v k))).
    2:{ intros p _. rewrite <- rsum_scal. apply rsum_ext. intros k _. ring. }
    rewrite rsum_swap. rewrite (rsum_ext n _ (fun k => (if (i =? k)%nat then 1 else 0) * vget v k)).
    2:{ intros k Hk. rewrite rsum_scal_r, E by assumption. reflexivity. }
    apply rsum_pick, Hi.
Qed.
Lemma mv_id n v : length v = n -> mv (fun i k => if (i =? k)%nat then 1 else 0) v = v.
Proof.
  intros Hv. apply vget_ext_list; [apply mv_length|]. intros i. destruct (le_lt_dec n i) as [Hi|Hi].
  - unfold vget. rewrite !nth_overflow by (rewrite ?mv_length; lia). reflexivity.
  - rewrite mv_get by lia. rewrite Hv. apply rsum_pick, Hi.
Qed.

(** ** Norms *)

Lemma norm_wrms_sv f g x w : (forall i, (f i * g i) * (f i * g i) = 1) ->
  norm_wrms (sv f x) (sv g w) = norm_wrms x w.
Proof.
  intros H. unfold norm_wrms. rewrite sv_length. do 2 f_equal. f_equal. apply map_ext. intros i.
  rewrite !sv_get. unfold ssq. cbn [smul ScalarR].
  replace (f i * vget x i * (g i * vget w i) * (f i * vget x i * (g i * vget w i)))
    with (f i * g i * (f i * g i) * (vget x i * vget w i * (vget x i * vget w i))) by ring.
  rewrite H. ring.
Qed.

Lemma norm_wrms_masked_sv f g x w id : (forall i, (f i * g i) * (f i * g i) = 1) ->
  norm_wrms_masked (sv f x) (sv g w) id = norm_wrms_masked x w id.
Proof.
  intros H. unfold norm_wrms_masked. rewrite sv_length. do 2 f_equal. f_equal. apply map_ext. intros i.
  rewrite !sv_get. unfold ssq. cbn [smul ScalarR].
  set (e := if nth i id false then sone else szero).
  replace (f i * vget x i * (g i * vget w i) * e * (f i * vget x i * (g i * vget w i) * e))
    with (f i * g i * (f i * g i) * (vget x i * vget w i * e * (vget x i * vget w i * e))) by ring.
  rewrite H. ring.
Qed.

Lemma wrms_norm_sv f g x w id b : (forall i, (f i * g i) * (f i * g i) = 1) ->
  wrms_norm id (sv f x) (sv g w) b = wrms_norm id x w b.
Proof.
  intros H. unfold wrms_norm. destruct b; [apply norm_wrms_masked_sv|apply norm_wrms_sv]; exact H.
Qed.

Lemma fold_left_scal k (l : list R) a : fold_left Rplus (map (Rmult k) l) (k * a) = k * fold_left Rplus l a.
Proof.
  revert a. induction l as [|x l IH]; intros a; cbn; [reflexivity|].
  replace (k * a + k * x) with (k * (a + x)) by ring. apply IH.
Qed.

Lemma sqrt_scal c s : sqrt (c * c * s) = Rabs c * sqrt s.
Proof.
  rewrite sqrt_mult_alt by nra. f_equal. exact (sqrt_Rsqr_abs c).
Qed.

(** Multiplying the argument by [c] multiplies the norm by [|c|]. *)
Lemma wrms_norm_scal c x w id b :
  wrms_norm id (sv (fun _ => c) x) w b = Rabs c * wrms_norm id x w b.
Proof.
  assert (G : forall (F : nat -> R -> R) l, (forall i x, F i (c * x) = c * c * F i x) ->
    sqrt (fold_left Rplus (map (fun i => F i (vget (sv (fun _ => c) x) i)) (seq 0 (length (sv (fun _ => c) x)))) 0 / l)
    = Rabs c * sqrt (fold_left Rplus (map (fun i => F i (vget x i)) (seq 0 (length x))) 0 / l)).
  { intros F l HF. rewrite <- sqrt_scal. f_equal. rewrite sv_length. unfold Rdiv. rewrite <- Rmult_assoc. f_equal.
    rewrite <- fold_left_scal, map_map. rewrite Rmult_0_r. f_equal. apply map_ext. intros i. rewrite sv_get. apply HF. }
  unfold wrms_norm. destruct b.
  - unfold norm_wrms_masked, ssq. cbn [ssqrt sadd szero sdiv smul sone sofnat ScalarR]. rewrite sv_length at 2.
    apply (G (fun i x => x * vget w i * (if nth i id false then 1 else 0) * (x * vget w i * (if nth i id false then 1 else 0)))).
    intros i y. ring.
  - unfold norm_wrms, ssq. cbn [ssqrt sadd szero sdiv smul sone sofnat ScalarR]. rewrite sv_length at 2.
    apply (G (fun i x => x * vget w i * (x * vget w i))). intros i y. ring.
Qed.

(** ** Elements of scaled vectors *)
Lemma aget_sv f l i : orel (fun a b => b = f i * a) (aget l i) (aget (sv f l) i).
Proof.
  unfold aget. destruct (nth_error l i) as [a|] eqn:E.
  - assert (Hi : (i < length l)%nat) by (apply nth_error_Some; congruence).
    destruct (nth_error (sv f l) i) as [b|] eqn:E2.
    + cbn. pose proof (sv_get f l i) as G. unfold vget in G.
      rewrite (nth_error_nth _ _ _ E), (nth_error_nth _ _ _ E2) in G. exact G.
    + apply nth_error_None in E2. rewrite sv_length in E2. lia.
  - apply nth_error_None in E. rewrite <- (sv_length f) in E. apply nth_error_None in E. rewrite E. exact I.
Qed.

Lemma aget_val (l : list R) i a : aget l i = Ret a -> a = vget l i.
Proof.
  unfold aget, vget. destruct (nth_error l i) eqn:E; [|discriminate]. intros X. injection X as <-.
  symmetry. apply nth_error_nth. exact E.
Qed.

Lemma upd_length {A} (l : list A) i v : length (upd l i v) = length l.
Proof. revert i. induction l as [|x l IH]; intros [|i]; cbn; auto. Qed.
Lemma upd_get (l : list R) i v j : (i < length l)%nat -> vget (upd l i v) j = if (j =? i)%nat then v else vget l j.
Proof.
  unfold vget. revert i j. induction l as [|x l IH]; intros i j Hi; cbn [length] in Hi; [lia|].
  destruct i as [|i], j as [|j]; cbn; try reflexivity. apply IH. lia.
Qed.

Lemma aset_sv f g l i v v' : v' = g i * v -> (forall j, j <> i -> f j * vget l j = g j * vget l j) ->
  orel (fun a b => b = sv g a /\ (forall j, vget a j = if (j =? i)%nat then v else vget l j))
    (aset l i v) (aset (sv f l) i v').
Proof.
  intros -> Hf. unfold aset. rewrite sv_length. destruct (Nat.ltb_spec i (length l)) as [Hi|Hi]; [|exact I].
  cbn [orel]. split; [|intros j; apply upd_get; exact Hi].
  apply vget_ext_list; [rewrite sv_length, !upd_length; apply sv_length|].
  intros j. rewrite upd_get by (rewrite sv_length; exact Hi). rewrite !sv_get, upd_get by exact Hi.
  destruct (Nat.eqb_spec j i) as [->|E]; [reflexivity|]. apply Hf, E.
Qed.

Lemma for_range_max {S} lo hi (f : nat -> S -> outcome S) s : for_range lo hi f s = for_range lo (Nat.max lo hi) f s.
Proof. unfold for_range. f_equal. f_equal. lia. Qed.

