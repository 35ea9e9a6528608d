(** * IdaDky: the vector computed by [get_dky], for every scalar *)
Require Import List Arith Bool Lia.
Import ListNotations.
Require Import Verif.Base Verif.Scalar Verif.Norms Verif.Newton Verif.IdaState
  Verif.IdaNls Verif.IdaCore Verif.BaseFacts Verif.NewtonFacts
  Verif.IdaFacts Verif.IdaLoops.
Open Scope nat_scope.

Section Dky.
Context {T LSt NSt : Type} `{Scalar T} `{LSolver T LSt} `{NLSolver T NSt}.
Variable prob : problem T.
Notation n := (model_size prob).
Notation state := (ida T LSt NSt).

(** psi_(m-1), with psi_(-1) = 0. *)
Definition psv (ps : list T) (m : nat) : T := match m with 0 => szero | S q => vget ps q end.

(** c_j^(i) by the code's recurrence, for i <= j. *)
Fixpoint dcf (ps : list T) (delt : T) (i j : nat) : T :=
  match j with
  | 0 => sone
  | S q =>
      if i =? S q then (dcf ps delt q q * sofnat (S q) / vget ps q)%sc
      else ((sofnat i * (match i with 0 => szero | S p => dcf ps delt p q end)
             + dcf ps delt i q * (delt + psv ps q)) / vget ps q)%sc
  end.

Lemma dky_inner (ps : list T) delt d i cjk cjk1 :
  d <= 4 -> i <= 5 -> length ps = 6 -> length cjk = 6 -> length cjk1 = 6 ->
  vget cjk i = dcf ps delt i i ->
  (forall l, i <= l -> l <= d -> vget cjk1 l = match i with 0 => szero | S p => dcf ps delt p l end) ->
  exists cjk' p,
    for_range (i + 1) (d + 1 + 1)
      (fun j '(cjk, psij1) =>
         let* c1 := aget cjk1 (j - 1) in
         let* c := aget cjk (j - 1) in
         let* p := aget ps (j - 1) in
         let* cjk := aset cjk j ((sofnat i * c1 + c * (delt + psij1)) / p)%sc in
         Ret (cjk, p)) (cjk, psv ps i) = Ret (cjk', p) /\ length cjk' = 6 /\
    (forall l, i <= l -> l <= Nat.max i (d + 1) -> vget cjk' l = dcf ps delt i l) /\
    (forall l, l < i \/ Nat.max i (d + 1) < l -> vget cjk' l = vget cjk l).
Proof.
  intros Hd Hi Lp Lc Lc1 C0 C1.
  destruct (Nat.le_gt_cases (d + 1) i) as [Hle|Hlt].
  { rewrite for_range_empty by lia. exists cjk, (psv ps i). split; [reflexivity|]. split; [exact Lc|].
    split; [|auto]. intros l L1 L2. replace l with i by lia. exact C0. }
  destruct (for_range_total
    (fun j '(c, p) => length c = 6 /\ p = psv ps (j - 1) /\
       (forall l, i <= l < j -> vget c l = dcf ps delt i l) /\
       (forall l, l < i \/ j <= l -> vget c l = vget cjk l)) (i + 1) (d + 1 + 1)
    (fun j '(cjk, psij1) =>
         let* c1 := aget cjk1 (j - 1) in
         let* c := aget cjk (j - 1) in
         let* p := aget ps (j - 1) in
         let* cjk := aset cjk j ((sofnat i * c1 + c * (delt + psij1)) / p)%sc in
         Ret (cjk, p)) (cjk, psv ps i)) as ((c' & p') & E & L & P1 & P2 & P3); try lia.
  - split; [exact Lc|]. split; [f_equal; lia|]. split; [|auto]. intros l Hl. replace l with i by lia. exact C0.
  - intros j (c & p) Hj (L & -> & P2 & P3).
    rewrite (aget_ret _ (j - 1) szero) by lia. cbn [bind].
    rewrite (aget_ret c (j - 1) szero) by lia. cbn [bind].
    rewrite (aget_ret ps (j - 1) szero) by lia. cbn [bind].
    rewrite aset_ret by lia. cbn [bind]. eexists; split; [reflexivity|]. cbn beta iota.
    rewrite upd_length. split; [exact L|]. replace (j + 1 - 1) with j by lia.
    destruct j as [|j]; [lia|]. replace (S j - 1) with j by lia. split; [reflexivity|].
    unfold vget in *. split; intros l Hl.
    + destruct (Nat.eq_dec l (S j)) as [->|Hne].
      * rewrite nth_upd_eq by lia. cbn [dcf]. destruct (Nat.eqb_spec i (S j)); [lia|].
        rewrite (P2 j) by lia. rewrite (C1 j) by lia. destruct i; reflexivity.
      * rewrite nth_upd_neq by lia. apply P2. lia.
    + rewrite nth_upd_neq by lia. apply P3. lia.
  - exists c', p'. split; [exact E|]. split; [exact L|]. split; intros l; intros; [apply P2; lia|apply P3; lia].
Qed.

Lemma dky_save (d i : nat) (cjk cjk1 : list T) :
  d <= 4 -> length cjk = 6 -> length cjk1 = 6 ->
  exists c', for_range (i + 1) (d + 1 + 1) (fun j cjk1 => let* c := aget cjk j in aset cjk1 j c) cjk1 = Ret c' /\
    length c' = 6 /\ (forall l, i + 1 <= l -> l <= d + 1 -> vget c' l = vget cjk l).
Proof.
  intros Hd Lc Lc1. destruct (Nat.le_gt_cases (d + 1) i) as [Hle|Hlt].
  { rewrite for_range_empty by lia. exists cjk1. split; [reflexivity|]. split; [exact Lc1|]. intros; lia. }
  destruct (for_range_total (fun j c => length c = 6 /\ forall l, i + 1 <= l -> l < j -> vget c l = vget cjk l)
    (i + 1) (d + 1 + 1) (fun j cjk1 => let* c := aget cjk j in aset cjk1 j c) cjk1) as (c' & E & L & P); try lia.
  - split; [exact Lc1|]. intros; lia.
  - intros j c Hj (L & P). rewrite (aget_ret _ j szero) by lia. cbn [bind]. rewrite aset_ret by lia.
    eexists; split; [reflexivity|]. rewrite upd_length. split; [exact L|]. intros l L1 L2. unfold vget in *.
    destruct (Nat.eq_dec l j) as [->|Hne]; [rewrite nth_upd_eq by lia; reflexivity|].
    rewrite nth_upd_neq by lia. apply P; lia.
  - exists c'. split; [exact E|]. split; [exact L|]. intros; apply P; lia.
Qed.

(** Coefficient [l] after the outer loop: entries beyond
    [kused - k + 1] were never computed. *)
Lemma dky_loop (ps : list T) delt kus k : length ps = 6 -> k <= kus -> kus <= 5 -> kus - k <= 4 ->
  exists cjk cjk1 p,
    for_range 0 (k + 1) (dky_body ps delt kus k) (repeat szero MXORDP1, repeat szero MXORDP1, szero) = Ret (cjk, cjk1, p) /\
    length cjk = 6 /\
    (forall l, k <= l -> l <= Nat.max k (kus - k + 1) -> vget cjk l = dcf ps delt k l) /\
    (forall l, Nat.max k (kus - k + 1) < l -> vget cjk l = szero).
Proof.
  intros Lp Hk Hu Hd. set (d := kus - k) in *.
  destruct (for_range_total
    (fun i '(c, c1, p) => length c = 6 /\ length c1 = 6 /\
       match i with
       | 0 => p = szero /\ (forall l, vget c l = szero) /\ (forall l, vget c1 l = szero)
       | S q => (forall l, q <= l -> l <= Nat.max q (d + 1) -> vget c l = dcf ps delt q l) /\
                (forall l, Nat.max q (d + 1) < l -> vget c l = szero) /\
                (forall l, i <= l -> l <= d + 1 -> vget c1 l = dcf ps delt q l)
       end) 0 (k + 1) (dky_body ps delt kus k) (repeat szero MXORDP1, repeat szero MXORDP1, szero))
    as (((c & c1) & p) & E & L & L1 & P); try lia.
  - split; [reflexivity|]. split; [reflexivity|]. split; [reflexivity|].
    split; intros l; unfold vget, MXORDP1; do 6 (destruct l as [|l]; [reflexivity|]); destruct l; reflexivity.
  - intros i ((c & c1) & p) Hi (Lc & Lc1 & P).
    assert (Hin : exists ca, (if i =? 0 then let* cjk := aset c i sone in Ret (cjk, p)
        else let* ci1 := aget c (i - 1) in let* p := aget ps (i - 1) in
             let* cjk := aset c i (ci1 * sofnat i / p)%sc in Ret (cjk, p)) = Ret (ca, psv ps i) /\ length ca = 6 /\
        vget ca i = dcf ps delt i i /\ forall l, i < l -> vget ca l = vget c l).
    { destruct i as [|q].
      - destruct P as (-> & _). rewrite aset_ret by lia. cbn [bind Nat.eqb]. eexists; split; [reflexivity|].
        rewrite upd_length. split; [exact Lc|]. unfold vget. split; [apply nth_upd_eq; lia|]. intros l Hl. apply nth_upd_neq. lia.
      - cbn [Nat.eqb]. replace (S q - 1) with q by lia. rewrite (aget_ret c q szero) by lia. cbn [bind].
        rewrite (aget_ret ps q szero) by lia. cbn [bind]. rewrite aset_ret by lia. cbn [bind]. eexists; split; [reflexivity|].
        rewrite upd_length. split; [exact Lc|]. destruct P as (P & _). unfold vget in *. split.
        + rewrite nth_upd_eq by lia. cbn [dcf]. rewrite Nat.eqb_refl, (P q) by lia. reflexivity.
        + intros l Hl. apply nth_upd_neq. lia. }
    destruct Hin as (ca & E1 & La & Ha & Hb). unfold dky_body. cbv zeta. rewrite E1. cbn [bind].
    unfold usub. destruct (Nat.leb_spec k kus); [|lia]. cbn [bind]. fold d.
    destruct (dky_inner ps delt d i ca c1 Hd ltac:(lia) Lp La Lc1 Ha) as (cb & pb & E2 & Lb & Q1 & Q2).
    { intros l L2 L3. destruct i as [|q]; [apply P|]. apply P; lia. }
    rewrite E2. cbn [bind].
    destruct (dky_save d i cb c1 Hd Lb Lc1) as (cs & E3 & Ls & Q3). rewrite E3. cbn [bind].
    eexists; split; [reflexivity|]. cbn beta iota. split; [exact Lb|]. split; [exact Ls|].
    replace (i + 1) with (S i) by lia. split; [exact Q1|]. split.
    + intros l Hl. rewrite Q2 by lia. rewrite Hb by lia. destruct i as [|q]; [apply P|]. apply P. lia.
    + intros l L2 L3. rewrite Q3 by lia. apply Q1; lia.
  - replace (k + 1) with (S k) in P by lia. destruct P as (P1 & P2 & _). exists c, c1, p. auto.
Qed.

(** Accumulation of [(&phi * &cvals).sum_axis(Axis(0))]. *)
Fixpoint dkysum (f : nat -> T) (ph : list (list T)) (lo cnt : nat) : list T :=
  match cnt with
  | 0 => vzero n
  | S i => vtab n (fun x => (vget (dkysum f ph lo i) x + vget (row ph (lo + i)) x * f (lo + i)%nat)%sc)
  end.

Lemma dkysum_ext f g ph lo cnt : (forall i, lo <= i < lo + cnt -> f i = g i) -> dkysum f ph lo cnt = dkysum g ph lo cnt.
Proof. induction cnt as [|c IH]; [reflexivity|]. intros E. cbn. rewrite IH by (intros; apply E; lia). rewrite (E (lo + c)) by lia. reflexivity. Qed.

(** The coefficients the call ends up with. *)
Definition dky_coef (st : state) (t : T) (k l : nat) : T :=
  if l <=? Nat.max k (kused st - k + 1) then dcf (psi st) (t - tn (nlp st))%sc k l else szero.

Lemma dky_spec (st : state) t k dky : arrays st -> kused st <= 5 -> k <= kused st ->
  get_dky prob st t k dky =
    match time_check st t with
    | Some e => Ret (dky, Err e)
    | None => if (kused st =? 5) && (k =? 0) then Panic
              else Ret (dkysum (dky_coef st t k) (phi st) k (kused st + 1 - k), Ok tt)
    end.
Proof.
  intros (Lph & Lps & _) Hu Hk. unfold get_dky. destruct (Nat.ltb_spec (kused st) k); [lia|].
  destruct (time_check st t) as [e|]; [reflexivity|]. cbv zeta.
  destruct ((kused st =? 5) && (k =? 0)) eqn:Eb.
  - apply andb_prop in Eb. destruct Eb as (E5 & E0). apply Nat.eqb_eq in E5, E0. rewrite E5, E0.
    assert (Hp : for_range 0 (0 + 1) (dky_body (psi st) (t - tn (nlp st))%sc 5 0) (repeat szero MXORDP1, repeat szero MXORDP1, szero) = Panic); [|rewrite Hp; reflexivity].
    rewrite for_range_first by lia.
    destruct (psi st) as [|p0 [|p1 [|p2 [|p3 [|p4 [|p5 [|]]]]]]]; try discriminate. reflexivity.
  - assert (Hd : kused st - k <= 4).
    { destruct (Nat.eqb_spec (kused st) 5), (Nat.eqb_spec k 0); try discriminate; lia. }
    destruct (dky_loop (psi st) (t - tn (nlp st))%sc (kused st) k Lps Hk Hu Hd) as (c & c1 & p & E & Lc & Q1 & Q2).
    rewrite E. cbn [bind]. unfold slice_chk. rewrite Lph, Lc.
    replace ((k <=? 6) && (kused st + 1 <=? 6)) with true by (symmetry; apply andb_true_intro; split; apply Nat.leb_le; lia).
    cbn [bind].
    destruct (for_range_total (fun i v => v = dkysum (dky_coef st t k) (phi st) k (i - k)) k (kused st + 1)
      (fun i acc => let* p := aget (phi st) i in
                    let* c := aget c i in
                    Ret (vtab n (fun x => (vget acc x + vget p x * c)%sc)))
      (vzero n)) as (v & E1 & ->); try lia.
    + replace (k - k) with 0 by lia. reflexivity.
    + intros i v Hi ->. rewrite (aget_ret (phi st) i []) by lia. cbn [bind]. rewrite (aget_ret c i szero) by lia. cbn [bind].
      eexists; split; [reflexivity|]. replace (i + 1 - k) with (S (i - k)) by lia. cbn [dkysum].
      replace (k + (i - k)) with i by lia.
      assert (Ec : nth i c szero = dky_coef st t k i).
      { unfold dky_coef. change (nth i c szero) with (vget c i). destruct (Nat.leb_spec i (Nat.max k (kused st - k + 1))); [apply Q1; lia|apply Q2; lia]. }
      rewrite Ec. reflexivity.
    + rewrite E1. reflexivity.
Qed.
End Dky.
