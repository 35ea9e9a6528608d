(** * InterpRnd: the interpolation of [get_solution] in arithmetic with rounding *)
Require Import List Arith Bool Lia Reals Lra Psatz.
Import ListNotations.
Require Import Verif.Base Verif.Scalar Verif.ScalarR Verif.RoundR Verif.Norms Verif.BaseFacts Verif.RSum Verif.IdaState Verif.IdaNls
  Verif.IdaCore Verif.IdaLoops Verif.IdaInterp.
Open Scope R_scope.

(** ** The exact basis
    [basis ps x j] is the product of (x + psi_(l-1)) / psi_l over l < j with
    psi_(-1) = 0, [dbasis] its derivative in [x]. *)
Definition shifted (ps : nat -> R) (i : nat) : R := match i with O => 0 | S l => ps l end.
Fixpoint basis (ps : nat -> R) (x : R) (j : nat) : R :=
  match j with O => 1 | S i => basis ps x i * ((x + shifted ps i) / ps i) end.
Fixpoint dbasis (ps : nat -> R) (x : R) (j : nat) : R :=
  match j with O => 0 | S i => dbasis ps x i * ((x + shifted ps i) / ps i) + basis ps x i / ps i end.

Lemma dbasis_derive ps j : forall x, derivable_pt_lim (fun z => basis ps z j) x (dbasis ps x j).
Proof.
  induction j as [|i IH]; intros x; cbn [basis dbasis]; [apply derivable_pt_lim_const|].
  pose proof (derivable_pt_lim_mult (fun z => basis ps z i) (fun z => (z + shifted ps i) / ps i) x (dbasis ps x i) (/ ps i) (IH x)) as P.
  unfold Rdiv at 2. apply P. clear P.
  assert (derivable_pt_lim (fun z => z + shifted ps i) x (1 + 0)) as Q
    by (apply (derivable_pt_lim_plus id (fct_cte (shifted ps i))); [apply derivable_pt_lim_id|apply derivable_pt_lim_const]).
  pose proof (derivable_pt_lim_mult (fun z => z + shifted ps i) (fct_cte (/ ps i)) x (1 + 0) 0 Q (derivable_pt_lim_const _ _)) as P.
  replace (/ ps i) with ((1 + 0) * fct_cte (/ ps i) x + (x + shifted ps i) * 0) by (unfold fct_cte; ring). exact P.
Qed.

Lemma basis_ext ps qs x j : (forall i, (i < j)%nat -> ps i = qs i) -> basis ps x j = basis qs x j /\ dbasis ps x j = dbasis qs x j.
Proof.
  induction j as [|i IH]; intros E; cbn [basis dbasis]; [auto|]. destruct IH as (-> & ->); [intros; apply E; lia|].
  rewrite (E i) by lia. assert (shifted ps i = shifted qs i) as -> by (destruct i; [reflexivity|apply E; lia]). auto.
Qed.

Lemma basis_nonneg ps x j : (forall i, 0 <= ps i) -> 0 <= x -> 0 <= basis ps x j /\ 0 <= dbasis ps x j.
Proof.
  intros Hp Hx. assert (forall i, 0 <= / ps i) as Hi.
  { intros i. destruct (Hp i) as [L|<-]; [left; apply Rinv_0_lt_compat; exact L|]. rewrite Rinv_0. lra. }
  assert (forall i, 0 <= (x + shifted ps i) / ps i) as Hg.
  { intros i. apply Rmult_le_pos; [|apply Hi]. destruct i; cbn; [lra|]. pose proof (Hp i). lra. }
  induction j as [|i IH]; cbn [basis dbasis]; [lra|]. destruct IH as (A & B). split; [apply Rmult_le_pos; auto|].
  apply Rplus_le_le_0_compat; apply Rmult_le_pos; auto.
Qed.

(** ** Approximations
    [close m X a b]: [a] approximates [b], a number of size at most [X], after
    [m] roundings. *)
Section Close.
Variables (u : R) (rnd : R -> R).
Hypothesis Hr : rounding u rnd.

Definition close (m : nat) (X a b : R) : Prop := Rabs b <= X /\ Rabs (a - b) <= ((1 + u) ^ m - 1) * X.

Lemma u0 : 0 <= u. Proof. apply (proj1 Hr). Qed.
Lemma pow1u m : 1 <= (1 + u) ^ m.
Proof. apply pow_R1_Rle. pose proof u0. lra. Qed.
Lemma close_X m X a b : close m X a b -> 0 <= X.
Proof. intros (A & _). pose proof (Rabs_pos b). lra. Qed.
Lemma close_exact b : close 0 (Rabs b) b b.
Proof. split; [lra|]. rewrite Rminus_diag_eq by reflexivity. rewrite Rabs_R0. cbn. lra. Qed.
Lemma close_le m m' X X' a b : (m <= m')%nat -> X <= X' -> close m X a b -> close m' X' a b.
Proof.
  intros Hm HX C. pose proof (close_X _ _ _ _ C) as P. destruct C as (A & B). split; [lra|].
  assert ((1 + u) ^ m <= (1 + u) ^ m') as Q by (apply Rle_pow; [pose proof u0; lra|exact Hm]). pose proof (pow1u m).
  apply Rle_trans with (1 := B). apply Rmult_le_compat; lra.
Qed.
Lemma close_size m X a b : close m X a b -> Rabs a <= (1 + u) ^ m * X.
Proof.
  intros (A & B). replace a with ((a - b) + b) by ring. eapply Rle_trans; [apply Rabs_triang|]. lra.
Qed.
Lemma close_rnd m X a b : close m X a b -> close (S m) X (rnd a) b.
Proof.
  intros C. pose proof (close_size _ _ _ _ C) as S. destruct C as (A & B). split; [exact A|].
  replace (rnd a - b) with ((rnd a - a) + (a - b)) by ring. eapply Rle_trans; [apply Rabs_triang|].
  pose proof (proj2 Hr a) as E. pose proof u0. cbn [pow].
  assert (u * Rabs a <= u * ((1 + u) ^ m * X)) by (apply Rmult_le_compat_l; assumption). nra.
Qed.
Lemma close_add m X Y a b c d : close m X a b -> close m Y c d -> close m (X + Y) (a + c) (b + d).
Proof.
  intros (A & B) (C & D). split; [eapply Rle_trans; [apply Rabs_triang|]; lra|].
  replace (a + c - (b + d)) with ((a - b) + (c - d)) by ring. eapply Rle_trans; [apply Rabs_triang|]. lra.
Qed.
Lemma close_mul m k X Y a b c d : close m X a b -> close k Y c d -> close (m + k) (X * Y) (a * c) (b * d).
Proof.
  intros C D. pose proof (close_size _ _ _ _ D) as S. pose proof (close_X _ _ _ _ C) as PX. pose proof (close_X _ _ _ _ D) as PY.
  destruct C as (A & B), D as (C & D). pose proof (pow1u m). pose proof (pow1u k). split.
  - rewrite Rabs_mult. apply Rmult_le_compat; auto using Rabs_pos.
  - replace (a * c - b * d) with ((a - b) * c + b * (c - d)) by ring. eapply Rle_trans; [apply Rabs_triang|]. rewrite !Rabs_mult, pow_add.
    assert (Rabs (a - b) * Rabs c <= (((1 + u) ^ m - 1) * X) * ((1 + u) ^ k * Y)) by (apply Rmult_le_compat; auto using Rabs_pos).
    assert (Rabs b * Rabs (c - d) <= X * (((1 + u) ^ k - 1) * Y)) by (apply Rmult_le_compat; auto using Rabs_pos). nra.
Qed.
Lemma close_div m X a b p : close m X a b -> close m (X / Rabs p) (a / p) (b / p).
Proof.
  intros (A & B). destruct (Req_dec p 0) as [->|Hp].
  - unfold Rdiv. rewrite Rabs_R0, Rinv_0, !Rmult_0_r. split; rewrite ?Rminus_0_r, ?Rabs_R0; lra.
  - pose proof (Rabs_pos_lt _ Hp) as P. assert (0 < / Rabs p) as Q by (apply Rinv_0_lt_compat; exact P).
    split.
    + unfold Rdiv. rewrite Rabs_mult, Rabs_inv. apply Rmult_le_compat_r; lra.
    + replace (a / p - b / p) with ((a - b) * / p) by (unfold Rdiv; ring). rewrite Rabs_mult, Rabs_inv. unfold Rdiv. rewrite <- Rmult_assoc.
      apply Rmult_le_compat_r; lra.
Qed.
Lemma close_0 m : close m 0 0 0.
Proof. split; rewrite ?Rminus_0_r, ?Rabs_R0; lra. Qed.

Local Instance SRn : Scalar R := ScalarRnd rnd.

(** ** The coefficients of the code *)
Lemma cdg_close ps x x' : close 1 (Rabs x) x' x -> forall j,
  let p := vget ps in let q := fun i => Rabs (vget ps i) in
  close (4 * j) (basis q (Rabs x) j) (fst (fst (cdg ps x' j))) (basis p x j) /\
  close (5 * j) (dbasis q (Rabs x) j) (snd (fst (cdg ps x' j))) (dbasis p x j) /\
  close 3 ((Rabs x + shifted q j) / q j) (snd (cdg ps x' j)) ((x + shifted p j) / p j).
Proof.
  intros Hx. cbv zeta. set (p := vget ps). set (q := fun i => Rabs (vget ps i)). induction j as [|i (A & B & C)].
  - cbn [cdg fst snd basis dbasis]. split; [|split].
    + eapply close_le; [| |apply (close_exact 1)]; [lia|rewrite Rabs_R1; lra].
    + apply close_0.
    + cbn [shifted sdiv SRn ScalarRnd]. rewrite !Rplus_0_r. apply close_rnd.
      eapply close_le; [| |apply close_div; exact Hx]; [lia|right; reflexivity].
  - cbn [cdg]. destruct (cdg ps x' i) as ((c & d) & g). cbn [fst snd] in *. cbn [basis dbasis smul sadd sdiv SRn ScalarRnd].
    split; [|split].
    + eapply close_le; [| |apply close_rnd; apply (close_mul _ _ _ _ _ _ _ _ A C)]; [lia|right; reflexivity].
    + eapply close_le; [| |apply close_rnd; apply (close_add (5 * i + 4))].
      * lia.
      * right; reflexivity.
      * eapply close_le; [| |apply close_rnd; apply (close_mul _ _ _ _ _ _ _ _ B C)]; [lia|right; reflexivity].
      * eapply close_le; [| |apply close_rnd; apply close_div; exact A]; [lia|right; reflexivity].
    + cbn [shifted]. apply close_rnd. apply close_div. apply close_rnd. apply close_add; [exact Hx|].
      eapply close_le; [| |apply close_exact]; [lia|right; reflexivity].
Qed.

(** ** Sums of rows *)
Lemma vget_tab n (f : nat -> R) i : (i < n)%nat -> vget (vtab n f) i = f i.
Proof. intros Hi. unfold vget. apply nth_vtab. exact Hi. Qed.

Lemma rowcf_close (prob : problem R) c ph lo m (e E : nat -> R) i : (i < model_size prob)%nat -> forall k,
  (forall j, (j < k)%nat -> close m (E j) (c j) (e j)) ->
  close (m + 1 + k) (rsum k (fun j => E j * Rabs (vget (row ph (lo + j)) i))) (vget (rowcf prob c ph lo k) i)
    (rsum k (fun j => e j * vget (row ph (lo + j)) i)).
Proof.
  intros Hi. induction k as [|k IH]; intros Hc.
  - cbn [rowcf rsum]. replace (vget (vzero (model_size prob)) i) with 0; [apply close_0|].
    unfold vget, vzero. rewrite nth_repeat. reflexivity.
  - cbn [rowcf rsum]. unfold vscaled_add. rewrite vget_tab by exact Hi. cbn [sadd smul SRn ScalarRnd].
    replace (m + 1 + S k)%nat with (S (m + 1 + k)) by lia. apply close_rnd. apply close_add; [apply IH; intros; apply Hc; lia|].
    eapply close_le; [| |apply close_rnd; apply close_mul; [apply Hc; lia|apply close_exact]]; [lia|right; reflexivity].
Qed.


Lemma rowsum_close (prob : problem R) ph i : (i < model_size prob)%nat -> forall k,
  close k (rsum k (fun j => Rabs (vget (row ph j) i))) (vget (rowsum prob ph k) i) (rsum k (fun j => vget (row ph j) i)).
Proof.
  intros Hi. induction k as [|k IH]; cbn [rowsum rsum].
  - replace (vget (vzero (model_size prob)) i) with 0; [apply close_0|]. unfold vget, vzero. rewrite nth_repeat. reflexivity.
  - unfold vadd. rewrite vget_tab by exact Hi. cbn [sadd SRn ScalarRnd]. apply close_rnd. apply close_add; [exact IH|].
    eapply close_le; [| |apply close_exact]; [lia|right; reflexivity].
Qed.

Lemma rsum_front f k : rsum (S k) f = f O + rsum k (fun j => f (S j)).
Proof. induction k as [|k IH]; cbn [rsum] in *; [ring|]. rewrite IH. ring. Qed.

(** The rows of the history after a step, r_j = r_(j+1) + p_j, r_(k+1) = e. *)
Lemma tailsum_close (prob : problem R) e ph i : (i < model_size prob)%nat -> forall c j,
  close c (Rabs (vget e i) + rsum c (fun l => Rabs (vget (row ph (j + l)) i))) (vget (tailsum prob e ph j c) i)
    (vget e i + rsum c (fun l => vget (row ph (j + l)) i)).
Proof.
  intros Hi. induction c as [|c IH]; intros j; cbn [tailsum].
  - cbn [rsum]. rewrite !Rplus_0_r. apply close_exact.
  - unfold vadd. rewrite vget_tab by exact Hi. cbn [sadd SRn ScalarRnd]. apply close_rnd.
    rewrite !rsum_front. rewrite !Nat.add_0_r.
    assert (forall F : R -> R, rsum c (fun l => F (vget (row ph (j + S l)) i)) = rsum c (fun l => F (vget (row ph (S j + l)) i))) as Q
      by (intros F; apply rsum_ext; intros l _; do 3 f_equal; lia).
    rewrite (Q Rabs), (Q (fun z => z)).
    replace (Rabs (vget e i) + (Rabs (vget (row ph j) i) + rsum c (fun l => Rabs (vget (row ph (S j + l)) i))))
      with ((Rabs (vget e i) + rsum c (fun l => Rabs (vget (row ph (S j + l)) i))) + Rabs (vget (row ph j) i)) by ring.
    replace (vget e i + (vget (row ph j) i + rsum c (fun l => vget (row ph (S j + l)) i)))
      with ((vget e i + rsum c (fun l => vget (row ph (S j + l)) i)) + vget (row ph j) i) by ring.
    apply close_add; [apply IH|]. eapply close_le; [| |apply close_exact]; [lia|right; reflexivity].
Qed.

Lemma rnd_back a b : Rabs b <= Rabs (rnd (a + b)) / (1 - u) + Rabs a.
Proof.
  pose proof (proj1 Hr) as Hu. pose proof (proj2 Hr (a + b)) as E.
  assert (Rabs (a + b) <= Rabs (rnd (a + b)) / (1 - u)) as Q.
  { apply Rmult_le_reg_r with (1 - u); [lra|]. unfold Rdiv. rewrite Rmult_assoc, Rinv_l, Rmult_1_r by lra.
    pose proof (Rabs_triang (rnd (a + b)) (- (rnd (a + b) - (a + b)))) as P. rewrite Rabs_Ropp in P.
    replace (rnd (a + b) + - (rnd (a + b) - (a + b))) with (a + b) in P by ring. lra. }
  pose proof (Rabs_triang (a + b) (- a)) as P. rewrite Rabs_Ropp in P. replace (a + b + - a) with b in P by ring. lra.
Qed.

Lemma tailsum_back (prob : problem R) e ph i : (i < model_size prob)%nat -> forall c j,
  rsum c (fun l => Rabs (vget (row ph (j + l)) i)) + Rabs (vget e i) <=
  2 / (1 - u) * (rsum c (fun l => Rabs (vget (tailsum prob e ph (j + l) (c - l)) i)) + Rabs (vget e i))
  - Rabs (vget (tailsum prob e ph j c) i).
Proof.
  intros Hi. pose proof (proj1 Hr) as Hu.
  assert (1 <= / (1 - u)) as Q by (rewrite <- Rinv_1 at 1; apply Rinv_le_contravar; lra).
  induction c as [|c IH]; intros j.
  - cbn [rsum tailsum]. pose proof (Rabs_pos (vget e i)). unfold Rdiv. nra.
  - rewrite !rsum_front. rewrite !Nat.add_0_r, Nat.sub_0_r. specialize (IH (S j)).
    assert (rsum c (fun l => Rabs (vget (row ph (j + S l)) i)) = rsum c (fun l => Rabs (vget (row ph (S j + l)) i))) as ->
      by (apply rsum_ext; intros l _; do 3 f_equal; lia).
    assert (rsum c (fun l => Rabs (vget (tailsum prob e ph (j + S l) (S c - S l)) i)) = rsum c (fun l => Rabs (vget (tailsum prob e ph (S j + l) (c - l)) i))) as ->
      by (apply rsum_ext; intros l _; replace (j + S l)%nat with (S j + l)%nat by lia; reflexivity).
    assert (vget (tailsum prob e ph j (S c)) i = rnd (vget (tailsum prob e ph (S j) c) i + vget (row ph j) i)) as E.
    { cbn [tailsum]. unfold vadd. rewrite vget_tab by exact Hi. reflexivity. }
    pose proof (rnd_back (vget (tailsum prob e ph (S j) c) i) (vget (row ph j) i)) as B. rewrite <- E in B.
    set (r := Rabs (vget (tailsum prob e ph j (S c)) i)) in *. set (r1 := Rabs (vget (tailsum prob e ph (S j) c) i)) in *.
    assert (0 <= r) by apply Rabs_pos. unfold Rdiv in *. nra.
Qed.

End Close.
