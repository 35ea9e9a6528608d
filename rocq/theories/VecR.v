(** * VecR: vectors component by component, and sums of rows over the reals *)
Require Import List Arith Bool Lia Reals Lra.
Import ListNotations.
Require Import Verif.Base Verif.Scalar Verif.ScalarR Verif.Norms Verif.BaseFacts Verif.RSum Verif.IdaState
  Verif.IdaLoops.
Open Scope nat_scope.

Section Vec.
Context {T : Type} `{Scalar T}.

Lemma vget_vtab n f i : i < n -> vget (vtab n f) i = f i.
Proof. intros Hi. unfold vget. apply nth_vtab. exact Hi. Qed.
Lemma vget_vadd n a b i : i < n -> vget (vadd n a b) i = (vget a i + vget b i)%sc.
Proof. apply vget_vtab. Qed.
Lemma vget_vsub n a b i : i < n -> vget (vsub n a b) i = (vget a i - vget b i)%sc.
Proof. apply vget_vtab. Qed.
Lemma vget_vscale n c v i : i < n -> vget (vscale n c v) i = (vget v i * c)%sc.
Proof. apply vget_vtab. Qed.
Lemma vget_vscaled_add n y c x i : i < n -> vget (vscaled_add n y c x) i = (vget y i + c * vget x i)%sc.
Proof. apply vget_vtab. Qed.
Lemma vget_vzero n i : vget (vzero n) i = szero.
Proof. unfold vget, vzero. apply nth_repeat. Qed.

Lemma length_vadd n a b : length (vadd n a b) = n.
Proof. apply vtab_length. Qed.
Lemma length_vscale n c v : length (vscale n c v) = n.
Proof. apply vtab_length. Qed.
Lemma length_vscaled_add n y c x : length (vscaled_add n y c x) = n.
Proof. apply vtab_length. Qed.
Lemma length_vzero n : length (vzero n) = n.
Proof. apply repeat_length. Qed.

Lemma vec_ext (a b : list T) n : length a = n -> length b = n ->
  (forall i, i < n -> vget a i = vget b i) -> a = b.
Proof.
  intros La Lb E. apply (nth_ext _ _ szero szero); [congruence|]. intros i Hi. apply E. lia.
Qed.
End Vec.

Section Rows.
Variable prob : problem R.
Notation n := (model_size prob).
Open Scope R_scope.

Lemma vget_rowsum ph k i : (i < n)%nat -> vget (rowsum prob ph k) i = rsum k (fun j => vget (row ph j) i).
Proof.
  intros Hi. induction k as [|k IH]; cbn [rowsum rsum].
  - exact (@vget_vzero R ScalarR n i).
  - rewrite vget_vadd by exact Hi. rewrite IH. reflexivity.
Qed.

Lemma vget_rowcomb c ph lo k i : (i < n)%nat ->
  vget (rowcomb prob c ph lo k) i = rsum k (fun j => vget c j * vget (row ph (lo + j)) i).
Proof.
  intros Hi. induction k as [|k IH]; cbn [rowcomb rsum].
  - exact (@vget_vzero R ScalarR n i).
  - rewrite vget_vscaled_add by exact Hi. rewrite IH. reflexivity.
Qed.

Lemma vget_rowcomb1 c ph k i : (i < n)%nat ->
  vget (rowcomb1 prob c ph k) i = rsum k (fun j => vget c (S j) * vget (row ph (S j)) i).
Proof.
  intros Hi. induction k as [|k IH]; cbn [rowcomb1 rsum].
  - exact (@vget_vzero R ScalarR n i).
  - rewrite vget_vscaled_add by exact Hi. rewrite IH. reflexivity.
Qed.

Lemma vget_tailsum e ph cnt i : (i < n)%nat -> forall j,
  vget (tailsum prob e ph j cnt) i = vget e i + rsum cnt (fun l => vget (row ph (j + l)) i).
Proof.
  intros Hi. induction cnt as [|cnt IH]; intros j; cbn [tailsum].
  - cbn. lra.
  - rewrite vget_vadd by exact Hi. rewrite IH.
    change (vget e i + rsum cnt (fun l => vget (row ph (S j + l)) i) + vget (row ph j) i =
            vget e i + rsum (S cnt) (fun l => vget (row ph (j + l)) i)).
    rewrite rsum_first. replace (j + 0)%nat with j by lia.
    rewrite (rsum_ext cnt (fun l => vget (row ph (S j + l)) i) (fun l => vget (row ph (j + S l)) i)).
    + lra.
    + intros l _. do 2 f_equal. lia.
Qed.

(** Both ways of summing the corrected solution give the same vector. *)
Lemma tailsum_rowsum e ph k : tailsum prob e ph 0 (k + 1) = vadd n (rowsum prob ph (k + 1)) e.
Proof.
  apply (vec_ext _ _ n).
  - replace (k + 1)%nat with (S k) by lia. apply length_vadd.
  - apply length_vadd.
  - intros i Hi. rewrite vget_tailsum, vget_vadd, vget_rowsum by exact Hi. cbn [plus].
    apply Rplus_comm.
Qed.
End Rows.
