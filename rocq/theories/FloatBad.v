(** * FloatBad: a norm with an infinite weight is infinite or not a number
      (binary64, from the specification of the primitive operations in
      Coq.Floats.FloatAxioms) *)
Require Import List Arith Bool Lia ZArith Floats.
Import ListNotations.
Require Import Verif.Base Verif.Scalar Verif.ScalarF Verif.Norms Verif.BaseFacts.
Open Scope nat_scope.

(** Sign bit clear, or not a number. *)
Definition unsigned (s : spec_float) : Prop :=
  match s with
  | S754_zero b | S754_infinity b | S754_finite b _ _ => b = false
  | S754_nan => True
  end.

Definition bad (x : float) : Prop := x = infinity \/ x = nan.

Lemma of_sf x y : Prim2SF x = Prim2SF y -> x = y.
Proof. intros E. rewrite <- (SF2Prim_Prim2SF x), E. apply SF2Prim_Prim2SF. Qed.

Lemma round_aux_unsigned p e m x l : unsigned (binary_round_aux p e false m x l).
Proof.
  unfold binary_round_aux. destruct (shr_fexp p e m x l) as (a & b).
  destruct (shr_fexp p e _ b loc_Exact) as (c & d).
  destruct (shr_m c); try exact I; [reflexivity|]. destruct (Z.leb _ _); reflexivity.
Qed.

Lemma round_unsigned p e m x : unsigned (binary_round p e false m x).
Proof. unfold binary_round. destruct (shl_align m x _). apply round_aux_unsigned. Qed.

Lemma square_unsigned x : unsigned (Prim2SF (x * x)%float).
Proof.
  rewrite mul_spec. unfold SF64mul. destruct (Prim2SF x) as [s|s| |s m e]; cbn -[binary_round_aux];
    rewrite ?xorb_nilpotent; try reflexivity. apply round_aux_unsigned.
Qed.

Lemma add_unsigned x y : unsigned (Prim2SF x) -> unsigned (Prim2SF y) -> unsigned (Prim2SF (x + y)%float).
Proof.
  rewrite add_spec. unfold SF64add.
  destruct (Prim2SF x) as [s|s| |s m e]; destruct (Prim2SF y) as [s'|s'| |s' m' e'];
    cbn -[binary_round Z.add shl_align Z.min]; intros; subst; cbn -[binary_round Z.add shl_align Z.min]; try reflexivity; try exact I.
  apply round_unsigned.
Qed.

Lemma ofnat_unsigned n : unsigned (Prim2SF (fofnat n)).
Proof. induction n as [|n IH]; [reflexivity|]. cbn [fofnat]. apply add_unsigned; [exact IH|reflexivity]. Qed.

Lemma bad_add x y : bad x -> unsigned (Prim2SF y) -> bad (x + y)%float.
Proof.
  intros B U. unfold bad.
  assert (E : (x + y = infinity \/ x + y = nan)%float); [|exact E].
  destruct B as [-> | ->].
  - assert (E : Prim2SF (infinity + y) = Prim2SF infinity \/ Prim2SF (infinity + y) = Prim2SF nan).
    { rewrite add_spec. unfold SF64add. change (Prim2SF infinity) with (S754_infinity false).
      change (Prim2SF nan) with S754_nan.
      destruct (Prim2SF y) as [s|s| |s m e]; cbn in *; subst; auto. }
    destruct E as [E|E]; apply of_sf in E; auto.
  - right. apply of_sf. rewrite add_spec. unfold SF64add. reflexivity.
Qed.

Lemma add_bad x y : bad y -> unsigned (Prim2SF x) -> bad (x + y)%float.
Proof.
  intros B U. unfold bad.
  assert (E : Prim2SF (x + y) = Prim2SF infinity \/ Prim2SF (x + y) = Prim2SF nan).
  { rewrite add_spec. unfold SF64add. 
    destruct B as [-> | ->]; [change (Prim2SF infinity) with (S754_infinity false)|];
      change (Prim2SF nan) with S754_nan; destruct (Prim2SF x) as [s|s| |s m e]; cbn in *; subst; auto. }
  destruct E as [E|E]; apply of_sf in E; auto.
Qed.

Lemma bad_square x : bad ((x * infinity) * (x * infinity))%float.
Proof.
  assert (E : (x * infinity = infinity \/ x * infinity = neg_infinity \/ x * infinity = nan)%float).
  { assert (E : Prim2SF (x * infinity) = Prim2SF infinity \/ Prim2SF (x * infinity) = Prim2SF neg_infinity \/
                Prim2SF (x * infinity) = Prim2SF nan).
    { rewrite mul_spec. unfold SF64mul. change (Prim2SF infinity) with (S754_infinity false).
      change (Prim2SF neg_infinity) with (S754_infinity true). change (Prim2SF nan) with S754_nan.
      destruct (Prim2SF x) as [[]|[]| |[] m e]; cbn; auto. }
    destruct E as [E|[E|E]]; apply of_sf in E; auto. }
  destruct E as [-> | [-> | ->]]; unfold bad; [left|left|right]; reflexivity.
Qed.

Lemma bad_div x y : bad x -> unsigned (Prim2SF y) -> bad (x / y)%float.
Proof.
  intros B U. unfold bad.
  assert (E : Prim2SF (x / y) = Prim2SF infinity \/ Prim2SF (x / y) = Prim2SF nan).
  { rewrite div_spec. unfold SF64div. 
    destruct B as [-> | ->]; [change (Prim2SF infinity) with (S754_infinity false)|];
      change (Prim2SF nan) with S754_nan; destruct (Prim2SF y) as [s|s| |s m e]; cbn in *; subst; auto. }
  destruct E as [E|E]; apply of_sf in E; auto.
Qed.

Lemma bad_sqrt x : bad x -> bad (sqrt x).
Proof. intros [-> | ->]; unfold bad; [left|right]; reflexivity. Qed.

Lemma sum_bad (l : list float) : Forall (fun v => unsigned (Prim2SF v)) l -> forall acc,
  (bad acc \/ unsigned (Prim2SF acc) /\ Exists bad l) -> bad (fold_left PrimFloat.add l acc).
Proof.
  induction 1 as [|v l Hv Hl IH]; intros acc Ha; cbn [fold_left].
  - destruct Ha as [Ha|(_ & Ha)]; [exact Ha|inversion Ha].
  - apply IH. destruct Ha as [Ha|(Ua & Ha)]; [left; apply bad_add; assumption|].
    inversion Ha as [v' l' Hb|v' l' Hb]; subst.
    + left. apply add_bad; assumption.
    + right. split; [apply add_unsigned; assumption|exact Hb].
Qed.

Lemma norm_bad (x w : list float) i : i < length x -> nth i w 0%float = infinity -> bad (norm_wrms x w).
Proof.
  intros Hi Hw. unfold norm_wrms. apply bad_sqrt, bad_div; [|apply ofnat_unsigned].
  apply sum_bad.
  - apply Forall_map, Forall_forall. intros j _. apply square_unsigned.
  - right. split; [reflexivity|]. apply Exists_exists. eexists. split.
    + apply in_map_iff. exists i. split; [reflexivity|]. apply in_seq. lia.
    + unfold vget. change (@szero float _) with 0%float. rewrite Hw. apply bad_square.
Qed.
