(** * IdaSpec: vocabulary for statements about the life of an integrator object

    The ghost trace of a state lists everything that happened to the object so
    far, latest event first (see [event] in IdaState.v).  Nothing in this file
    refers to the model's functions. *)
Require Import List Arith Bool.
Import ListNotations.
Require Import Verif.IdaState.

Definition is_res {T} (e : event T) : bool := match e with CRes _ _ _ => true | _ => false end.
Definition is_jac {T} (e : event T) : bool := match e with CJac _ _ _ _ => true | _ => false end.
Definition is_root {T} (e : event T) : bool := match e with CRoot _ _ _ => true | _ => false end.
Definition is_warn {T} (e : event T) : bool := match e with CWarn => true | _ => false end.
Definition is_fail {T} (e : event T) : bool := match e with CFail => true | _ => false end.
Definition is_begin {T} (e : event T) : bool := match e with CBegin _ _ => true | _ => false end.
Definition is_step {T} (e : event T) : bool := match e with CStep _ _ => true | _ => false end.
Definition is_try {T} (e : event T) : bool := match e with CTry _ _ _ => true | _ => false end.

Section Traces.
Context {T : Type}.
Notation ev := (event T).

(** [P e past] for every event [e] of the trace, [past] being what happened
    before it. *)
Definition every (P : ev -> list ev -> Prop) (tr : list ev) : Prop :=
  forall new e past, tr = new ++ e :: past -> P e past.

(** Time, step size and order of the latest attempt. *)
Fixpoint last_try (tr : list ev) : option (T * T * nat) :=
  match tr with
  | [] => None
  | CTry t h k :: _ => Some (t, h, k)
  | _ :: past => last_try past
  end.

(** Number of failed error tests in the current internal step. *)
Fixpoint fails_now (tr : list ev) : nat :=
  match tr with
  | [] => 0
  | CBegin _ _ :: _ => 0
  | CFail :: past => S (fails_now past)
  | _ :: past => fails_now past
  end.

(** An accepted step: time reached, solution, step size and order. *)
Record astep : Type := mkastep { a_t : T; a_y : list T; a_h : T; a_k : nat }.

(** The accepted steps, latest first. *)
Fixpoint steps (tr : list ev) : list astep :=
  match tr with
  | [] => []
  | CStep t y :: past =>
      match last_try past with
      | Some (_, h, k) => mkastep t y h k :: steps past
      | None => steps past
      end
  | _ :: past => steps past
  end.

(** Number of attempts since the latest accepted step. *)
Fixpoint tries_since (tr : list ev) : nat :=
  match tr with
  | [] => 0
  | CStep _ _ :: _ => 0
  | CTry _ _ _ :: past => S (tries_since past)
  | _ :: past => tries_since past
  end.

Lemma every_nil (P : ev -> list ev -> Prop) : every P [].
Proof. intros [|? ?] ? ? E; discriminate. Qed.

Lemma every_cons (P : ev -> list ev -> Prop) e past : P e past -> every P past -> every P (e :: past).
Proof.
  intros He Hp [|e0 new] e1 past1 E; cbn in E; injection E as -> ->; [exact He|].
  eapply Hp. reflexivity.
Qed.

Lemma every_app (P : ev -> list ev -> Prop) (evs past : list ev) :
  (forall e q, In e evs -> P e q) -> every P past -> every P (evs ++ past).
Proof.
  intros He Hp. induction evs as [|e evs IH]; [exact Hp|]. cbn. apply every_cons.
  - apply He. left. reflexivity.
  - apply IH. intros e' q Hi. apply He. right. exact Hi.
Qed.

Lemma every_past (P : ev -> list ev -> Prop) (evs past : list ev) : every P (evs ++ past) -> every P past.
Proof. intros Hp new e q ->. apply (Hp (evs ++ new)). rewrite <- app_assoc. reflexivity. Qed.

Lemma every_impl (P Q : ev -> list ev -> Prop) tr :
  (forall e past, P e past -> Q e past) -> every P tr -> every Q tr.
Proof. intros HPQ HP new e past E. eauto. Qed.

Lemma existsb_split (f : ev -> bool) tr : existsb f tr = true ->
  exists new e past, tr = new ++ e :: past /\ f e = true.
Proof.
  intros E. apply existsb_exists in E as (e & Hi & He). apply in_split in Hi as (new & past & ->).
  exists new, e, past. auto.
Qed.

End Traces.
Arguments astep : clear implicits.
