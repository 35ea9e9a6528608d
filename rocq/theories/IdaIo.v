(** * IdaIo: model of src/ida_io.rs, the read-only public methods *)
Require Import List Arith.
Require Import Verif.Base Verif.Scalar Verif.Newton Verif.IdaState.

Section IdaIo.
Context {T LSt NSt : Type} `{Scalar T} `{LSolver T LSt} `{NLSolver T NSt}.
Notation state := (ida T LSt NSt).

(** src/ida_io.rs 11-18. *)
Definition get_yy (st : state) : list T := yy (nlp st).
Definition get_yp (st : state) : list T := yp (nlp st).
(** src/ida_io.rs 21-28. *)
Definition get_last_order (st : state) : nat := kused st.
Definition get_current_order (st : state) : nat := kk st.
(** src/ida_io.rs 31-33, 37-39, 42-44. *)
Definition get_actual_init_step (st : state) : T := h0u st.
Definition get_last_step (st : state) : T := hused st.
Definition get_current_setp (st : state) : T := hh st.
(** src/ida_io.rs 47-49, 53-55. *)
Definition get_current_time (st : state) : T := tn (nlp st).
Definition get_tol_scale_factor (st : state) : T := tolsf st.
(** src/ida_io.rs 58-60, 64-66, 70-72, 75-77, 80-82. *)
Definition get_num_steps (st : state) : nat := nst st.
Definition get_num_res_evals (st : state) : nat := nre (nlp st).
Definition get_num_lin_solv_setups (st : state) : nat := nsetups (nlp st).
Definition get_num_err_test_fails (st : state) : nat := netf st.
Definition get_num_jac_evals (st : state) : nat := nje (lp (nlp st)).
(** src/ida_io.rs 84-88. *)
Definition get_num_nonlin_solv_iters (st : state) : nat := nni st + nls_num_iters (nls st).
(** src/ida_io.rs 97-100: the literal 0. *)
Definition get_num_lin_iters (st : state) : nat := 0.
(** src/ida_io.rs 103-105, 108-110, 115-117.  [get_num_lin_res_evals] (92-94)
    reads a field that nothing writes; dropped. *)
Definition get_num_nonlin_solv_conv_fails (st : state) : nat := ncfn st.
Definition get_num_g_evals (st : state) : nat := nge st.
Definition get_root_info (st : state) : list T := iroots st.

End IdaIo.
