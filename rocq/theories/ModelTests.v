(** * ModelTests: /repo's unit tests replayed against the model

    Every number below is copied from the Rust test it cites; the model is run
    on the binary64 instance by [vm_compute].  These are tests of the model's
    fidelity, not theorems about it.  Comparisons use a relative tolerance of
    1e-9 (the Rust tests use exact equality or a looser tolerance), because
    [powf] is approximated. *)
Require Import List Arith Bool Floats.
Import ListNotations.
Require Import Verif.Base Verif.Scalar Verif.ScalarF Verif.Dense Verif.Norms
  Verif.Newton Verif.IdaState Verif.IdaNls Verif.IdaCore Verif.IdaRoots
  Verif.IdaSolve Verif.Samples.
Open Scope float_scope.
Set Warnings "-inexact-float".

Definition near1 (a b : float) : bool :=
  (a =? b) || (PrimFloat.abs (a - b) <=? 1e-9 * PrimFloat.abs b).
Definition near (a b : list float) : bool :=
  (length a =? length b)%nat && forallb (fun p => near1 (fst p) (snd p)) (combine a b).
Definition near2 (a b : list (list float)) : bool :=
  (length a =? length b)%nat && forallb (fun p => near (fst p) (snd p)) (combine a b).
Definition nats_eqb (a b : list nat) : bool :=
  (length a =? length b)%nat && forallb (fun p => fst p =? snd p)%nat (combine a b).

Definition mat_of (rows : list (list float)) (m n : nat) : mat float :=
  mkmat m n (fun i j => nth j (nth i rows []) 0).
Definition rows_of (a : mat float) : list (list float) :=
  vtab (nrows a) (fun i => vtab (ncols a) (elem a i)).
Definition transpose (a : mat float) : mat float :=
  mkmat (ncols a) (nrows a) (fun i j => elem a j i).

(** crates/linear/src/dense.rs 217-241 [test_get_rs1]. *)
Example replay_get_rs1 :
  match dense_get_rs
          (transpose (mat_of [[1.0; 0.040000000000000001; -0.040655973218655501];
                              [1.0; -9562.0329139608493; -0.99881984364015208];
                              [1.0; -0.041880782326080723; 0.00070539909027303449]] 3 3))
          [2; 1; 2]%nat
          [-0.00000018658722011386564; 0.0000001791760359416981; 0.000000000000015432100042289676] with
  | Ret b => near b [0.000010806109402745275; 0.000000000028591564117644602; -0.000010806137978877292]
  | _ => false
  end = true.
Proof. vm_compute. reflexivity. Qed.

(** crates/linear/src/dense.rs [test_get_rs2]. *)
Example replay_get_rs2 :
  match dense_get_rs
          (transpose (mat_of [[1.0; 0.040000000000000001; -0.041180751793579905];
                              [1.0; -9376.8756693193609; -0.99825358822328103];
                              [1.0; -0.04272931434962135; 0.0012553747713712066]] 3 3))
          [2; 1; 2]%nat
          [-0.00000092446647014019954; 0.0000009098297931611867; 0.000000000000010769163338864018] with
  | Ret b => near b [0.000012924954909363613; -0.000000000038131780122501411; -0.000012924916766814327]
  | _ => false
  end = true.
Proof. vm_compute. reflexivity. Qed.

(** crates/linear/src/dense.rs [test_get_rf1]. *)
Example replay_get_rf1 :
  match dense_get_rf
          (transpose (mat_of [[-0.09593473862037126; 0.040000000000000001; 1.0];
                              [5274.5976183265557; -5485.2758397300222; 1.0];
                              [0.035103714444140913; -0.035103714444140913; 1.0]] 3 3))
          [0; 0; 0]%nat with
  | Ret (a, p, Ok _) =>
      near2 (rows_of (transpose a))
            [[1.0; 0.040000000000000001; -0.09593473862037126];
             [1.0; -5485.3158397300222; -0.96160252338811314];
             [1.0; -0.075103714444140907; 0.058818531739205995]]
      && nats_eqb p [2; 1; 2]%nat
  | _ => false
  end = true.
Proof. vm_compute. reflexivity. Qed.

(** crates/linear/src/dense.rs [test_get_rf2]. *)
Example replay_get_rf2 :
  match dense_get_rf
          (transpose (mat_of [[-0.042361503587159809; 0.040000000000000001; 1.0];
                              [9313.8399601148321; -9331.507477848012; 1.0];
                              [0.0029441927049318833; -0.0029441927049318833; 1.0]] 3 3))
          [0; 0; 0]%nat with
  | Ret (a, p, Ok _) =>
      near2 (rows_of (transpose a))
            [[1.0; 0.040000000000000001; -0.042361503587159809];
             [1.0; -9331.5474778480129; -0.99810694246891751];
             [1.0; -0.042944192704931883; 0.0024427994145761397]]
      && nats_eqb p [2; 1; 2]%nat
  | _ => false
  end = true.
Proof. vm_compute. reflexivity. Qed.

(** crates/linear/src/dense.rs [test_dense1]. *)
Example replay_dense1 :
  match (let* (piv, a, r) :=
           dense_setup (dense_new 4)
             (mat_of [[5; 0; 0; 1]; [2; 2; 2; 1]; [4; 5; 5; 5]; [1; 6; 4; 5]] 4 4) in
         let* x := dense_solve piv a [9; 16; 49; 45] 0 in Ret (r, x)) with
  | Ret (Ok _, x) => near x [1; 2; 3; 4]
  | _ => false
  end = true.
Proof. vm_compute. reflexivity. Qed.

(** The [TestProblem] of crates/nonlinear/src/newton.rs: state is the matrix
    and the pivots of the dense solver. *)
Definition np_test : nlproblem float (mat float * list nat) := {|
  np_sys := fun s v =>
    let '(x, y, z) := (nth 0 v 0, nth 1 v 0, nth 2 v 0) in
    Ret (s, [x * x + y * y + z * z - 1; 2 * (x * x) + y * y - 4 * z; 3 * (x * x) - 4 * y + z * z], Ok tt);
  np_setup := fun s v _ _ =>
    let '(x, y, z) := (nth 0 v 0, nth 1 v 0, nth 2 v 0) in
    let* (piv, a, r) :=
      dense_setup (snd s) (mat_of [[2 * x; 2 * y; 2 * z]; [4 * x; 2 * y; -4]; [6 * x; -4; 2 * z]] 3 3) in
    match r with
    | Ok _ => Ret ((a, piv), Ok true)
    | Err c => Ret ((a, piv), Err (LinearSetupFailed c))
    end;
  np_solve := fun s _ b => let* x := dense_solve (snd s) (fst s) b 0 in Ret (s, x, Ok tt);
  np_ctest := fun s _ _ del tol w => Ret (s, Ok (norm_wrms_na del w <=? tol))
|}.

(** crates/nonlinear/src/newton.rs [test_newton] (tolerance 1e-5 there). *)
Example replay_newton :
  match newton_solve np_test 3 20 (newton_new 3 10) (mat_of [] 3 3, dense_new 3)
          [0.5; 0.5; 0.5] [0; 0; 0] [1; 1; 1] 1e-2 true with
  | Ret (_, _, y, Ok _) =>
      forallb (fun p => PrimFloat.abs (fst p - snd p) <=? 1e-5 * PrimFloat.abs (snd p))
        (combine (vsub 3 y [0.785196933062355226; 0.496611392944656396; 0.369922830745872357])
                 [-0.00578453; 1.0143e-08; 1.47767e-08])
  | _ => false
  end = true.
Proof. vm_compute. reflexivity. Qed.

(** src/norm_rms.rs and crates/nonlinear/src/norm_wrms.rs tests. *)
Example replay_norm_wrms :
  (norm_wrms (repeat (-0.5) 32) (repeat 0.5 32) =? 0.25)
  && (norm_wrms_na (repeat (-0.5) 32) (repeat 0.5 32) =? 0.25)
  && near1 (norm_wrms_masked (repeat (-0.5) 32) (repeat 0.5 32) (upd (repeat true 32) 31 false))
           (PrimFloat.sqrt (31 / 32) * 0.5 * 0.5) = true.
Proof. vm_compute. reflexivity. Qed.

(** src/tests/mod.rs 18-63: the [Dummy] problem. *)
Definition dummy : problem float := {|
  model_size := 3; num_roots := 0;
  p_res := fun _ _ _ _ => 0; p_jac := fun _ _ _ _ _ _ _ => 0; p_root := fun _ _ _ _ => 0 |}.

#[local] Existing Instance DenseLS.
#[local] Instance newtonF : NLSolver float (newton float) := NewtonNLS 20.

Definition dummy_state : ida float (list nat) (newton float) :=
  match ida_new dummy [0; 0; 0] [0; 0; 0] with
  | Ret s => s
  | _ => ltac:(let v := eval vm_compute in (ida_new dummy [0; 0; 0] [0; 0; 0] : outcome (ida float (list nat) (newton float))) in
               match v with Ret ?s => exact s end)
  end.

(** src/tests/get_solution.rs 4, [test_get_solution]. *)
Example replay_get_solution_test_get_solution :
  (let s := dummy_state in
    let s := set_hh (857870592.1885694) s in
    let s := on_nlp (set_tn (3623118336.24244)) s in
    let s := set_kused 4%nat s in
    let s := set_hused (428935296.0942847) s in
    let s := set_phi ([[5.716499633245077e-07; 2.286601144610028e-12; 0.9999994283477499]; [-7.779233860067279e-08; -3.111697299545603e-13; 7.779264957586927e-08]; [2.339417551980491e-08; 9.35768837422748e-14; -2.33942692332846e-08]; [-9.503346432581604e-09; -3.801349575270522e-14; 9.503383895634436e-09]; [7.768373161310588e-09; 3.107357755532867e-14; -7.768407422476745e-09]; [-2.242367216194777e-10; -8.970915966733762e-16; 2.242247401239887e-10]]) s in
    let s := set_psi ([428935296.0942847; 857870592.1885694; 1072338240.235712; 1286805888.282854; 1501273536.329997; 26020582.4876316]) s in
   match get_solution dummy s (3623118336.24244) with
   | Ret (s, Ok _) =>
       near (yy (nlp s)) ([5.716499633245077e-07; 2.286601144610028e-12; 0.9999994283477499])
       && near (yp (nlp s)) ([-1.569167478317552e-16; -6.276676917262037e-22; 1.569173718962504e-16])
   | _ => false
   end) = true.
Proof. vm_compute. reflexivity. Qed.

(** src/tests/predict.rs 4, [test1]. *)
Example replay_predict_test1 :
  (let s := dummy_state in
    let s := set_kk 2%nat s in
    let s := set_phi ([[1.0570152037228958e-07; 4.2280612558303261e-13; 9.9999989429805680e-01]; [-3.3082196412696304e-08; -1.3232881828710420e-13; 3.3082328676061534e-08]; [1.8675273859330434e-08; 7.4701128706323864e-14; -1.8675348801050254e-08]; [-1.9956501813542136e-08; -7.9826057803058290e-14; 1.9956580862443821e-08]; [1.2851942479612096e-09; 5.1407743965993651e-15; -1.2851948368212051e-09]; [-2.2423672161947766e-10; -8.9709159667337618e-16; 2.2422474012398869e-10]]) s in
    let s := set_gamma ([0.0000000000000000e+00; 2.6496925453439462e-10; 3.8862188959925182e-10; 8.0997073172076138e-10; 3.0437121109953610e-09; 3.1823098347208659e-07]) s in
    let s := on_nlp (set_yypredict ([1.2565802218583172e-07; 5.0263218338609083e-13; 9.9999987434147597e-01])) s in
    let s := on_nlp (set_yppredict ([1.5848602690328082e-18; 6.3394566628399208e-24; -1.5848663595269871e-18])) s in
   match predict dummy s with
   | Ret s =>
       ((kk s) =? 2)%nat
       && near2 (phi s) ([[1.0570152037228958e-07; 4.2280612558303261e-13; 9.9999989429805680e-01]; [-3.3082196412696304e-08; -1.3232881828710420e-13; 3.3082328676061534e-08]; [1.8675273859330434e-08; 7.4701128706323864e-14; -1.8675348801050254e-08]; [-1.9956501813542136e-08; -7.9826057803058290e-14; 1.9956580862443821e-08]; [1.2851942479612096e-09; 5.1407743965993651e-15; -1.2851948368212051e-09]; [-2.2423672161947766e-10; -8.9709159667337618e-16; 2.2422474012398869e-10]])
       && near (yypredict (nlp s)) ([9.1294597818923714e-08; 3.6517843600225230e-13; 9.9999990870503663e-01])
       && near (yppredict (nlp s)) ([-1.5081447058360581e-18; -6.0325745419028739e-24; 1.5081506275685795e-18])
   | _ => false
   end) = true.
Proof. vm_compute. reflexivity. Qed.

(** src/tests/restore.rs 4, [test_restore1]. *)
Example replay_restore_test_restore1 :
  (let s := dummy_state in
    let s := on_nlp (set_tn (1.9051606517223076e-03)) s in
    let s := set_ns 1%nat s in
    let s := set_kk 2%nat s in
    let s := set_hh (6.9278569153538464e-04) s in
    let s := set_phi ([[9.9995150785077214e-01; 3.2239271870584518e-05; 1.6252877357362511e-05]; [-2.7707635503825098e-05; 9.7313256739903617e-06; 1.7976309829765466e-05]; [3.4935651154088256e-09; -1.0880124117276491e-05; 1.0876630551341415e-05]; [5.6694097544747856e-10; 2.1378758881496850e-08; -2.1945701078189652e-08]; [-1.3875550771817554e-10; 1.3559268269012917e-06; -1.3557880688400603e-06]; [-1.1465196356066767e-10; 2.0021935974335382e-07; -2.0010470777979317e-07]]) s in
    let s := set_psi ([6.9278569153538464e-04; 1.0391785373030770e-03; 1.3855713830707693e-03; 7.7938390297730776e-04; 3.4639284576769232e-04; 0.0000000000000000e+00]) s in
    let s := set_cvals ([1.0000000000000000e+00; 1.0000000000000000e+00; 1.0000000000000000e+00; 0.0000000000000000e+00; 0.0000000000000000e+00; 0.0000000000000000e+00]) s in
    let s := set_beta ([1.0000000000000000e+00; 2.0000000000000000e+00; 3.0000000000000000e+00; 4.8000000000000007e+00; 1.5000000000000000e+01; 0.0000000000000000e+00]) s in
   match restore dummy s (1.2123749601869230e-03) with
   | Ret s =>
       near1 (tn (nlp s)) (1.2123749601869230e-03)
       && ((ns s) =? 1)%nat
       && ((kk s) =? 2)%nat
       && near (cvals s) ([5.0000000000000000e-01; 3.3333333333333331e-01; 1.0000000000000000e+00; 0.0000000000000000e+00; 0.0000000000000000e+00; 0.0000000000000000e+00])
       && near (beta s) ([1.0000000000000000e+00; 2.0000000000000000e+00; 3.0000000000000000e+00; 4.8000000000000007e+00; 1.5000000000000000e+01; 0.0000000000000000e+00])
       && near (psi s) ([3.4639284576769237e-04; 6.9278569153538464e-04; 1.3855713830707693e-03; 7.7938390297730776e-04; 3.4639284576769232e-04; 0.0000000000000000e+00])
       && near2 (phi s) ([[9.9995150785077214e-01; 3.2239271870584518e-05; 1.6252877357362511e-05]; [-1.3853817751912549e-05; 4.8656628369951808e-06; 8.9881549148827332e-06]; [1.1645217051362752e-09; -3.6267080390921635e-06; 3.6255435171138049e-06]; [5.6694097544747856e-10; 2.1378758881496850e-08; -2.1945701078189652e-08]; [-1.3875550771817554e-10; 1.3559268269012917e-06; -1.3557880688400603e-06]; [-1.1465196356066767e-10; 2.0021935974335382e-07; -2.0010470777979317e-07]])
   | _ => false
   end) = true.
Proof. vm_compute. reflexivity. Qed.

(** src/tests/test_error.rs 4, [test1]. *)
Example replay_test_error_test1 :
  (let s := dummy_state in
    let s := set_kk 5%nat s in
    let s := set_suppressalg false s in
    let s := set_phi ([[3.634565317158998e-05; 1.453878335134203e-10; 0.9999636542014404]; [-6.530333550677049e-06; -2.612329458968465e-11; 6.530359673556191e-06]; [1.946442728026142e-06; 7.786687275994346e-12; -1.946450515496441e-06]; [-8.097632208221231e-07; -3.239585549038764e-12; 8.097664556005615e-07]; [3.718130977075839e-07; 1.487573462300438e-12; -3.71814615793545e-07]; [-3.24421895454213e-07; -1.297915245220823e-12; 3.244230624265827e-07]]) s in
    let s := set_ee ([2.65787533317467e-07; 1.063275845801634e-12; -2.657884288386138e-07]) s in
    let s := on_nlp (set_ewt ([73343005.56993243; 999999.985461217; 9901.346408259429])) s in
    let s := set_sigma ([1.0; 0.6666666666666666; 0.6666666666666666; 0.888888888888889; 1.422222222222222; 2.585858585858586]) s in
   match test_error dummy s (1.091414141414142) with
   | Ret (s, err_k, err_km1, Err (EIda TestFail)) =>
       ((knew s) =? 4)%nat
       && near1 err_k (29.10297975314245)
       && near1 err_km1 (3.531162835377502)
   | _ => false
   end) = true.
Proof. vm_compute. reflexivity. Qed.

(** src/tests/test_error.rs 60, [test2]. *)
Example replay_test_error_test2 :
  (let s := dummy_state in
    let s := set_kk 4%nat s in
    let s := set_suppressalg false s in
    let s := set_phi ([[3.051237735052657e-05; 1.220531905117091e-10; 0.9999694875005963]; [-2.513114849098281e-06; -1.005308974226734e-11; 2.513124902721765e-06]; [4.500284453718991e-07; 1.800291970640913e-12; -4.500302448499092e-07]; [-1.366709389821433e-07; -5.467603693902342e-13; 1.366714866794709e-07]; [7.278821769100639e-08; 2.911981566628798e-13; -7.278850816613011e-08]; [-8.304741244343501e-09; -3.324587131187576e-14; 8.304772990651073e-09]]) s in
    let s := set_ee ([-2.981302228744271e-08; -1.192712676406388e-13; 2.981313872620108e-08]) s in
    let s := on_nlp (set_ewt ([76621085.31777237; 999999.9877946811; 9901.289220872719])) s in
    let s := set_sigma ([1.0; 0.5; 0.3214285714285715; 0.2396514200444849; 0.1941955227762807; 2.585858585858586]) s in
   match test_error dummy s (0.2025812352167927) with
   | Ret (s, err_k, err_km1, Ok _) =>
       ((knew s) =? 4)%nat
       && near1 err_k (0.2561137489433976)
       && near1 err_km1 (0.455601916633899)
   | _ => false
   end) = true.
Proof. vm_compute. reflexivity. Qed.

(** src/tests/set_coeffs.rs 4, [test1]. *)
Example replay_set_coeffs_test1 :
  (let s := dummy_state in
    let s := set_hh (6.6874844417638421e+08) s in
    let s := set_hused (6.6874844417638421e+08) s in
    let s := set_ns 1%nat s in
    let s := set_kused 2%nat s in
    let s := set_kk 2%nat s in
    let s := set_beta ([1.0000000000000000e+00; 9.0000000000000002e-01; 1.0841585634594841e+00; 3.5332089881864119e+00; 7.1999999999999993e+00; 1.0285714285714285e+01]) s in
    let s := set_alpha ([1.0000000000000000e+00; 4.7368421052631576e-01; 3.6330461012857090e-01; 4.0930763129879277e-01; 3.9999999999999997e-01; 3.6363636363636365e-01]) s in
    let s := set_gamma ([0.0000000000000000e+00; 1.4953305816383288e-09; 2.2036450676775371e-09; 2.8236868704168917e-09; 3.0437121109953610e-09; 3.1823098347208659e-07]) s in
    let s := set_sigma ([1.0000000000000000e+00; 4.7368421052631576e-01; 3.4418331485864612e-01; 7.2268199139687761e-01; 1.4222222222222223e+00; 2.5858585858585861e+00]) s in
    let s := set_phi ([[4.1295003522440181e-07; 1.6518008147114031e-12; 9.9999958704831304e-01]; [-6.4049734044789205e-08; -2.5619916159829551e-13; 6.4049990326726996e-08]; [2.1135440604995772e-08; 8.4541889872000439e-14; -2.1135525197726480e-08]; [-2.2351400807868742e-08; -8.9405756031743853e-14; 2.2351489636470618e-08]; [1.8323105973439385e-08; 7.3292641194159994e-14; -1.8323176512520801e-08]; [-2.2423672161947766e-10; -8.9709159667337618e-16; 2.2422474012398869e-10]]) s in
    let s := set_psi ([6.6874844417638421e+08; 1.4118022710390334e+09; 1.8407375671333179e+09; 1.8153920670983608e+09; 2.1446764804714236e+09; 2.6020582487631597e+07]) s in
    let s := set_cjlast (2.4672954597032423e-09) s in
    let s := on_lp (set_cj (2.2429958724574930e-09)) s in
   match set_coeffs dummy s with
   | Ret (s, ck) =>
       near1 (hh s) (6.6874844417638421e+08)
       && near1 (hused s) (6.6874844417638421e+08)
       && ((ns s) =? 2)%nat
       && ((kused s) =? 2)%nat
       && ((kk s) =? 2)%nat
       && near (beta s) ([1.0000000000000000e+00; 1.0000000000000000e+00; 9.4736842105263153e-01; 3.5332089881864119e+00; 7.1999999999999993e+00; 1.0285714285714285e+01])
       && near (alpha s) ([1.0000000000000000e+00; 5.0000000000000000e-01; 3.2142857142857140e-01; 4.0930763129879277e-01; 3.9999999999999997e-01; 3.6363636363636365e-01])
       && near (gamma s) ([0.0000000000000000e+00; 1.4953305816383288e-09; 2.2429958724574930e-09; 2.8236868704168917e-09; 3.0437121109953610e-09; 3.1823098347208659e-07])
       && near (sigma s) ([1.0000000000000000e+00; 5.0000000000000000e-01; 3.2142857142857140e-01; 7.2268199139687761e-01; 1.4222222222222223e+00; 2.5858585858585861e+00])
       && near2 (phi s) ([[4.1295003522440181e-07; 1.6518008147114031e-12; 9.9999958704831304e-01]; [-6.4049734044789205e-08; -2.5619916159829551e-13; 6.4049990326726996e-08]; [2.0023048994206519e-08; 8.0092316720842518e-14; -2.0023129134688242e-08]; [-2.2351400807868742e-08; -8.9405756031743853e-14; 2.2351489636470618e-08]; [1.8323105973439385e-08; 7.3292641194159994e-14; -1.8323176512520801e-08]; [-2.2423672161947766e-10; -8.9709159667337618e-16; 2.2422474012398869e-10]])
       && near (psi s) ([6.6874844417638421e+08; 1.3374968883527684e+09; 2.0805507152154176e+09; 1.8153920670983608e+09; 2.1446764804714236e+09; 2.6020582487631597e+07])
       && near1 (cjlast s) (2.2429958724574930e-09)
       && near1 (cj (lp (nlp s))) (2.2429958724574930e-09)
       && near1 ck (0.3214285714285713969)
   | _ => false
   end) = true.
Proof. vm_compute. reflexivity. Qed.

(** src/tests/set_coeffs.rs 165, [test2]. *)
Example replay_set_coeffs_test2 :
  (let s := dummy_state in
    let s := set_hh (3.4384304814216195e-04) s in
    let s := set_hused (3.4384304814216195e-04) s in
    let s := set_ns 2%nat s in
    let s := set_kused 2%nat s in
    let s := set_kk 2%nat s in
    let s := set_beta ([1.0000000000000000e+00; 1.0000000000000000e+00; 1.0000000000000000e+00; 4.8000000000000007e+00; 1.5000000000000000e+01; 0.0000000000000000e+00]) s in
    let s := set_alpha ([1.0000000000000000e+00; 5.0000000000000000e-01; 3.3333333333333337e-01; 4.4444444444444442e-01; 5.0000000000000000e-01; 0.0000000000000000e+00]) s in
    let s := set_gamma ([0.0000000000000000e+00; 2.9083036734439079e+03; 4.3624555101658616e+03; 6.2549405772650898e+03; 1.6001650180080363e+04; 0.0000000000000000e+00]) s in
    let s := set_sigma ([1.0000000000000000e+00; 5.0000000000000000e-01; 3.3333333333333337e-01; 8.8888888888888884e-01; 2.4380952380952383e+00; 0.0000000000000000e+00]) s in
    let s := set_phi ([[9.9992400889930733e-01; 3.5884428024527148e-05; 4.0106672668125017e-05]; [-1.3748619452022122e-05; 1.1636437126348729e-06; 1.2584975739367733e-05]; [1.7125607629565644e-09; -1.3178687286728842e-06; 1.3161561679729596e-06]; [2.1033954646845001e-10; 1.0217905523752639e-06; -1.0220008918107099e-06]; [-1.3875550771817554e-10; 1.3559268269012917e-06; -1.3557880688400603e-06]; [-1.1465196356066767e-10; 2.0021935974335382e-07; -2.0010470777979317e-07]]) s in
    let s := set_psi ([3.4384304814216195e-04; 6.8768609628432390e-04; 1.0315291444264857e-03; 7.7938390297730776e-04; 3.4639284576769232e-04; 0.0000000000000000e+00]) s in
    let s := set_cjlast (4.3624555101658616e+03) s in
    let s := on_lp (set_cj (4.3624555101658616e+03)) s in
   match set_coeffs dummy s with
   | Ret (s, ck) =>
       near1 (hh s) (3.4384304814216195e-04)
       && near1 (hused s) (3.4384304814216195e-04)
       && ((ns s) =? 3)%nat
       && ((kused s) =? 2)%nat
       && ((kk s) =? 2)%nat
       && near (beta s) ([1.0000000000000000e+00; 1.0000000000000000e+00; 1.0000000000000000e+00; 4.8000000000000007e+00; 1.5000000000000000e+01; 0.0000000000000000e+00])
       && near (alpha s) ([1.0000000000000000e+00; 5.0000000000000000e-01; 3.3333333333333337e-01; 4.4444444444444442e-01; 5.0000000000000000e-01; 0.0000000000000000e+00])
       && near (gamma s) ([0.0000000000000000e+00; 2.9083036734439079e+03; 4.3624555101658616e+03; 6.2549405772650898e+03; 1.6001650180080363e+04; 0.0000000000000000e+00])
       && near (sigma s) ([1.0000000000000000e+00; 5.0000000000000000e-01; 3.3333333333333337e-01; 8.8888888888888884e-01; 2.4380952380952383e+00; 0.0000000000000000e+00])
       && near2 (phi s) ([[9.9992400889930733e-01; 3.5884428024527148e-05; 4.0106672668125017e-05]; [-1.3748619452022122e-05; 1.1636437126348729e-06; 1.2584975739367733e-05]; [1.7125607629565644e-09; -1.3178687286728842e-06; 1.3161561679729596e-06]; [2.1033954646845001e-10; 1.0217905523752639e-06; -1.0220008918107099e-06]; [-1.3875550771817554e-10; 1.3559268269012917e-06; -1.3557880688400603e-06]; [-1.1465196356066767e-10; 2.0021935974335382e-07; -2.0010470777979317e-07]])
       && near (psi s) ([3.4384304814216195e-04; 6.8768609628432390e-04; 1.0315291444264857e-03; 7.7938390297730776e-04; 3.4639284576769232e-04; 0.0000000000000000e+00])
       && near1 (cjlast s) (4.3624555101658616e+03)
       && near1 (cj (lp (nlp s))) (4.3624555101658616e+03)
       && near1 ck (0.3333333333333334814)
   | _ => false
   end) = true.
Proof. vm_compute. reflexivity. Qed.

(** src/tests/complete_step.rs 4, [test1]. *)
Example replay_complete_step_test1 :
  (let s := dummy_state in
    let s := set_nst 0%nat s in
    let s := set_kk 1%nat s in
    let s := set_hh (2.1649552860480770e-05) s in
    let s := set_rr (0.0000000000000000e+00) s in
    let s := set_kused 0%nat s in
    let s := set_hused (0.0000000000000000e+00) s in
    let s := set_knew 1%nat s in
    let s := set_maxord 5%nat s in
    let s := set_phase 0%nat s in
    let s := set_hmax_inv (0.0000000000000000e+00) s in
    let s := set_ee ([7.5001558608301906e-13; -4.8726813621044346e-10; 4.8651812062436036e-10]) s in
    let s := set_phi ([[1.0; 0.0; 0.0]; [-8.6598211441923077e-07; 8.6598211441923077e-07; 0.0]; [0.0; 0.0; 0.0]; [0.0; 0.0; 0.0]; [0.0; 0.0; 0.0]; [0.0; 0.0; 0.0]]) s in
    let s := on_nlp (set_ewt ([9.9990000999900003e+03; 1.0000000000000000e+06; 1.0000000000000000e+06])) s in
   match complete_step dummy s (0.0001987733462845937) (0.0) with
   | Ret s =>
       ((nst s) =? 1)%nat
       && ((kk s) =? 1)%nat
       && near1 (hh s) (2.1649552860480770e-05)
       && near1 (rr s) (0.0000000000000000e+00)
       && ((kused s) =? 1)%nat
       && near1 (hused s) (2.1649552860480770e-05)
       && ((knew s) =? 1)%nat
       && ((maxord s) =? 5)%nat
       && ((phase s) =? 0)%nat
       && near1 (hmax_inv s) (0.0000000000000000e+00)
       && near (ee s) ([7.5001558608301906e-13; -4.8726813621044346e-10; 4.8651812062436036e-10])
       && near (ewt (nlp s)) ([9.9990000999900003e+03; 1.0000000000000000e+06; 1.0000000000000000e+06])
       && near2 (phi s) ([[9.9999913401863560e-01; 8.6549484628302034e-07; 4.8651812062436036e-10]; [-8.6598136440364466e-07; 8.6549484628302034e-07; 4.8651812062436036e-10]; [7.5001558608301906e-13; -4.8726813621044346e-10; 4.8651812062436036e-10]; [0.0; 0.0; 0.0]; [0.0; 0.0; 0.0]; [0.0; 0.0; 0.0]])
   | _ => false
   end) = true.
Proof. vm_compute. reflexivity. Qed.

(** src/tests/complete_step.rs 110, [test2]. *)
Example replay_complete_step_test2 :
  (let s := dummy_state in
    let s := set_phi ([[9.9999826803802172e-01; 1.7295310279504897e-06; 2.4309503863111873e-09]; [-1.7319612278663124e-06; 1.7280723633349389e-06; 3.8888645313736536e-09]; [2.2514114651871690e-12; -4.3759938466525865e-09; 4.3737424351873994e-09]; [0.0000000000000000e+00; 0.0000000000000000e+00; 0.0000000000000000e+00]; [0.0000000000000000e+00; 0.0000000000000000e+00; 0.0000000000000000e+00]; [0.0000000000000000e+00; 0.0000000000000000e+00; 0.0000000000000000e+00]]) s in
    let s := set_ee ([-4.2122294839452673e-13; -2.4605442771223734e-09; 2.4609655000707684e-09]) s in
    let s := on_nlp (set_ewt ([9.9990174161763662e+03; 9.9982707680480811e+05; 9.9999975690502045e+05])) s in
    let s := set_kk 2%nat s in
    let s := set_kused 1%nat s in
    let s := set_knew 2%nat s in
    let s := set_phase 0%nat s in
    let s := set_hh (4.3299105720961540e-05) s in
    let s := set_hused (2.1649552860480770e-05) s in
    let s := set_rr (0.0000000000000000e+00) s in
    let s := set_hmax_inv (0.0000000000000000e+00) s in
    let s := set_nst 2%nat s in
    let s := set_maxord 5%nat s in
   match complete_step dummy s (0.001339349356604325) (0.003720519687081918) with
   | Ret s =>
       ((nst s) =? 3)%nat
       && ((kk s) =? 3)%nat
       && near1 (hh s) (8.6598211441923079e-05)
       && near1 (rr s) (0.0000000000000000e+00)
       && ((kused s) =? 2)%nat
       && near1 (hused s) (4.3299105720961540e-05)
       && ((knew s) =? 2)%nat
       && ((maxord s) =? 5)%nat
       && ((phase s) =? 0)%nat
       && near1 (hmax_inv s) (0.0000000000000000e+00)
       && near (ee s) ([-4.2122294839452673e-13; -2.4605442771223734e-09; 2.4609655000707684e-09])
       && near2 (phi s) ([[9.9999653607862404e-01; 3.4507668531616537e-06; 1.3154522852943008e-08]; [-1.7319593976777956e-06; 1.7212358252111640e-06; 1.0723572466631820e-08]; [1.8301885167926423e-12; -6.8365381237749594e-09; 6.8347079352581675e-09]; [-4.2122294839452673e-13; -2.4605442771223734e-09; 2.4609655000707684e-09]; [0.0000000000000000e+00; 0.0000000000000000e+00; 0.0000000000000000e+00]; [0.0000000000000000e+00; 0.0000000000000000e+00; 0.0000000000000000e+00]])
       && near (ewt (nlp s)) ([9.9990174161763662e+03; 9.9982707680480811e+05; 9.9999975690502045e+05])
   | _ => false
   end) = true.
Proof. vm_compute. reflexivity. Qed.

(** src/tests/complete_step.rs 204, [test3]. *)
Example replay_complete_step_test3 :
  (let s := dummy_state in
    let s := set_nst 12%nat s in
    let s := set_kk 3%nat s in
    let s := set_hh (3.4384304814216195e-04) s in
    let s := set_rr (1.7379509697128959e+00) s in
    let s := set_kused 2%nat s in
    let s := set_hused (3.4384304814216195e-04) s in
    let s := set_knew 2%nat s in
    let s := set_maxord 5%nat s in
    let s := set_phase 1%nat s in
    let s := set_hmax_inv (0.0000000000000000e+00) s in
    let s := set_ee ([-3.0358000609489579e-11; -2.0478050395116282e-07; 2.0481086265121282e-07]) s in
    let s := set_phi ([[9.9989651723441231e-01; 3.6526684773526134e-05; 6.6956080814055887e-05]; [-1.3744883185162313e-05; 1.6198423621611769e-07; 1.3582898948830698e-05]; [1.8985246772161757e-09; -3.1828827656675421e-07; 3.1638975173052525e-07]; [6.0782494622797157e-11; 3.6508292328524681e-07; -3.6514370600191418e-07]; [-1.3875550771817554e-10; 1.3559268269012917e-06; -1.3557880688400603e-06]; [-1.1465196356066767e-10; 2.0021935974335382e-07; -2.0010470777979317e-07]]) s in
    let s := on_nlp (set_ewt ([1.0000034827777174e+04; 9.9636062495315843e+05; 9.9334892491071229e+05])) s in
   match complete_step dummy s (0.04158869255496026) (0.0434084688121079) with
   | Ret s =>
       ((nst s) =? 13)%nat
       && ((kk s) =? 2)%nat
       && near1 (hh s) (6.8768609628432390e-04)
       && near1 (rr s) (2.2575213239991561e+00)
       && ((kused s) =? 3)%nat
       && near1 (hused s) (3.4384304814216195e-04)
       && ((knew s) =? 2)%nat
       && ((maxord s) =? 5)%nat
       && ((phase s) =? 1)%nat
       && near1 (hmax_inv s) (0.0000000000000000e+00)
       && near (ee s) ([-3.0358000609489579e-11; -2.0478050395116282e-07; 2.0481086265121282e-07])
       && near2 (phi s) ([[9.9988277428017636e-01; 3.6530683152509582e-05; 8.0695036671266405e-05]; [-1.3742954235991083e-05; 3.9983789834474729e-09; 1.3738955857210521e-05]; [1.9289491712294831e-09; -1.5798585723267022e-07; 1.5605690837982388e-07]; [3.0424494013307578e-11; 1.6030241933408400e-07; -1.6033284335070136e-07]; [-3.0358000609489579e-11; -2.0478050395116282e-07; 2.0481086265121282e-07]; [-1.1465196356066767e-10; 2.0021935974335382e-07; -2.0010470777979317e-07]])
       && near (ewt (nlp s)) ([1.0000034827777174e+04; 9.9636062495315843e+05; 9.9334892491071229e+05])
   | _ => false
   end) = true.
Proof. vm_compute. reflexivity. Qed.


(** ** The Roberts example run end to end

    examples/roberts.rs 58-180: the model integrates the problem with the
    example's tolerances to the first output times.  Reference values are those
    of the SUNDIALS documentation for the same example (5 digits); the run goes
    through solve, step, Newton, dense LU and root finding. *)
Definition robertsF : problem float := roberts 0.04 1e4 3e7 6e7 0.0001 0.01.
Definition roberts_ewt : list float -> list float := ewt_set_sv 1e-4 [1e-8; 1e-6; 1e-6].

Definition roberts_init : outcome (ida float (list nat) (newton float)) :=
  ida_new robertsF [1; 0; 0] [-0.04; 0.04; 0].

(** src/tests/complete_step.rs 62-106 records the state of the original C code
    after the first internal step of this very run: the model reaches the same
    history array from the initial condition. *)
Example roberts_first_step :
  match (let* st := roberts_init in solve robertsF roberts_ewt 10 10 st 0.4 0 OneStep) with
  | Ret (st, _, Ok Success) =>
      near1 (hused st) 2.1649552860480770e-05
      && near (nth 0 (phi st) []) [9.9999913401863560e-01; 8.6549484628302034e-07; 4.8651812062436036e-10]
      && near (nth 1 (phi st) []) [-8.6598136440364466e-07; 8.6549484628302034e-07; 4.8651812062436036e-10]
      && forallb (fun p => PrimFloat.abs (fst p - snd p) <=? 1e-5 * PrimFloat.abs (snd p))
           (combine (nth 2 (phi st) [])
                    [7.5001558608301906e-13; -4.8726813621044346e-10; 4.8651812062436036e-10])
      && (nst st =? 1)%nat && (kused st =? 1)%nat
  | _ => false
  end = true.
Proof. vm_compute. reflexivity. Qed.

(** The main loop of examples/roberts.rs 83-123 ([tout] grows tenfold on
    Success, 12 output times). *)
Fixpoint roberts_run (k iout : nat) (st : ida float (list nat) (newton float)) (tout : float)
  : option (ida float (list nat) (newton float) * float) :=
  match k with
  | O => None
  | S k =>
      match solve robertsF roberts_ewt 600 100 st tout 0 Normal with
      | Ret (st, tret, Ok Success) =>
          if (iout =? 11)%nat then Some (st, tret) else roberts_run k (S iout) st (tout * 10)
      | Ret (st, _, Ok _) => roberts_run k iout st tout
      | _ => None
      end
  end.

(** examples/roberts.rs 11-52 [check_ans]: the final solution at t = 4e10
    agrees with the reference solution within the loosened tolerance. *)
Example roberts_check_ans :
  match roberts_init with
  | Ret st =>
      match roberts_run 20 0 st 0.4 with
      | Some (st, tret) =>
          let ref := [5.2083474251394888e-08; 2.0833390772616859e-13; 9.9999994791631752e-01] in
          let w := map (fun p => 1 / (1e-4 * PrimFloat.abs (fst p) + 10 * snd p))
                       (combine ref [1e-8; 1e-6; 1e-6]) in
          near1 tret 4e10 && (norm_wrms (vsub 3 (yy (nlp st)) ref) w <? 1)
      | None => false
      end
  | _ => false
  end = true.
Proof. vm_compute. reflexivity. Qed.
