(** Circular and helical motions in single precision: C80. *)
Require Import List Arith NArith ZArith Bool Reals Lra Lia.
From Coq Require Import Floats.SpecFloat.
From Verif Require Import Base StepModel StepSpec Num NumSF MotionModel CtrlModel CtrlSpec CtrlRSpec ProfileSpec GeomSpec RunSpec FloatSpec FloatRunSpec FloatArcSpec FloatArcProofs.
Import ListNotations.
Open Scope R_scope.

(** C80.  binary32 and binary64; the library's cosine and sine are accurate to 2^-23.
    As C77, for straight, circular and helical motions in any order: at every tick the
    counted position of every axis is within [reach] steps of where an exact execution
    along the lines and arcs, within the limits, is at that time, and in the end the
    controller is at rest at the end of the last motion, ready for more. *)
Theorem C80_job_followed : forall X M fo u, trig_ok X -> funit_ok X M u -> forall w, float32 w (fu_W u) ->
  forall c x0 qs, idle X c w fo -> Forall (move_ok X M fo u) qs -> qs <> [] -> (length qs <= 32)%nat -> joined (fu_k u) x0 (map fq_P qs) ->
  (forall i, (i < 3)%nat -> Rabs (fu_k u i * x0 i - counted c i) <= 54/100) ->
  exists c0 legs (n : nat) cn,
    c_run (sf_arith X) M c (map (fun q => OAppend (fq_m q)) qs ++ [OStart]) = Ok (c0, []) /\
    Forall2 (fun g q => executes u g (fq_P q) (fq_l q)) legs qs /\
    (forall j, (j < n)%nat -> exists cj, ticks_run (sf_arith X) M j c0 = Ok cj /\ under_way u x0 legs cj j) /\
    ticks_run (sf_arith X) M n c0 = Ok cn /\ all_done u x0 legs cn n /\ idle X cn w fo.
Proof. exact arc_job. Qed.
Print Assumptions C80_job_followed.

(** Up a helix and back round while going further up, on the machine and with the tick
    of the firmware: 0, 0 and 16000 steps. *)
Example C80_hypotheses : forall X, trig_ok X -> let A := sf_arith X in let M := cnc3axis A in let fo := nofZ (aF A) 1 in let c := c_init A 375 (tickWidth A) in
  let qs := [ex_h1 X; ex_h2 X] in let x0 := fun _ => 0 in
  idle X c (tickWidth A) fo /\ float32 (tickWidth A) (fu_W ex_hu) /\ funit_ok X M ex_hu /\ Forall (move_ok X M fo ex_hu) qs /\
  joined (fu_k ex_hu) x0 (map fq_P qs) /\ (forall i, (i < 3)%nat -> Rabs (fu_k ex_hu i * x0 i - counted c i) <= 54/100) /\
  (forall i, (i < 3)%nat -> Rabs (fu_k ex_hu i * end_of x0 (map fq_P qs) i - IZR (nth i [0; 0; 16000]%Z 0%Z)) < 1 - reach (fu_B ex_hu) (fu_H ex_hu)).
Proof. exact arc_example. Qed.
(** There are such cosines and sines. *)
Example C80_library : forall X, trig_ok (exact_trig X).
Proof. exact exact_trig_ok. Qed.

(** As C78, for circular and helical motions: the limits computed in single precision
    keep every axis within its own, also where an axis of the arc takes all of the
    speed; the acceleration towards the centre is within the limits of both axes of the
    arc; and the limits are no lower than that. *)
Theorem C80_axis_limits : forall X M a d v j m dl len rad fo f, axis_limits X M a d v j -> curved_by X m dl len rad -> feed_is m fo f -> gentle_arc m a d v j len rad f ->
  exists l, fl_j l = j /\ Rabs (fl_L l - len) <= len / 4194304 /\
    limits_kept a d v f (most m dl len) len l /\ inward_kept m a rad l /\ arc_limits_used m a d v f (most m dl len) len rad l /\
    standing X (prof_setSpeed (sf_arith X) M (p_zero (aF (sf_arith X))) (traj_set (sf_arith X) m) m) (t_length (traj_set (sf_arith X) m)) fo
      (fl_a l) (fl_d l) (fl_j l) (fl_vm l) (fl_L l).
Proof. exact arc_limits. Qed.
Print Assumptions C80_axis_limits.
Example C80_limits_hypotheses : forall X, let A := sf_arith X in let M := cnc3axis A in let fo := nofZ (aF A) 1 in
  let a := fun _ : nat => 200 in let v := fun _ : nat => 30 in let dl := fun i => IZR (nth i [0; 0; 40]%Z 0%Z) in let m := fq_m (ex_h1 X) in
  axis_limits X M a a v 600 /\ curved_by X m dl 50 20 /\ feed_is m fo (Some 20) /\ gentle_arc m a a v 600 50 20 (Some 20).
Proof. exact arc_limits_example. Qed.
