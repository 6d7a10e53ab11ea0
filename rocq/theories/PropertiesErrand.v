(** * The position the controller reports, and motions started from there *)
Require Import List Arith NArith ZArith Bool Reals.
From Coq Require Import Floats.SpecFloat.
From Verif Require Import Base StepModel Num NumR NumSF MotionModel CtrlModel CtrlSpec ProfileSpec GeomSpec RunSpec HomingModel HomingSpec.
From Verif Require Import FloatSpec FloatRunSpec FloatArcSpec FloatHomeSpec FloatHomeProofs.
Import ListNotations.
Open Scope R_scope.

(** ** C92 — motions from the reported position, as homing makes them *)

(** Up to a million steps the position reported in mm is, in single precision, the number
    of steps counted, over the steps per mm, to within one part in 16777216. *)
Theorem C92_reported : forall X M i k (c : ctrl sf), (i < 3)%nat -> float32 (nthF (sf_arith X) (m_stepsPerMm M) i) k -> / 1048576 <= k <= 1048576 ->
  (Z.abs (nth i (c_pos c) 0) <= 1048576)%Z ->
  exists r, float32 (reported X M c i) r /\ Rabs (k * r - counted c i) <= Rabs (counted c i) / 16777216.
Proof. intros X M i k c Hi HK KB. exact (reported_fin X M i k Hi HK KB c). Qed.
Print Assumptions C92_reported.

(** An axis sent to its reported position makes no step. *)
Theorem C92_no_jump : forall X M i k (c : ctrl sf), (i < 3)%nat -> float32 (nthF (sf_arith X) (m_stepsPerMm M) i) k -> / 1048576 <= k <= 1048576 ->
  (Z.abs (nth i (c_pos c) 0) <= 1000000)%Z -> c_decide (sf_arith X) M c i (reported X M c i) = Ok None.
Proof. intros X M i k c Hi HK KB. exact (reported_still X M i k Hi HK KB c). Qed.
Print Assumptions C92_no_jump.

(** After any history that leaves the controller stopped: a homing motion goes from the
    reported position along its axis, by the distance and at the speed asked for, with the
    acceleration and deceleration of that axis; at every tick the counted position is
    where it should be at that time; in the end the axis has gone the steps asked for, and
    the others, if the motion is not too long, are exactly where they were. *)
Theorem C92_homing_motion : forall X M u a d v j, trig_ok X -> funit_ok X M u -> axis_limits X M a d v j -> forall w, float32 w (fu_W u) ->
  forall mt ops c recs, c_run (sf_arith X) M (c_init (sf_arith X) mt w) ops = Ok (c, recs) -> c_state c = ms_stopped ->
  forall ax off sp x f, float64 off x -> speed_is sp (c_fo c) f -> errand u a d v j c ax x f ->
  exists p g l (n : nat) cn, let c0 := do_action (sf_arith X) M c (DoMove ax off sp) in
    (forall i, (i < 3)%nat -> float32 (reported X M c i) (p i) /\ Rabs (fu_k u i * p i - counted c i) <= / 16) /\
    executes u g (axis_path p ax x) l /\ limits_of a d ax f l /\
    (forall j, (j < n)%nat -> exists cj, ticks_run (sf_arith X) M j c0 = Ok cj /\ under_way u p [g] cj j) /\
    ticks_run (sf_arith X) M n c0 = Ok cn /\ all_done u p [g] cn n /\ idle X cn w (c_fo c) /\
    Rabs (counted cn ax - (counted c ax + fu_k u ax * x)) <= reach (fu_B u) (fu_H u) + / 16 /\
    (reach (fu_B u) (fu_H u) < 15/16 -> forall i, (i < 3)%nat -> i <> ax -> nth i (c_pos cn) 0%Z = nth i (c_pos c) 0%Z).
Proof. exact errand_done. Qed.
Print Assumptions C92_homing_motion.

(** The homing motions of the firmware: X by 300 mm, Z by 60 and by -3 mm, from anywhere
    within 60 mm.  [c_init] with an empty history is such a controller. *)
Example C92_hypotheses : forall X, let A := sf_arith X in let M := cnc3axis A in let H := cnc3axis_homing A in let a := fun _ : nat => 200 in let v := fun _ : nat => 30 in
  axis_limits X M a a v 600 /\ (forall u, u = ex_far \/ u = ex_near -> funit_ok X M u /\ float32 (tickWidth A) (fu_W u)) /\
  reach (fu_B ex_near) (fu_H ex_near) < 15/16 /\
  forall c : ctrl sf, c_fo c = nofZ (aF A) 1 -> (forall i, (i < 3)%nat -> Rabs (counted c i) <= 12000) ->
    (seek A H 0 = [DoMove 0 (nofZ (aD A) 300) (nofZ (aD A) 10)] /\ float64 (nofZ (aD A) 300) 300 /\ speed_is (nofZ (aD A) 10) (c_fo c) 10 /\ errand ex_far a a v 600 c 0 300 10) /\
    (seek A H 2 = [DoMove 2 (nofZ (aD A) 60) (nofZ (aD A) 10)] /\ float64 (nofZ (aD A) 60) 60 /\ errand ex_near a a v 600 c 2 60 10) /\
    (clear A H 2 = [DoMove 2 (nofZ (aD A) (-3)) (nofZ (aD A) 10)] /\ float64 (nofZ (aD A) (-3)) (-3) /\ errand ex_near a a v 600 c 2 (-3) 10).
Proof. exact errand_example. Qed.
