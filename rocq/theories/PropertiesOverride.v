(** * C93: changes of the feed override *)
Require Import List Arith NArith ZArith Bool Reals Lra.
From Coq Require Import Floats.SpecFloat.
From Verif Require Import Base EventModel StepModel Num NumSF NumR MotionModel CtrlModel CtrlSpec ProfileSpec GeomSpec RunSpec FloatSpec OverrideSpec OverrideProofs PropertiesRun.
Import ListNotations.
Open Scope R_scope.

(** Refuted.  Any arithmetic, any state, any new value: the main loop goes on exactly as
    without the change (the same output records, positions, events and queue, or the same
    undefined behaviour).  Neither the motion in progress nor the queued ones take note of it. *)
Theorem C93_takes_effect_refuted : forall D F (A : arith D F) (M : machine F) (c : ctrl F) (fo : F) ops, Forall goes_on ops ->
  c_run A M c (OOverride fo :: ops) = match c_run A M c ops with Ok (c', recs) => Ok (with_override c' fo, recs) | UB => UB end.
Proof. exact change_ignored'. Qed.
Print Assumptions C93_takes_effect_refuted.
Example C93_under_way : forall X, let A := sf_arith X in exists c recs,
  c_run A (cnc3axis A) (c_init A 375 (tickWidth A)) [OAppend (linX A 10 10); OAppend (linX A 10 10); OStart; OCalc] = Ok (c, recs) /\ c_state c = ms_running /\ c_level c = 2%N.
Proof. exact ignored_example. Qed.

(** Refuted.  An override of zero makes the behaviour of a rapid motion undefined... *)
Theorem C93_zero_rapid_refuted : forall X, let A := sf_arith X in
  c_run A (cnc3axis A) (c_init A 375 (tickWidth A)) [OOverride (nofZ (aF A) 0); OAppend (travX A 10); OStart; OCalc] = UB.
Proof. exact zero_rapid. Qed.
Print Assumptions C93_zero_rapid_refuted.
(** ... and a motion with a feed does not begin to move when the override is set back to one, however
    long one waits. *)
Theorem C93_zero_lasts_refuted : forall X, let A := sf_arith X in forall k, exists c recs,
  c_run A (cnc3axis A) (c_init A 375 (tickWidth A)) ([OOverride (nofZ (aF A) 0); OAppend (linX A 10 10); OStart; OCalc; OOverride (nofZ (aF A) 1)] ++ repeat OCalc k) = Ok (c, recs) /\
  c_state c = ms_stopped /\ c_events c = [motionStarted; motionStopped] /\ c_level c = 1%N /\ c_fo c = nofZ (aF A) 1.
Proof. exact zero_lasts. Qed.
Print Assumptions C93_zero_lasts_refuted.

(** What is true, in exact arithmetic: a motion queued after the change, while running, is planned with
    the feed times the override, within the limits of the machine ([leg_ok]); the motions queued
    before keep their plans. *)
Theorem C93_next_motion_partial : forall M r fo c m P, machine_is M r -> 0 < fo ->
  c_state c = ms_running -> c_fo c = XF fo -> length (c_items c) = 32%nat -> (c_head c < 32)%N -> (c_level c < 32)%N -> executable r m P ->
  exists o l, queue x_arith (c_append x_arith M c m) = queue x_arith c ++ [o] /\ lg_path l = P /\ leg_ok r (sm_vFeed m) fo l /\ executed o l.
Proof. exact next_motion. Qed.
Print Assumptions C93_next_motion_partial.
(** A rapid motion is under way, the override is set to one half, and a motion with a feed follows. *)
Example C93_hypotheses : exists c recs, c_run x_arith C64_machine C64_power_up [OAppend C64_m1; OStart; OOverride (XF (1/2))] = Ok (c, recs) /\
  machine_is C64_machine C64_limits /\ 0 < 1/2 /\ c_state c = ms_running /\ c_fo c = XF (1/2) /\ length (c_items c) = 32%nat /\ (c_head c < 32)%N /\ (c_level c < 32)%N /\
  executable C64_limits C64_m2 C64_P2.
Proof.
  eexists _, _. split; [reflexivity|]. split; [apply C64_machine_ok|]. split; [lra|]. split; [reflexivity|]. split; [reflexivity|]. split; [reflexivity|].
  split; [reflexivity|]. split; [reflexivity|]. exact C64_m2_ok.
Qed.

(** What is true, in binary32 and binary64: rapid motions are planned alike for any two positive
    overrides. *)
Theorem C93_rapid_unaffected : forall X M o m fo fo' x x' st, float32 fo x -> float32 fo' x' -> 0 < x -> 0 < x' -> sm_vFeed m = ninf (aD (sf_arith X)) ->
  mo_set (sf_arith X) M o m fo st = mo_set (sf_arith X) M o m fo' st.
Proof. exact rapid_same. Qed.
Print Assumptions C93_rapid_unaffected.
Example C93_overrides : forall X, let A := sf_arith X in float32 (ndec (aF A) 5 1) (1/2) /\ float32 (nofZ (aF A) 2) 2 /\ sm_vFeed (travX A 10) = ninf (aD A).
Proof. exact two_overrides. Qed.
