(** Stop buttons, limit switches and the home position: C70-C72. *)
Require Import List Arith NArith ZArith Bool.
From Verif Require Import Base EventModel InputModel StepModel StepSpec Num NumSF MotionModel CtrlModel CtrlSpec
  HomingModel HomingSpec SystemModel SystemSpec SafetySpec SafetyProofs SafetyWitness.
Import ListNotations.
Open Scope nat_scope.

(** C70: refuted.  The firmware of the 3-axis machine, in binary arithmetic: the
    emergency stop has been pressed and recognised, every event has been
    handled, the button is held, and the machine goes on moving. *)
Theorem C70_emergency_stop_refuted : forall X, let A := sf_arith X in let M := cnc3axis A in let H := cnc3axis_homing A in
  exists y ops y', reachable A M H (tickWidth A) y /\ pressed input_emergencyStop y /\ (forall e, not_pending e y) /\
    kept_closed input_emergencyStop ops /\ y_run A M H y ops = Ok y' /\
    c_state (y_c y) = ms_running /\ c_state (y_c y') = ms_running /\ (forall e, not_pending e y') /\
    c_pos (y_c y) = [0; 0; 0]%Z /\ c_pos (y_c y') = [0; 0; 2]%Z.
Proof. exact estop_lemma. Qed.
Print Assumptions C70_emergency_stop_refuted.

(** In general: whatever the machine, configuration and arithmetic, in every
    reachable state, handling an event of the emergency stop, the feed hold button
    or the probe changes nothing. *)
Theorem C70_no_effect_refuted : forall D F (A : arith D F) (M : machine F) (H : hcfg D F) width y y' e,
  reachable A M H width y -> In e operator_events -> next_event y e -> y_step A M H y YEvent = Ok y' ->
  undisturbed y y'.
Proof. exact @operator_lemma. Qed.
Print Assumptions C70_no_effect_refuted.

(** Such a moment, while homing searches for a switch. *)
Example C70_pressed : forall X, let A := sf_arith X in let M := cnc3axis A in let H := cnc3axis_homing A in
  exists y, reachable A M H (tickWidth A) y /\ next_event y emergencyStopButtonPressed /\
    h_state (y_h y) = hs_closing /\ c_state (y_c y) = ms_running.
Proof. exact (fun X => upcoming_lemma X _ _ _ (pressed_run X)). Qed.

(** C71: refuted.  Z backs off its upper switch, the lower limit switch closes
    and is recognised, and Z goes on moving down. *)
Theorem C71_limit_switch_refuted : forall X, let A := sf_arith X in let M := cnc3axis A in let H := cnc3axis_homing A in
  exists y ops y', reachable A M H (tickWidth A) y /\ pressed input_limitZMin y /\ (forall e, not_pending e y) /\
    kept_closed input_limitZMin ops /\ y_run A M H y ops = Ok y' /\
    c_state (y_c y) = ms_running /\ c_state (y_c y') = ms_running /\ (forall e, not_pending e y') /\
    c_pos (y_c y) = [0; 0; 0]%Z /\ c_pos (y_c y') = [0; 0; -2]%Z.
Proof. exact limit_witness. Qed.
Print Assumptions C71_limit_switch_refuted.

(** C71, what is true: exactly the switch homing is searching for stops the motion. *)
Theorem C71_limit_switch_partial : forall D F (A : arith D F) (M : machine F) (H : hcfg D F) width y y' e,
  reachable A M H width y -> In e limit_events -> next_event y e -> y_step A M H y YEvent = Ok y' ->
  let a := h_axis (y_h y) in
  (h_state (y_h y) = hs_closing /\ e = limit_closed (up H a) a ->
     h_state (y_h y') = hs_closedWaitForStop /\ c_state (y_c y') = c_state (c_stop A M (y_c y)) /\
     c_st (y_c y') = c_st (c_stop A M (y_c y)) /\ queue A (y_c y') = queue A (c_stop A M (y_c y))) /\
  (~ (h_state (y_h y) = hs_closing /\ e = limit_closed (up H a) a) -> undisturbed y y').
Proof. exact @limit_lemma. Qed.
Print Assumptions C71_limit_switch_partial.

Example C71_reached : forall X, let A := sf_arith X in let M := cnc3axis A in let H := cnc3axis_homing A in
  exists y, reachable A M H (tickWidth A) y /\ next_event y limitSwitchZMaxClosed /\
    h_state (y_h y) = hs_closing /\ c_state (y_c y) = ms_running.
Proof. exact (fun X => upcoming_lemma X _ _ _ (reached_run X)). Qed.

(** C72: refuted.  Homing completes and the machine is at rest, but its position is
    what it happened to be. *)
Theorem C72_homing_sets_position_refuted : forall X, let A := sf_arith X in let M := cnc3axis A in let H := only_z A in
  exists y, reachable A M H (tickWidth A) y /\ h_state (y_h y) = hs_found /\ c_state (y_c y) = ms_stopped /\
    (forall e, not_pending e y) /\ c_pos (y_c y) = [0; 0; -2]%Z.
Proof. exact home_lemma. Qed.
Print Assumptions C72_homing_sets_position_refuted.

(** In general the position only ever changes by the step commands given to the
    output stage: nothing sets it. *)
Theorem C72_position_only_counts : forall D F (A : arith D F) (M : machine F) (H : hcfg D F) width y ops,
  reachable A M H width y -> forall y', y_run A M H y ops = Ok y' ->
  exists css, fst (fst (sg_run (c_sig (y_c y)) css)) = c_sig (y_c y') /\
    forall a, a < 3 -> nth a (c_pos (y_c y')) 0%Z = (nth a (c_pos (y_c y)) 0 + net (cmd_at a css))%Z.
Proof. exact @position_lemma. Qed.
Print Assumptions C72_position_only_counts.
