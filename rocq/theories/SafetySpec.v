(** Notions used to state what the inputs do to the machine. *)
Require Import List Arith NArith ZArith Bool.
From Verif Require Import Base EventModel InputModel StepModel StepSpec Num MotionModel CtrlModel HomingModel HomingSpec SystemModel.
Import ListNotations.
Open Scope N_scope.

(** The events of the emergency stop button, the feed hold button and the probe. *)
Definition operator_events : list event :=
  [emergencyStopButtonPressed; emergencyStopButtonReleased; feedHoldResumeButtonPressed;
   feedHoldResumeButtonReleased; probeSwitchClosed; probeSwitchOpened].
(** The events of limit switches closing. *)
Definition limit_events : list event :=
  [limitSwitchXMinClosed; limitSwitchXMaxClosed; limitSwitchYMinClosed; limitSwitchYMaxClosed;
   limitSwitchZMinClosed; limitSwitchZMaxClosed].
(** Positions of the inputs in the table of main.cpp. *)
Definition input_emergencyStop : nat := 6.
Definition input_limitZMin : nat := 4.

Section S.
Context {F : Type}.
(** The event to be handled next. *)
Definition next_event (y : sys F) (e : event) : Prop := eb_hasEvents (y_ev y) = true /\ snd (eb_pop (y_ev y)) = e.
(** Input [i] has been found closed (pressed). *)
Definition pressed (i : nat) (y : sys F) : Prop := db_isClosed (nth i (y_in y) (db_make ev_none ev_none)) = true.
(** All further samples find input [i] closed (level low). *)
Definition kept_closed (i : nat) (ops : list sys_op) : Prop :=
  forall raw, In (YSample raw) ops -> nth i raw false = false.
(** Everything that moves or may start to move the machine is as before. *)
Definition undisturbed (y y' : sys F) : Prop := y_c y' = y_c y /\ y_sb y' = y_sb y /\ y_h y' = y_h y.
End S.

(** The 3-axis machine with homing of the Z axis only, 1/256 mm from its switch. *)
Definition only_z {D F} (A : arith D F) : hcfg D F :=
  let H := cnc3axis_homing A in let s := ndec (aD A) 390625 8 in
  mkH [2; 3; 3]%nat (hc_dir H) (hc_hasMax H) (hc_maxIdx H) (hc_hasMin H) (hc_minIdx H)
      (hc_sMax H) (hc_vHoming H) (hc_vSlow H) [s; s; s].
