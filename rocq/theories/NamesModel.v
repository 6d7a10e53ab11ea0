(** Model of the toString functions of the enumerations shown in logs and
    messages (event's own is in EventModel). *)
Require Import String.
From Verif Require Import EventModel MotionModel CtrlModel HomingModel.
From Verif Require GcodeModel.
Local Open Scope string_scope.

(** lib/motion/motionstrategy.cpp:3-15 *)
Definition strategy_toString (s : motionStrategy) : string :=
  match s with minimizeSpeed => "minimizeSpeed" | maximizeSpeed => "minimizeSpeed" end.
(** lib/motion/motionstate.cpp:3-19 *)
Definition motionState_toString (s : motionState) : string :=
  match s with ms_running => "running" | ms_stopping => "stopping" | ms_stopped => "stopped" end.
(** lib/motion/motiontype.cpp:3-31 *)
Definition motionType_toString (t : motionType) : string :=
  match t with
  | traverse => "traverse" | feedLinear => "feedLinear" | feedHelicalCW => "feedHelicalCW"
  | feedHelicalCCW => "feedHelicalCCW" | pauseAndResume => "pauseAndResume" | pause => "pause"
  | mt_none => "none"
  end.
(** lib/motion/motioncalculatedirection.cpp:11-23 *)
Definition calcDir_toString (d : calcDir) : string :=
  match d with cd_forward => "forward" | cd_reverse => "reverse" end.
(** lib/motion/speedprofileorder.cpp:3-15 *)
Definition order_toString (o : profileOrder) : string :=
  match o with firstOrder => "1st order" | secondOrder => "2nd order" end.
(** lib/maincontroller/homingstate.cpp:3-34 *)
Definition homingState_toString (s : homingState) : string :=
  match s with
  | hs_lost => "lost" | hs_stopping => "stopping" | hs_closing => "closing"
  | hs_closedWaitForStop => "closedWaitForStop" | hs_opening => "opening"
  | hs_openedWaitForStop => "openedWaitForStop" | hs_offsettingWaitForStop => "offsettingWaitForStop"
  | hs_found => "found"
  end.
(** lib/maincontroller/mainstate.h and mainstate.cpp:3-25 *)
Inductive mainState := main_ready | main_homing | main_probing | main_running | main_error.
Definition mainState_toString (s : mainState) : string :=
  match s with
  | main_ready => "ready" | main_homing => "homing" | main_probing => "probing"
  | main_running => "running" | main_error => "error"
  end.
(** lib/maincontroller/probingstate.h and probingstate.cpp:3-18 *)
Inductive probingState := probing_lost | probing_search | probing_found.
Definition probingState_toString (s : probingState) : string :=
  match s with probing_lost => "lost" | probing_search => "search" | probing_found => "found" end.
(** lib/hostinterface/hostinterfaceerror.{h,cpp} *)
Inductive hostError := host_none | host_underflow | host_overflow.
Definition hostError_toString (e : hostError) : string :=
  match e with host_none => "none" | host_underflow => "underflow" | host_overflow => "overflow" end.
(** lib/general/rotationdirection.{h,cpp} *)
Inductive rotation := clockwise | counterClockwise.
Definition rotation_toString (r : rotation) : string :=
  match r with clockwise => "clockwise" | counterClockwise => "counterClockwise" end.
(** lib_target/cnc3axis/general/plane.{h,cpp}, axis.{h,cpp}; the count
    enumerators nmbrPlanes and nmbrAxis are left out *)
Inductive planeName := plane_XY | plane_YZ | plane_ZX.
Definition plane_toString (p : planeName) : string :=
  match p with plane_XY => "XY" | plane_YZ => "YZ" | plane_ZX => "ZX" end.
Inductive axisName := axis_X | axis_Y | axis_Z.
Definition axis_toString (a : axisName) : string :=
  match a with axis_X => "X" | axis_Y => "Y" | axis_Z => "Z" end.

(** lib/gcode/gcodeparseerror.cpp:3-77 *)
Definition parseError_toString (e : GcodeModel.perror) : string :=
  match e with
  | GcodeModel.ENone => "None" | GcodeModel.TooManyWordsInBlock => "TooManyWordsInBlock"
  | GcodeModel.InvalidArcParameters => "InvalidArcParameters"
  | GcodeModel.ModalGroupCollision => "ModalGroupCollision"
  | GcodeModel.ValueWordCollision => "ValueWordCollision"
  | GcodeModel.InvalidLineNumber => "InvalidLineNumber" | GcodeModel.InvalidFeedrate => "InvalidFeedrate"
  | GcodeModel.MissingFeedrate => "MissingFeedrate" | GcodeModel.InvalidSpindleSpeed => "InvalidSpindleSpeed"
  | GcodeModel.MissingPForG4 => "MissingPForG4" | GcodeModel.InvalidDwellTime => "InvalidDwellTime"
  | GcodeModel.MissingLForG10 => "MissingLForG10" | GcodeModel.MissingPForG10 => "MissingPForG10"
  | GcodeModel.InvalidPForG10 => "InvalidPForG10" | GcodeModel.MissingAxisWord => "MissingAxisWord"
  | GcodeModel.MissingOffsetWord => "MissingOffsetWord"
  | GcodeModel.UnsupportedgCodeWord => "UnsupportedgCodeWord"
  | _ => "unknown"
  end.

(** lib/gcode/gcodeparseresulttype.cpp:3-19 *)
Definition resultType_toString (r : GcodeModel.presult) : string :=
  match r with
  | GcodeModel.EmptyBlock => "EmptyBlock" | GcodeModel.OkContextUpdateOnly => "OkContextUpdateOnly"
  | GcodeModel.OkContextUpdateAndMotion => "OkContextUpdateAndMotion" | _ => "unknown"
  end.
