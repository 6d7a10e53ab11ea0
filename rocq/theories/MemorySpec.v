(** What the controller remembers of earlier motions, and what it does with the
    spindle and coolant settings of a motion: specification, independent of the proofs. *)
Require Import List NArith ZArith Bool.
From Verif Require Import Base EventModel StepModel Num MotionModel CtrlModel CtrlSpec.
Import ListNotations.

Section Memory.
Context {D F : Type}.

(** Two motions that differ at most in spindle speed, spindle direction and coolant. *)
Record differ_in_spindle_or_coolant (m m' : smotion D) : Prop := {
  ds_type : sm_type m = sm_type m'; ds_length : sm_length m = sm_length m';
  ds_start : sm_start m = sm_start m'; ds_delta : sm_delta m = sm_delta m';
  ds_arc0 : sm_arc0 m = sm_arc0 m'; ds_arc1 : sm_arc1 m = sm_arc1 m';
  ds_center0 : sm_center0 m = sm_center0 m'; ds_center1 : sm_center1 m = sm_center1 m';
  ds_radius : sm_radius m = sm_radius m'; ds_startAngle : sm_startAngle m = sm_startAngle m';
  ds_deltaAngle : sm_deltaAngle m = sm_deltaAngle m'; ds_vFeed : sm_vFeed m = sm_vFeed m';
  ds_duration : sm_duration m = sm_duration m' }.

(** The same calls, but for the spindle and coolant settings of the motions. *)
Inductive same_but_settings : c_op D F -> c_op D F -> Prop :=
| sb_append m m' : differ_in_spindle_or_coolant m m' -> same_but_settings (OAppend m) (OAppend m')
| sb_same o : same_but_settings o o.

(** All that leaves the controller: the records for the output timer, the
    position, the events, the state, the number of queued motions and the state of the
    output lines; [None]: undefined behaviour. *)
Record seen := mkSeen { se_records : list step; se_pos : list Z; se_events : list event; se_state : motionState;
  se_level : N; se_lines : sigs }.
Definition visible (r : res (ctrl F * list step)) : option seen :=
  match r with
  | UB => None
  | Ok (c, recs) => Some (mkSeen recs (c_pos c) (c_events c) (c_state c) (c_level c) (c_sig c))
  end.

(** A controller as it comes up, but with the position, the override, the output lines, the events
    and the high-water mark of [c]: nothing is left of the motions executed earlier. *)
Definition renewed (A : arith D F) (c : ctrl F) : ctrl F :=
  let z := nofZ (aF A) 0 in
  mkC ms_stopped (c_fo c) (mkST z z 0 (st_width (c_st c))) (repeat (mo_zero A) 32) 0 0 (c_levelMax c)
      (c_sig c) (c_pos c) (c_events c).

(** Only motions that move are appended: no dwell, and no motion of kind none. *)
Definition appends_moves (ops : list (c_op D F)) : Prop :=
  forall m, In (OAppend m) ops -> is_move (sm_type m) = true.
End Memory.

(** The settings programmed with a motion, as the queue stores them. *)
Definition programmed {D F} (A : arith D F) (m : smotion D) : periph F :=
  mkPer (sm_cw m) (d2f A (sm_spindle m)) (sm_flood m) (sm_mist m).
