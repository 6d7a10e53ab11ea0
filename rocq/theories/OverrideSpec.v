(** * Vocabulary for changes of the feed override *)
Require Import List Reals.
From Verif Require Import Base Num NumR MotionModel CtrlModel CtrlSpec GeomSpec RunSpec.
Import ListNotations.
Open Scope R_scope.

(** The controller with another value of the feed override. *)
Definition with_override {F} (c : ctrl F) (fo : F) : ctrl F :=
  mkC (c_state c) fo (c_st c) (c_items c) (c_head c) (c_level c) (c_levelMax c) (c_sig c) (c_pos c) (c_events c).

(** What the main loop does while a program runs (and resetting the position or discarding
    the queue), as opposed to queueing motions, start() and stop(). *)
Definition goes_on {D F} (o : c_op D F) : Prop :=
  match o with OCalc | OReset | OFlush => True | _ => False end.

(** [o] is executed as the leg [l]: it takes the time of the leg, without a stop, and at every
    moment of it the distance along the path and the position of every axis are those of the leg. *)
Record executed (o : motion xr) (l : leg) : Prop := {
  ex_time : p_duration (mo_prof o) = XF (lg_T l);
  ex_stop : p_tStop (mo_prof o) = XP;
  ex_dist : forall t, 0 <= t <= lg_T l -> p_s x_num (mo_prof o) (XF t) = XF (lg_s l t);
  ex_place : forall i s, (i < 3)%nat -> mo_position x_arith o i (XF s) = XF (path_pos (lg_path l) i s) }.
