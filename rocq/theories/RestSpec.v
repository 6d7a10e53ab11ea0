(** Specification for C87 and C88: speeds at the ends of the queued motions, and the pulses sent so far. *)
Require Import List Arith NArith ZArith Bool.
From Verif Require Import Base StepModel StepSpec Num MotionModel CtrlModel CtrlSpec.
Import ListNotations.

(** A queued motion consists of an acceleration, a part at constant speed and a
    deceleration: the speed it enters with and the speed it leaves with. *)
Definition entry_speed {F} (o : motion F) : F := ad_vStart (p_left (mo_prof o)).
Definition exit_speed {F} (o : motion F) : F := ad_vEnd (p_right (mo_prof o)).

(** The queued motions meet at rest: each one (dwells apart, which have no speed) leaves
    with speed 0, and each one but the first, which may be under way, enters with speed 0. *)
Definition meet_at_rest {D F} (A : arith D F) (c : ctrl F) : Prop :=
  forall k o, nth_error (queue A c) k = Some o -> is_move (mo_type o) = true ->
    exit_speed o = nofZ (aF A) 0 /\ (k <> 0%nat -> entry_speed o = nofZ (aF A) 0).

(** The net number of pulses the records make on axis [a], all pins being low before. *)
Definition net_pulses (a : N) (recs : list step) : Z := net_dirs (pulses a false (replay 0 recs)).
(** The ticks the records take. *)
Definition time_of (recs : list step) : N := fold_right (fun s n => (timeBefore s + n)%N) 0%N recs.
