(** Properties about what the controller remembers, and about spindle and coolant. *)
Require Import List NArith ZArith Bool.
From Verif Require Import Base EventModel StepModel Num NumSF MotionModel CtrlModel CtrlSpec MemorySpec MemoryProofs MemoryWitness.
Import ListNotations.

(** C90: refuted, for every machine and arithmetic and for every history.  Changing the spindle speed, the
    spindle direction and the coolant of any of the motions changes nothing that leaves
    the controller: nothing switches the spindle or the coolant. *)
Theorem C90_settings_refuted : forall D F (A : arith D F) (M : machine F) m width ops ops',
  Forall2 same_but_settings ops ops' ->
  visible (c_run A M (c_init A m width) ops) = visible (c_run A M (c_init A m width) ops').
Proof. exact @no_effect. Qed.
Print Assumptions C90_settings_refuted.
(** What is true: the settings stay with their motion while it is queued.  [aq_q a] are the
    motions that were accepted and not yet completed or flushed, oldest first. *)
Theorem C90_carried_partial : forall D F (A : arith D F) (M : machine F) m width ops (c : ctrl F) recs,
  stops_guarded A M (c_init A m width) ops -> c_run A M (c_init A m width) ops = Ok (c, recs) ->
  exists a, aq_run aq0 ops (c_events c) a /\ map mo_per (queue A c) = map (programmed A) (aq_q a).
Proof. exact @carried. Qed.
Print Assumptions C90_carried_partial.
Example C90_hypotheses : forall X, let A := sf_arith X in let M := cnc3axis A in
  let m := linX A 10 10 in let m' := with_spindle A m in
  same_but_settings (F:=sf) (OAppend m) (OAppend m') /\ sm_flood m = false /\ sm_flood m' = true /\ sm_cw m = true /\ sm_cw m' = false /\
  exists c recs, c_run A M (c_init A 4 (tickWidth A)) [OAppend m'; OStart; OCalc] = Ok (c, recs) /\ c_level c = 1%N.
Proof. exact spindle_example. Qed.

(** C91: refuted for dwells.  After some motion was stopped and flushed, the calls [ops'], a dwell of 0 s and a motion,
    run on; on a controller without a past at the same place, the same calls stop before the motion. *)
Theorem C91_dwell_refuted : forall X, let A := sf_arith X in let M := cnc3axis A in let c0 := c_init A 4 (tickWidth A) in
  exists ops c recs ops', stops_guarded A M c0 ops /\ c_run A M c0 ops = Ok (c, recs) /\ c_level c = 0%N /\ stops_guarded A M c ops' /\
    (exists d r, c_run A M c ops' = Ok (d, r) /\ c_state d = ms_running /\ c_level d = 1%N) /\
    (exists d r, c_run A M (renewed A c) ops' = Ok (d, r) /\ c_state d = ms_stopped /\ c_level d = 1%N).
Proof. exact dwell_trace. Qed.
Print Assumptions C91_dwell_refuted.
(** C91, what is true: whenever the queue is empty, after any history of motions, dwells, stops and flushes, the controller
    does with any further calls that append only moving motions just what a controller
    without a past would do from the same position. *)
Theorem C91_no_trace_partial : forall D F (A : arith D F) (M : machine F) m width ops (c : ctrl F) recs ops',
  stops_guarded A M (c_init A m width) ops -> c_run A M (c_init A m width) ops = Ok (c, recs) -> c_level c = 0%N ->
  appends_moves ops' -> stops_guarded A M c ops' ->
  visible (c_run A M c ops') = visible (c_run A M (renewed A c) ops').
Proof. exact @no_trace. Qed.
Print Assumptions C91_no_trace_partial.
Example C91_hypotheses : forall X, let A := sf_arith X in let M := cnc3axis A in let c0 := c_init A 4 (tickWidth A) in
  exists c recs, stops_guarded A M c0 (stopped_early X) /\ c_run A M c0 (stopped_early X) = Ok (c, recs) /\ c_level c = 0%N /\
    appends_moves (just_go X) /\ stops_guarded A M c (just_go X) /\
    exists d r, c_run A M c (just_go X) = Ok (d, r) /\ c_state d = ms_running /\ c_level d = 1%N.
Proof. exact moves_example. Qed.
