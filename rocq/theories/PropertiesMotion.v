(** Motion controller: C18-C26, C33. *)
Require Import List Arith NArith ZArith Bool Reals Lra.
From Verif Require Import Base EventModel StepModel StepSpec Num NumSF NumR MotionModel CtrlModel CtrlSpec CtrlRSpec.
From Verif Require Import CtrlProofs CtrlQueueProofs CtrlStopProofs CtrlIdleProofs CtrlTrackProofs CtrlTimeProofs.
Import ListNotations.
Open Scope N_scope.

(** C18.  Axis [i] of a machine with [k] steps per mm follows the positions [xs]
    (in steps, one per tick).  Starting within 0.55 step of [x0] and moving at
    most one step per tick, the counter is within 0.55 step after every tick
    (take [xs] to be any initial part of the trajectory). *)
Theorem C18_tracking_error : forall M k i, nthF x_arith (m_stepsPerMm M) i = XF k -> k <> 0%R -> (i < 3)%nat ->
  forall xs x0 (c : ctrl xr), length (c_pos c) = 3%nat -> (Rabs (x0 - pos_of c i) <= 55/100)%R ->
  rate_le 1 x0 xs -> Forall in_range xs ->
  exists c' cmds, track x_arith M c i (to_mm k xs) = Ok (c', cmds) /\
    (Rabs (last xs x0 - pos_of c' i) <= 55/100)%R /\ length (c_pos c') = 3%nat.
Proof. exact track_lemma. Qed.
Print Assumptions C18_tracking_error.

Example C18_hypotheses :
  let M := cnc3axis x_arith in
  let c := c_init x_arith 375 (tickWidth x_arith) in
  nthF x_arith (m_stepsPerMm M) 0 = XF 200 /\ (200 <> 0)%R /\ length (c_pos c) = 3%nat /\
  (Rabs (0.3 - pos_of c 0) <= 55/100)%R /\ rate_le 1 0.3 [1.2; 2.2; 1.9]%R /\ Forall in_range [1.2; 2.2; 1.9]%R.
Proof.
  cbv zeta. split; [reflexivity|]. split; [lra|]. split; [reflexivity|].
  split. { unfold pos_of. cbn [c_pos c_init nth map axes]. apply Rabs_le. lra. }
  split. { cbn [rate_le]. repeat split; apply Rabs_le; lra. }
  repeat (constructor; [unfold in_range; apply Rabs_le; lra|]). constructor.
Qed.

(** C19.  A forward and a backward step are never due at the same time, ... *)
Theorem C19_exclusive : forall M (c : ctrl xr) i mm,
  needStepForward x_arith M c i mm = Ok true -> needStepBackward x_arith M c i mm = false.
Proof. exact exclusive_lemma. Qed.
Print Assumptions C19_exclusive.

(** ... and as long as the commanded position moves within less than 0.1 step, the
    axis never steps in both directions, ... *)
Theorem C19_no_chatter : forall M k i lo (c c' : ctrl xr) xs cmds,
  nthF x_arith (m_stepsPerMm M) i = XF k -> k <> 0%R -> (i < 3)%nat ->
  length (c_pos c) = 3%nat -> Forall in_range xs -> (forall x, In x xs -> lo <= x < lo + 1/10)%R ->
  track x_arith M c i (to_mm k xs) = Ok (c', cmds) -> ~ (In (Some Fwd) cmds /\ In (Some Bwd) cmds).
Proof. exact one_direction_track. Qed.
Print Assumptions C19_no_chatter.

(** ... and steps at most once. *)
Theorem C19_at_most_one_step : forall M k i lo (c c' : ctrl xr) x0 xs cmds,
  nthF x_arith (m_stepsPerMm M) i = XF k -> k <> 0%R -> (i < 3)%nat ->
  length (c_pos c) = 3%nat -> Forall in_range xs -> (forall x, In x (x0 :: xs) -> lo <= x < lo + 1/10)%R ->
  (Rabs (x0 - pos_of c i) <= 55/100)%R ->
  track x_arith M c i (to_mm k xs) = Ok (c', cmds) -> (length (commanded cmds) <= 1)%nat.
Proof. exact at_most_one_track. Qed.
Print Assumptions C19_at_most_one_step.

(** C20: refuted.  Below half a step per tick, but reversing: two commands in
    consecutive ticks (the second pulse cannot be emitted). *)
Theorem C20_pulse_spacing_refuted : forall M k i (c : ctrl xr),
  nthF x_arith (m_stepsPerMm M) i = XF k -> k <> 0%R -> (i < 3)%nat ->
  length (c_pos c) = 3%nat -> nth i (c_pos c) 0%Z = 0%Z ->
  exists x0 xs c', (Rabs (x0 - pos_of c i) <= 55/100)%R /\ Forall in_range xs /\ rate_lt (1/2) x0 xs /\
    track x_arith M c i (to_mm k xs) = Ok (c', [Some Fwd; Some Bwd]).
Proof. exact spacing_refuted. Qed.
Print Assumptions C20_pulse_spacing_refuted.

(** C20 with the extra hypothesis that the rate changes by less than 0.1 step
    per tick from one tick to the next. *)
Theorem C20_pulse_spacing_smooth : forall M k i (c c' : ctrl xr) x0 xs cmds,
  nthF x_arith (m_stepsPerMm M) i = XF k -> k <> 0%R -> (i < 3)%nat ->
  length (c_pos c) = 3%nat -> Forall in_range xs -> (Rabs (x0 - pos_of c i) <= 55/100)%R ->
  rate_lt (1/2) x0 xs -> smooth (1/10) x0 xs ->
  track x_arith M c i (to_mm k xs) = Ok (c', cmds) -> spaced cmds.
Proof. exact spaced_track. Qed.
Print Assumptions C20_pulse_spacing_smooth.

Example C20_hypotheses : (rate_lt (1/2) 0 [0.05; 0.14; 0.3; 0.5; 0.75] /\ smooth (1/10) 0 [0.05; 0.14; 0.3; 0.5; 0.75])%R.
Proof. cbn [rate_lt smooth]. repeat split; apply Rabs_def1; lra. Qed.

(** C21.  Whatever the arithmetic: since start-up or the last reset, the position
    of each axis is the number of forward minus backward step commands given to
    the output stage, and the records produced replay to exactly the pin states
    of these commands. *)
Theorem C21_position_counts_steps : forall D F (A : arith D F) (M : machine F) m width ops1 ops2 (c1 c2 : ctrl F) recs1 recs2,
  c_run A M (c_init A m width) ops1 = Ok (c1, recs1) ->
  (ops1 = [] \/ exists l, ops1 = l ++ [OReset]) ->
  c_run A M c1 ops2 = Ok (c2, recs2) -> no_reset ops2 ->
  exists css1 css2,
    recs1 = recs_of m css1 /\ recs1 ++ recs2 = recs_of m (css1 ++ css2) /\
    (forall a, (a < 3)%nat -> nth a (c_pos c2) 0%Z = net (cmd_at a css2)) /\
    (m < two32 -> pins_of m (css1 ++ css2) = replay 0 (recs1 ++ recs2)).
Proof. exact @position_counts_lemma. Qed.
Print Assumptions C21_position_counts_steps.

(** The pulses that leave on an axis whose commands are spaced are the commands
    in order, except that the newest may still be pending. *)
Theorem C21_pulses_are_commands : forall m css a, a < nmbrAxis -> spaced (cmd_at (N.to_nat a) css) ->
  exists pend, (length pend <= 1)%nat /\
   pulses a false (pins_of m css) ++ pend = commanded (cmd_at (N.to_nat a) css).
Proof. exact pulses_pending. Qed.
Print Assumptions C21_pulses_are_commands.

(** Binary32/binary64: 10 mm along X at 10 mm/s on the 3-axis machine.  After
    eight records the first steps have been made. *)
Example C21_run : forall X, let A := sf_arith X in
  match c_run A (cnc3axis A) (c_init A 375 (tickWidth A)) (OAppend (linX A 10 10) :: OStart :: repeat OCalc 8) with
  | Ok (c, recs) => c_pos c = [2; 0; 0]%Z /\ length recs = 8%nat /\ c_state c = ms_running
  | UB => False
  end.
Proof. intro X. vm_compute. repeat split. Qed.

(** C22.  From every reachable state one call ends, with a record of 1 to
    max(1, limit) ticks, unless a conversion overflows (UB). *)
Theorem C22_calc_terminates : forall D F (A : arith D F) (M : machine F) m width ops (c : ctrl F) recs, m < two32 ->
  c_run A M (c_init A m width) ops = Ok (c, recs) ->
  let n := N.to_nat (N.max 1 m) in
  c_calc A M n c = UB \/ exists c' s, c_calc A M n c = Ok (Some (c', s)) /\ 1 <= timeBefore s <= N.max 1 m.
Proof. exact @calc_terminates_lemma. Qed.
Print Assumptions C22_calc_terminates.

(** C23.  Every history in which stop() is called only with motions queued behaves
    like a plain list: accepted in order, at most 32, completed oldest first. *)
Theorem C23_queue_refines : forall D F (A : arith D F) (M : machine F) m width ops (c : ctrl F) recs,
  stops_guarded A M (c_init A m width) ops -> c_run A M (c_init A m width) ops = Ok (c, recs) ->
  exists a, aq_run aq0 ops (c_events c) a /\ Forall2 (holds A) (aq_q a) (queue A c) /\
    c_state c = aq_state a /\ (length (queue A c) <= 32)%nat /\
    (c_isRunning c = true -> queue A c <> []).
Proof. exact @queue_refines_lemma. Qed.
Print Assumptions C23_queue_refines.

(** Every appended motion is refused, completed or still queued. *)
Theorem C23_queue_counts : forall D F (A : arith D F) (M : machine F) m width ops (c : ctrl F) recs,
  stops_guarded A M (c_init A m width) ops -> no_flush ops -> c_run A M (c_init A m width) ops = Ok (c, recs) ->
  (count_appends ops = count_event motionBufferOverflow (c_events c) + count_event motionCompleted (c_events c)
     + length (queue A c))%nat.
Proof. exact @queue_counts_lemma. Qed.
Print Assumptions C23_queue_counts.

(** C24: refuted.  After stop() on an empty queue and one record, every append
    is refused. *)
Theorem C24_stop_harmless_refuted : forall X, let A := sf_arith X in let M := cnc3axis A in
  exists ops c recs, c_run A M (c_init A 375 (tickWidth A)) ops = Ok (c, recs) /\ c_state c = ms_stopped /\
    forall m, c_events (c_append A M c m) = c_events c ++ [motionBufferOverflow] /\
              c_append A M c m = c_emit c [motionBufferOverflow].
Proof. exact stop_harmless_refuted_lemma. Qed.
Print Assumptions C24_stop_harmless_refuted.

(** When stop() is only called with motions queued, it is harmless, whatever the arithmetic: the
    queue never holds more than 32 motions, a controller that is running has one, and
    whenever there is room a motion is appended behind the others, without an error. *)
Theorem C24_stop_harmless_partial : forall D F (A : arith D F) (M : machine F) m width ops (c : ctrl F) recs,
  stops_guarded A M (c_init A m width) ops -> c_run A M (c_init A m width) ops = Ok (c, recs) ->
  c_level c <= 32 /\ (c_state c <> ms_stopped -> c_level c <> 0) /\
  forall x, c_level c < 32 -> let c' := c_append A M c x in
    c_level c' = c_level c + 1 /\ c_events c' = c_events c /\
    exists o, queue A c' = queue A c ++ [o] /\ holds A x o.
Proof. exact @guarded_usable. Qed.
Print Assumptions C24_stop_harmless_partial.

(** Stopped soon after the start. *)
Example C24_guarded : forall X, let A := sf_arith X in let M := cnc3axis A in let ops := [OAppend (linX A 10 10); OStart; OCalc; OStop; OCalc] in
  stops_guarded A M (c_init A 375 (tickWidth A)) ops /\
  exists c recs, c_run A M (c_init A 375 (tickWidth A)) ops = Ok (c, recs) /\ c_level c = 1 /\ c_state c = ms_stopping.
Proof. exact guarded_stop. Qed.

(** C25.  A stopped controller changes nothing but its output stage: each further
    call returns; from the third on the record is a timeout record with constant
    pins and all step pins low. *)
Theorem C25_stopped_stays : forall D F (A : arith D F) (M : machine F) m width ops (c : ctrl F) recs k, m < two32 ->
  c_run A M (c_init A m width) ops = Ok (c, recs) -> c_state c = ms_stopped ->
  exists g recs' p, c_run A M c (repeat OCalc k) = Ok (c_with_sig c g, recs') /\ length recs' = k /\
    (forall a, a < 3 -> step_pin a p = false) /\
    forall i, (2 <= i < k)%nat -> nth i recs' dstep = mkStep (N.max 1 m) p.
Proof. exact @stopped_stays_lemma. Qed.
Print Assumptions C25_stopped_stays.

(** C26.  Exact arithmetic.  From a reachable running state whose clock reads [t],
    after any sequence of appends and records that leaves it moving: the motions
    completed in between, together with the time reached in the current motion,
    account for exactly the ticks output.  No time is lost or gained at the
    boundaries. *)
Theorem C26_no_time_lost : forall M m width ops0 c0 recs0 ops c recs w t,
  N.max 1 m < two32 ->
  stops_guarded x_arith M (c_init x_arith m width) ops0 ->
  c_run x_arith M (c_init x_arith m width) ops0 = Ok (c0, recs0) ->
  c_state c0 = ms_running -> clock c0 w t -> Forall notXM (queue x_arith c0) ->
  only_calc_append ops -> (forall mo, In (OAppend mo) ops -> timed M mo) ->
  st_index (c_st c0) + sum_times recs < two32 ->
  c_run x_arith M c0 ops = Ok (c, recs) -> c_state c <> ms_stopped ->
  exists new dn ds, queue x_arith c0 ++ new = dn ++ queue x_arith c /\ map duration_of dn = map XF ds /\
    Forall (fun o => exists m o0 fo s, In (OAppend m) ops /\ o = mo_set x_arith M o0 m fo s) new /\
    clock c w (t + IZR (Z.of_N (sum_times recs)) * w - rsum ds) /\
    (count_event motionCompleted (c_events c) = count_event motionCompleted (c_events c0) + length dn)%nat.
Proof. exact time_conserved_lemma. Qed.
Print Assumptions C26_no_time_lost.

(** C33: refuted, three ways, in binary32/binary64.  The first tick of a dwell and
    of a zero-length traverse is undefined; a motion with zero feed never ends. *)
Theorem C33_dwell_refuted : forall X, let A := sf_arith X in let M := cnc3axis A in
  c_run A M (c_init A 375 (tickWidth A)) [OAppend (dwell A 1); OStart; OCalc] = UB.
Proof. exact dwell_ub_lemma. Qed.
Print Assumptions C33_dwell_refuted.
Theorem C33_zero_length_refuted : forall X, let A := sf_arith X in let M := cnc3axis A in
  c_run A M (c_init A 375 (tickWidth A)) [OAppend (travX A 0); OStart; OCalc] = UB.
Proof. exact zero_length_ub_lemma. Qed.
Print Assumptions C33_zero_length_refuted.
Theorem C33_zero_feed_refuted : forall X, let A := sf_arith X in let M := cnc3axis A in forall k,
  exists c recs, c_run A M (c_init A 375 (tickWidth A))
     ([OAppend (linX A 10 0); OStart; OCalc] ++ repeat OCalc k) = Ok (c, recs) /\
    c_state c = ms_stopped /\ c_events c = [motionStarted; motionStopped] /\ c_level c = 1.
Proof. exact zero_feed_never_lemma. Qed.
Print Assumptions C33_zero_feed_refuted.

(** C33, what is true: with finite durations and no scheduled stop, running for
    longer than the sum of the durations completes every queued motion (or runs
    into an overflowing conversion). *)
Theorem C33_finite_motions_complete : forall M m width ops0 c0 recs0 w t ds n,
  stops_guarded x_arith M (c_init x_arith m width) ops0 ->
  c_run x_arith M (c_init x_arith m width) ops0 = Ok (c0, recs0) ->
  c_state c0 = ms_running -> clock c0 w t -> (0 < w)%R ->
  Forall2 finite_motion (queue x_arith c0) ds -> Forall (fun d => 0 <= d)%R ds ->
  (1 <= n)%nat -> st_index (c_st c0) + N.of_nat n < two32 -> (rsum ds < t + INR n * w)%R ->
  ticks_run x_arith M n c0 = UB \/
  exists c, ticks_run x_arith M n c0 = Ok c /\ c_state c = ms_stopped /\ queue x_arith c = [] /\
    exists k, c_events c = c_events c0 ++ repeat motionCompleted k ++ [motionStopped; motionCompleted; allMotionsCompleted]
      /\ S k = length ds.
Proof. exact completion_lemma. Qed.
Print Assumptions C33_finite_motions_complete.
