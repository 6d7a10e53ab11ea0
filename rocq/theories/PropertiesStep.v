(** Step buffer and step signals: C11-C17, C54. *)
Require Import List Arith NArith ZArith Bool.
From Verif Require Import Base EventModel StepModel StepSpec StepBufferProofs StepSignalsProofs.
Import ListNotations.
Open Scope N_scope.

(** C11.  [W]: the entries put in by the constructor, then the written ones. *)
Theorem C11_step_timing : forall fuel minTotal minLevel b ops ldval,
  sb_construct fuel minTotal minLevel = Some b ->
  paced (sb_level b) ops ->
  (forall s, In (SbWrite s) ops -> 1 <= timeBefore s < two32) ->
  1 <= minTotal / minLevel < two32 ->
  let W := repeat (mkStep (minTotal / minLevel) 0) (N.to_nat (sb_level b)) ++ written ops in
  let rs := snd (sb_run b ops) in
  (forall k, (k < length rs)%nat -> signals (nth k rs dstep) = signals (nth k W dstep)) /\
  (forall k, (1 <= k)%nat -> (k < length rs)%nat ->
     nth k (gaps ldval rs) 0 = timeBefore (nth (S k) W dstep)).
Proof. exact step_timing_full_lemma. Qed.
Print Assumptions C11_step_timing.

(** C12: refuted.  No error is reported, yet one interval lasts 2^32 ticks
    instead of the written 100. *)
Theorem C12_late_is_reported_refuted :
  exists ops k,
  let '(b, rs) := sb_run sb0 ops in
  sb_lastError b = ev_none /\ (1 <= k < length rs)%nat /\
  nth k (gaps 100 rs) 0 = two32 /\ timeBefore (nth (S k) (W0 ++ written ops) dstep) = 100.
Proof. exact late_refuted_lemma. Qed.
Print Assumptions C12_late_is_reported_refuted.

(** C13: refuted.  The buffer says it needs no filling (1500 ticks) although only
    760 ticks of motion are buffered. *)
Theorem C13_buffered_time_refuted :
  exists ops, paced 4 ops /\
  let '(b, rs) := sb_run sb0 ops in
  sb_needsFilling b = false /\ sb_total b = 1500 /\
  remaining (W0 ++ written ops) (length rs) = 760.
Proof. exact overcount_refuted_lemma. Qed.
Print Assumptions C13_buffered_time_refuted.

(** C13, what is true: the exact relation between the reported and the real
    buffered time ... *)
Theorem C13_buffered_time_formula : forall ops,
  paced 4 ops -> (forall s, In s (written ops) -> timeBefore s < two32) ->
  let W := W0 ++ written ops in
  let '(b, rs) := sb_run sb0 ops in
  let k := length rs in
  remaining W k + 750 < two32 ->
  sb_total b + timeBefore (nth k W dstep) + timeBefore (nth (S k) W dstep) = remaining W k + 750.
Proof. exact written_total_lemma. Qed.
Print Assumptions C13_buffered_time_formula.

(** ... and the guarantee that remains: half of the configured time. *)
Theorem C13_buffered_time_lower_bound : forall ops,
  paced 4 ops -> (forall s, In s (written ops) -> timeBefore s < two32) ->
  let W := W0 ++ written ops in
  let '(b, rs) := sb_run sb0 ops in
  remaining W (length rs) + 750 < two32 ->
  sb_needsFilling b = false ->
  750 <= remaining W (length rs) /\ (4 <= length W - length rs)%nat.
Proof. exact remaining_lower_lemma. Qed.
Print Assumptions C13_buffered_time_lower_bound.

(** C14 *)
Theorem C14_ring_discipline : forall fuel minTotal minLevel b ops,
  sb_construct fuel minTotal minLevel = Some b ->
  snd (sbq_run b ops) = snd (sq_run (mkSq (repeat 0 (N.to_nat (sb_level b))) (sb_lastError b)) ops) /\
  sb_needsFilling b = false.
Proof. exact stepbuffer_ring_lemma. Qed.
Print Assumptions C14_ring_discipline.

(** Termination of the constructor's filling loop, for valid settings ... *)
Theorem C14_construct_terminates : forall n minTotal minLevel,
  0 < minLevel -> (n <= 256)%nat -> minTotal < two32 / 2 ->
  minLevel <= N.of_nat n -> minTotal <= N.of_nat n * (minTotal / minLevel) ->
  exists b, sb_construct n minTotal minLevel = Some b.
Proof. exact construct_terminates_lemma. Qed.
Print Assumptions C14_construct_terminates.

(** ... and its non-termination when the quotient of the settings is zero. *)
Theorem C14_construct_diverges : forall fuel minTotal minLevel,
  0 < minTotal -> minTotal < minLevel -> sb_construct fuel minTotal minLevel = None.
Proof. exact construct_diverges_lemma. Qed.
Print Assumptions C14_construct_diverges.

(** C15: for commands spaced by at least one tick, the driver sees exactly the
    commanded steps (one more idle tick lets the last pulse out). *)
Theorem C15_pulses : forall m css a, a < nmbrAxis -> spaced (cmd_at (N.to_nat a) css) ->
  pulses a false (pins_of m (css ++ [[]])) = commanded (cmd_at (N.to_nat a) css).
Proof. exact pulses_spaced_lemma. Qed.
Print Assumptions C15_pulses.

(** C15: shape and set-up time of each pulse, for all command sequences. *)
Theorem C15_pulse_shape : forall m css a n, a < nmbrAxis -> (S n < length css)%nat ->
  let pin i := nth i (pins_of m css) 0 in
  step_pin a (pin n) = true ->
  exists k, n = S k /\
    step_pin a (pin k) = false /\ step_pin a (pin (S n)) = false /\
    dir_pin a (pin k) = dir_pin a (pin n) /\
    exists d, nth (N.to_nat a) (nth k css []) None = Some d /\
              dir_pin a (pin n) = match d with Bwd => true | Fwd => false end.
Proof. exact pulse_shape_lemma. Qed.
Print Assumptions C15_pulse_shape.

(** C15: the complete waveform of both pins of every axis; the direction pin
    only changes when a step is commanded. *)
Theorem C15_waveform : forall m css a, a < nmbrAxis ->
  map (step_pin a) (pins_of m css) = step_wave false (cmd_at (N.to_nat a) css) /\
  map (dir_pin a) (pins_of m css) = dir_wave false (cmd_at (N.to_nat a) css).
Proof. exact waveform_lemma. Qed.
Print Assumptions C15_waveform.

(** C15: no other pin is ever driven. *)
Theorem C15_other_pins_low : forall m css k p, 2 * nmbrAxis <= k ->
  (forall cs, In cs css -> (length cs <= N.to_nat nmbrAxis)%nat) ->
  In p (pins_of m css) -> N.testbit p k = false.
Proof. exact other_pins_lemma. Qed.
Print Assumptions C15_other_pins_low.

(** C16 *)
Theorem C16_records : forall m css, m < two32 ->
  exists p n, pins_of m css = replay 0 (recs_of m css) ++ repeat p n /\
    p = last (map signals (recs_of m css)) 0 /\ N.of_nat n < N.max 1 m /\
    (forall s, In s (recs_of m css) -> 1 <= timeBefore s <= N.max 1 m).
Proof. exact records_lemma. Qed.
Print Assumptions C16_records.

(** C17: refuted. *)
Theorem C17_consecutive_refuted :
  exists css, pulses 0 false (pins_of 375 (css ++ [[]])) = [Fwd] /\
    commanded (cmd_at 0 css) = [Fwd; Fwd; Fwd].
Proof. exact consecutive_refuted_lemma. Qed.
Print Assumptions C17_consecutive_refuted.

(** C17, what is true: exactly the commands followed by another one on the next
    tick are lost. *)
Theorem C17_lost_steps : forall m css a, a < nmbrAxis ->
  pulses a false (pins_of m (css ++ [[]])) = unshadowed (cmd_at (N.to_nat a) css).
Proof. exact pulses_exact_lemma. Qed.
Print Assumptions C17_lost_steps.

(** C54: refuted for dense streams ... *)
Theorem C54_fill_drops_refuted :
  exists ops, irq_paced sb0 ops /\
    (forall s, In (FIter s) ops -> 1 <= timeBefore s) /\
    sb_lastError (fold_left fill_step ops sb0) = stepBufferOverflow.
Proof. exact fill_drops_refuted_lemma. Qed.
Print Assumptions C54_fill_drops_refuted.

(** ... true when signal changes are at least three ticks apart. *)
Theorem C54_fill_no_drop : forall ops,
  (forall s, In (FIter s) ops -> 3 <= timeBefore s <= 1000000) ->
  irq_paced sb0 ops ->
  sb_lastError (fold_left fill_step ops sb0) = ev_none.
Proof. exact fill_no_drop_lemma. Qed.
Print Assumptions C54_fill_no_drop.

(** C57: refuted.  The guard lets the first non-existent axis through: pin 6
    (beyond the six step/direction pins) is driven. *)
Theorem C57_invalid_axis_ignored_refuted :
  exists axis, nmbrAxis <= axis /\
  N.testbit (sg_dirSetup (sg_next (sg_stepForward sg_zero axis))) 6 = true.
Proof. exact invalid_axis_refuted_lemma. Qed.
Print Assumptions C57_invalid_axis_ignored_refuted.

Theorem C57_invalid_axis_ignored_above : forall g axis, nmbrAxis < axis ->
  sg_stepForward g axis = g /\ sg_stepBackward g axis = g.
Proof. exact invalid_axis_lemma. Qed.
Print Assumptions C57_invalid_axis_ignored_above.
