(** Step output in real time: C68, C69. *)
Require Import List Arith NArith ZArith Bool.
From Verif Require Import Base EventModel StepModel StepSpec Num NumSF MotionModel CtrlModel CtrlSpec FlowModel FlowSpec FlowProofs FlowDenseProofs FlowWitness.
Import ListNotations.
Open Scope N_scope.

(** C68: refuted for the lead time of 25 ms the firmware is configured for (1500
    ticks): one delay of 12 ms and the pins stand still for 20 hours, without an
    error. *)
Theorem C68_lead_time_refuted :
  exists css ops, few css /\ let recs := recs_of 375 css in
    prompt (stream recs) 1500 0 (flow_init sb0) ops /\
    let '(f, pins) := flow_run (stream recs) (flow_init sb0) ops in
    (fl_n f <= length recs)%nat /\ sb_lastError (fl_b f) = ev_none /\ 4000000000 < fl_count f /\
    ~ exists x, repeat 0 952 ++ pins_of 375 css = pins ++ x.
Proof. exact late_refuted. Qed.
Print Assumptions C68_lead_time_refuted.

(** C68, what is true: if the buffer is found filled at least every 376 ticks (6.3
    ms), the pins follow the commands tick by tick, 952 ticks (15.9 ms) later, for
    all command sequences of moderate density. *)
Theorem C68_real_time : forall css ops, few css ->
  let recs := recs_of 375 css in
  prompt (stream recs) 376 0 (flow_init sb0) ops ->
  let '(f, pins) := flow_run (stream recs) (flow_init sb0) ops in
  (fl_n f <= length recs)%nat ->
  sb_lastError (fl_b f) = ev_none /\ length pins = ticks_in ops /\ exists x, repeat 0 952 ++ pins_of 375 css = pins ++ x.
Proof. exact real_time_lemma. Qed.
Print Assumptions C68_real_time.

(** The same for endless streams of records. *)
Theorem C68_real_time_records : forall src, bounded src -> sparse src ->
  forall ops, prompt src 376 0 (flow_init sb0) ops ->
  let '(f, pins) := flow_run src (flow_init sb0) ops in
  sb_lastError (fl_b f) = ev_none /\ exists x, repeat 0 952 ++ replay 0 (first src (fl_n f)) = pins ++ x.
Proof. exact flow_lemma. Qed.
Print Assumptions C68_real_time_records.

(** From the controller's step counters to the pins in real time, whatever the
    arithmetic. *)
Theorem C68_controller_real_time : forall D F (A : arith D F) (M : machine F) width ops1 ops2 (c1 c2 : ctrl F) recs1 recs2,
  c_run A M (c_init A 375 width) ops1 = Ok (c1, recs1) -> (ops1 = [] \/ exists l, ops1 = l ++ [OReset]) ->
  c_run A M c1 ops2 = Ok (c2, recs2) -> no_reset ops2 ->
  exists css1 css2, recs1 = recs_of 375 css1 /\ recs1 ++ recs2 = recs_of 375 (css1 ++ css2) /\
    (forall a, (a < 3)%nat -> nth a (c_pos c2) 0%Z = net (cmd_at a css2)) /\
    (few (css1 ++ css2) -> forall ops, prompt (stream (recs1 ++ recs2)) 376 0 (flow_init sb0) ops ->
     let '(f, pins) := flow_run (stream (recs1 ++ recs2)) (flow_init sb0) ops in
     (fl_n f <= length (recs1 ++ recs2))%nat ->
     sb_lastError (fl_b f) = ev_none /\ length pins = ticks_in ops /\
     exists x, repeat 0 952 ++ pins_of 375 (css1 ++ css2) = pins ++ x).
Proof. exact controller_real_time. Qed.
Print Assumptions C68_controller_real_time.

(** A step on X every 50 ticks, the main loop busy elsewhere for 300 ticks (5 ms)
    at a time. *)
Example C68_run : few slow_css /\ let recs := recs_of 375 slow_css in
  prompt (stream recs) 376 0 (flow_init sb0) good_ops /\
  let '(f, pins) := flow_run (stream recs) (flow_init sb0) good_ops in
  (fl_n f <= length recs)%nat /\ length pins = 1800%nat /\ pulses 0 false pins = repeat Fwd 17.
Proof. exact good_lemma. Qed.

(** C69: refuted.  A fast traverse with all three axes (G0 X48 Y45 Z36, in single
    precision, on the machine of the code with a higher acceleration): the buffer of 256 entries cannot hold
    the 750 ticks the main loop wants in it, so it overflows and records are lost. *)
Theorem C69_capacity_refuted : forall X, let A := sf_arith X in
  exists c recs, c_run A (quick3axis A) (c_init A 375 (tickWidth A)) (OAppend (trav3 A) :: OStart :: repeat OCalc 510) = Ok (c, recs) /\
  let '(f, pins) := flow_run (stream recs) (flow_init sb0) eager_ops in
  (fl_n f <= length recs)%nat /\ sb_lastError (fl_b f) = stepBufferOverflow /\
  ~ exists x, repeat 0 952 ++ replay 0 recs = pins ++ x.
Proof. exact overflow_lemma. Qed.
Print Assumptions C69_capacity_refuted.

(** C69, what is true: commands of moderate density never take 253 records or more
    in less than 750 ticks. *)
Theorem C69_records_needed : forall css a b c, few css ->
  recs_of 375 css = a ++ b ++ c -> (253 <= length b)%nat -> 750 <= sum_times b.
Proof. exact dense_lemma. Qed.
Print Assumptions C69_records_needed.

(** A step of one axis every ten ticks (full speed), each with its direction set-up,
    rise and fall, is of moderate density. *)
Example C69_full_speed : few fast_css /\ (253 <= length (recs_of 375 fast_css))%nat.
Proof. exact fast_lemma. Qed.
