(** Stopping and resuming: C73. *)
Require Import List Arith NArith ZArith Bool.
From Verif Require Import Base EventModel StepModel StepSpec Num NumSF MotionModel CtrlModel CtrlSpec StopWitness.
Import ListNotations.
Open Scope N_scope.

(** C73: refuted.  The 3-axis machine, in binary arithmetic.  A traverse over
    0.015 mm; it has made 2 of its 3 steps and slows down.  A stop request now makes
    the controller go wrong. *)
Theorem C73_stop_braking_refuted : forall X, let A := sf_arith X in let M := cnc3axis A in
  exists c recs, c_run A M (c_init A 375 (tickWidth A)) (started A 15 3) = Ok (c, recs) /\ c_state c = ms_running /\ nth 0 (c_pos c) 0%Z = 2%Z /\
    c_run A M c (OStop :: repeat OCalc 4) = UB.
Proof. exact stop_braking_lemma. Qed.
Print Assumptions C73_stop_braking_refuted.

(** A traverse over 0.025 mm, 5 steps, stopped while it speeds up: it goes on to
    step 6, beyond its end, and is reported as completed. *)
Theorem C73_stop_overshoot_refuted : forall X, let A := sf_arith X in let M := cnc3axis A in
  exists c recs c' recs', c_run A M (c_init A 375 (tickWidth A)) (started A 25 3) = Ok (c, recs) /\ c_state c = ms_running /\
    nth 0 (c_pos c) 0%Z = 2%Z /\ c_run A M c (OStop :: repeat OCalc 20) = Ok (c', recs') /\
    c_state c' = ms_stopped /\ c_level c' = 0 /\ nth 0 (c_pos c') 0%Z = 6%Z.
Proof. exact stop_overshoot_lemma. Qed.
Print Assumptions C73_stop_overshoot_refuted.

(** The traverse over 0.015 mm again, stopped later while it slows down: it comes to
    rest and stays in the queue, but the next start goes wrong. *)
Theorem C73_resume_refuted : forall X, let A := sf_arith X in let M := cnc3axis A in
  exists c recs c' recs', c_run A M (c_init A 375 (tickWidth A)) (started A 15 5) = Ok (c, recs) /\ c_state c = ms_running /\
    c_run A M c (OStop :: repeat OCalc 8) = Ok (c', recs') /\ c_state c' = ms_stopped /\ c_level c' = 1 /\
    c_run A M c' [OStart; OCalc] = UB.
Proof. exact resume_lemma. Qed.
Print Assumptions C73_resume_refuted.
