(** Properties of the ends of motions, and of what follows a stop: C87, C88. *)
Require Import String List Arith NArith ZArith Bool Reals.
From Coq Require Import Floats.SpecFloat.
From Verif Require Import Base StepModel StepSpec Num NumSF MotionModel CtrlModel CtrlSpec CtrlRSpec ProfileSpec GeomSpec RunSpec FloatSpec FloatRunSpec FloatArcSpec GcodeModel GText GWitness RestSpec RestProofs RestJobProofs FlushWitness.
Import ListNotations.
Open Scope R_scope.

(** C87.  In every arithmetic, after every history of calls: the queued motions meet at rest. *)
Theorem C87_motions_meet_at_rest : forall {D F : Type} (A : arith D F) M m width ops c recs,
  stops_guarded A M (c_init A m width) ops -> c_run A M (c_init A m width) ops = Ok (c, recs) -> meet_at_rest A c.
Proof. intros D F A M m width ops c recs. exact (meet_at_rest_lemma A M m width ops c recs). Qed.
Print Assumptions C87_motions_meet_at_rest.

(** Two motions are queued, and stopped while the first gains speed: from there it goes on
    with the speed it has. *)
Example C87_hypotheses : forall X, let A := sf_arith X in let M := cnc3axis A in let m := linX A 10 10 in
  let ops := [OAppend m; OAppend m; OStart; OCalc; OCalc; OStop] in
  stops_guarded A M (c_init A 375 (tickWidth A)) ops /\ exists c recs a b, c_run A M (c_init A 375 (tickWidth A)) ops = Ok (c, recs) /\ queue A c = [a; b] /\
    is_move (mo_type a) = true /\ is_move (mo_type b) = true /\ nltb (aF A) (nofZ (aF A) 0) (entry_speed a) = true.
Proof. exact moving_example. Qed.

(** C88 is false.  A program is stopped at once, before anything has moved, and discarded;
    then its next line is executed.  This starts where the discarded line would have ended:
    in 750 ticks 750 steps are counted, while not a single pulse is sent. *)
Theorem C88_restart_after_stop_refuted : forall X, let A := sf_arith X in let M := cnc3axis A in
  exists k1 m1 k2 m2 c recs c' recs',
    run X ["G1 X10 F600"]%string = Ok (k1, m1) /\ run X ["G1 X10 F600"; "G1 X20"]%string = Ok (k2, m2) /\
    c_run A M (c_init A 375 (tickWidth A)) [OAppend m1; OStart; OStop; OCalc] = Ok (c, recs) /\
    c_state c = ms_stopped /\ c_pos c = [0; 0; 0]%Z /\
    c_run A M c [OFlush; OAppend m2; OStart; OCalc; OCalc] = Ok (c', recs') /\
    time_of recs' = 750%N /\ c_pos c' = [750; 0; 0]%Z /\ (forall a, (a < 3)%N -> net_pulses a (recs ++ recs') = 0%Z).
Proof. exact flush_jumps. Qed.
Print Assumptions C88_restart_after_stop_refuted.

(** What holds: after any history that leaves the controller stopped, discarding what is
    left makes it ready for motions that start where it is, to within 54/100 of a step:
    they are followed as by a new controller. *)
Theorem C88_restart_where_it_is_partial : forall X M u, trig_ok X -> funit_ok X M u -> forall w, float32 w (fu_W u) ->
  forall mt ops c recs, c_run (sf_arith X) M (c_init (sf_arith X) mt w) ops = Ok (c, recs) -> c_state c = ms_stopped ->
  forall x0 qs, Forall (move_ok X M (c_fo c) u) qs -> qs <> [] -> (length qs <= 32)%nat -> joined (fu_k u) x0 (map fq_P qs) ->
  (forall i, (i < 3)%nat -> Rabs (fu_k u i * x0 i - counted c i) <= 54/100) ->
  exists c0 legs (n : nat) cn,
    c_run (sf_arith X) M c (OFlush :: map (fun q => OAppend (fq_m q)) qs ++ [OStart]) = Ok (c0, []) /\
    Forall2 (fun g q => executes u g (fq_P q) (fq_l q)) legs qs /\
    (forall j, (j < n)%nat -> exists cj, ticks_run (sf_arith X) M j c0 = Ok cj /\ under_way u x0 legs cj j) /\
    ticks_run (sf_arith X) M n c0 = Ok cn /\ all_done u x0 legs cn n /\ idle X cn w (c_fo c).
Proof. exact flush_job. Qed.
Print Assumptions C88_restart_where_it_is_partial.

(** The stopped controller of [C88_restart_after_stop_refuted] is at 0, 0, 0 with motions left;
    the motions of [C80_hypotheses] start there and meet the other hypotheses. *)
Example C88_hypotheses : forall X, let A := sf_arith X in let M := cnc3axis A in
  exists m1 c recs, c_run A M (c_init A 375 (tickWidth A)) [OAppend m1; OStart; OStop; OCalc] = Ok (c, recs) /\ c_state c = ms_stopped /\
    forall i, (i < 3)%nat -> counted c i = 0.
Proof. exact flush_example. Qed.
