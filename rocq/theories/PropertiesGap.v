(** * C96: steps of an axis are apart, in the arithmetic of the target *)
Require Import List Arith NArith ZArith Bool Reals.
From Coq Require Import Floats.SpecFloat.
From Verif Require Import Base StepModel StepSpec Num NumSF MotionModel CtrlModel CtrlSpec GeomSpec RunSpec FloatSpec FloatRunSpec FloatFlowSpec FloatArcSpec GapSpec GapProofs GapPulseProofs GapFlowProofs GapCallProofs.
Import ListNotations.
Open Scope R_scope.

(** A queue of up to 32 straight motions, arcs and helices that are slow, no axis moving by more
    than 1/20 step from one tick to the next: at no two consecutive ticks, from the start on and
    for ever, does the counter of an axis change.  Within a motion, and from one to the next. *)
Theorem C96_steps_apart : forall X M fo u, funit_ok X M u -> forall w, trig_ok X -> float32 w (fu_W u) -> fine_steps u ->
  forall c x0 qs, idle X c w fo -> Forall (move_ok X M fo u) qs -> Forall (slow u) qs -> qs <> [] -> (length qs <= 32)%nat -> joined (fu_k u) x0 (map fq_P qs) ->
  (forall i, (i < 3)%nat -> Rabs (fu_k u i * x0 i - counted c i) <= 54/100) ->
  exists c0, c_run (sf_arith X) M c (map (fun q => OAppend (fq_m q)) qs ++ [OStart]) = Ok (c0, []) /\ steps_apart X M c0.
Proof. exact apart_lemma. Qed.
Print Assumptions C96_steps_apart.
(** From a controller that has just been set up: after any number of computed signals the counter
    of each axis is what the pulses sent to its motor add up to, but for one that may be pending. *)
Theorem C96_own_pulse : forall X M fo u, funit_ok X M u -> forall w m, (m < two32)%N -> trig_ok X -> float32 w (fu_W u) -> fine_steps u ->
  let A := sf_arith X in let c := c_init A m w in
  forall x0 qs, idle X c w fo -> Forall (move_ok X M fo u) qs -> Forall (slow u) qs -> qs <> [] -> (length qs <= 32)%nat -> joined (fu_k u) x0 (map fq_P qs) ->
  (forall i, (i < 3)%nat -> Rabs (fu_k u i * x0 i - counted c i) <= 54/100) ->
  forall n c' recs, c_run A M c (map (fun q => OAppend (fq_m q)) qs ++ OStart :: repeat OCalc n) = Ok (c', recs) ->
  forall a, (a < 3)%nat -> exists pend, (length pend <= 1)%nat /\ nth a (c_pos c') 0%Z = net_dirs (pulses (N.of_nat a) false (replay 0 recs) ++ pend).
Proof. exact own_pulse. Qed.
Print Assumptions C96_own_pulse.
(** 5 mm along X and 3 mm back at 10 mm/s, on the machine and with the tick of the firmware. *)
Example C96_hypotheses : forall X, let A := sf_arith X in let M := cnc3axis A in let fo := nofZ (aF A) 1 in let c := c_init A 375 (tickWidth A) in
  let qs := [ex_slow1 X; ex_slow2 X] in let x0 := fun _ => 0 in
  idle X c (tickWidth A) fo /\ float32 (tickWidth A) (fu_W ex_small) /\ funit_ok X M ex_small /\ fine_steps ex_small /\ Forall (move_ok X M fo ex_small) qs /\ Forall (slow ex_small) qs /\
  joined (fu_k ex_small) x0 (map fq_P qs) /\ (forall i, (i < 3)%nat -> Rabs (fu_k ex_small i * x0 i - counted c i) <= 54/100).
Proof. exact apart_example. Qed.

(** Any number of slow motions: the first are queued and started, the others handed over in time
    while they are executed.  No axis is stepped at a tick and at the next one, whether or not
    motions are handed over between the two. *)
Theorem C96_streamed : forall X M fo u, funit_ok X M u -> trig_ok X -> fine_steps u -> forall w, float32 w (fu_W u) ->
  forall c x0 qs1 qs2, idle X c w fo -> Forall (move_ok X M fo u) (qs1 ++ qs2) -> Forall (slow u) (qs1 ++ qs2) -> qs1 <> [] -> (length qs1 <= 32)%nat ->
  joined (fu_k u) x0 (map fq_P (qs1 ++ qs2)) -> unbroken (map fq_P (qs1 ++ qs2)) ->
  (forall i, (i < 3)%nat -> Rabs (fu_k u i * x0 i - counted c i) <= 54/100) ->
  exists c0, c_run (sf_arith X) M c (map (fun q => OAppend (fq_m q)) qs1 ++ [OStart]) = Ok (c0, []) /\
    forall ops, map fq_m qs2 = f_passed ops -> f_fed X M c0 ops -> apart_fed X M c0 ops.
Proof. exact fed_apart. Qed.
Print Assumptions C96_streamed.
(** The motions of [C96_hypotheses], the second handed over after a tick. *)
Example C96_streamed_hypotheses : forall X, let A := sf_arith X in let M := cnc3axis A in let k := c_init A 375 (tickWidth A) in
  unbroken (map fq_P [ex_slow1 X; ex_slow2 X]) /\
  exists c0, c_run A M k (map (fun q => OAppend (fq_m q)) [ex_slow1 X] ++ [OStart]) = Ok (c0, []) /\
    let ops := [FTick; FPass (fq_m (ex_slow2 X)); FTick; FTick] in map fq_m [ex_slow2 X] = f_passed ops /\ f_fed X M c0 ops.
Proof. exact fed_example. Qed.

(** From a controller that has just been set up, with motions handed over between computations of
    the signals: after every call the counter of each axis is what the pulses sent to its motor
    add up to, but for one that may be pending. *)
Theorem C96_streamed_pulse : forall X M fo u, funit_ok X M u -> trig_ok X -> fine_steps u -> forall w, float32 w (fu_W u) ->
  forall m x0 qs1 qs2, let A := sf_arith X in let c := c_init A m w in (m < two32)%N ->
  idle X c w fo -> Forall (move_ok X M fo u) (qs1 ++ qs2) -> Forall (slow u) (qs1 ++ qs2) -> qs1 <> [] -> (length qs1 <= 32)%nat ->
  joined (fu_k u) x0 (map fq_P (qs1 ++ qs2)) -> unbroken (map fq_P (qs1 ++ qs2)) ->
  (forall i, (i < 3)%nat -> Rabs (fu_k u i * x0 i - counted c i) <= 54/100) ->
  exists c0, c_run A M c (map (fun q => OAppend (fq_m q)) qs1 ++ [OStart]) = Ok (c0, []) /\
    forall l, map fq_m qs2 = c_passed l -> c_fed X M c0 l -> forall c' recs, c_run A M c0 (map call_op l) = Ok (c', recs) ->
    forall a, (a < 3)%nat -> exists pend, (length pend <= 1)%nat /\ nth a (c_pos c') 0%Z = net_dirs (pulses (N.of_nat a) false (replay 0 recs) ++ pend).
Proof. exact fed_pulses. Qed.
Print Assumptions C96_streamed_pulse.
(** The motions of [C96_hypotheses], the second handed over after the first signals. *)
Example C96_called_hypotheses : forall X, let A := sf_arith X in let M := cnc3axis A in let k := c_init A 375 (tickWidth A) in
  exists c0, c_run A M k (map (fun q => OAppend (fq_m q)) [ex_slow1 X] ++ [OStart]) = Ok (c0, []) /\
    let l := [CCalc; CPass (fq_m (ex_slow2 X)); CCalc] in map fq_m [ex_slow2 X] = c_passed l /\ c_fed X M c0 l.
Proof. exact called_example. Qed.
