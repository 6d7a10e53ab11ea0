(** Properties of the controller in single precision, as it runs: C66, C67, C76, C77. *)
Require Import List Arith NArith ZArith Bool Reals Lra Lia.
From Coq Require Import Floats.SpecFloat.
From Verif Require Import Base StepModel StepSpec Num NumSF MotionModel CtrlModel CtrlSpec CtrlRSpec ProfileSpec GeomSpec RunSpec FloatSpec FloatRunSpec FloatClockProofs FloatTrackProofs FloatPlanProofs FloatJobProofs FloatLimitProofs.
Import ListNotations.
Open Scope R_scope.

(** C66.  binary32.  A motion starts with the clock at [O] (the part of a tick left
    over from the previous motion) and a tick of [W] seconds.  After [n] ticks the
    clock reads O + n W to within a 2^22th part, for as long as the 32-bit index
    does not wrap. *)
Theorem C66_clock_accurate : forall X s w o W O n, float32 w W -> float32 o O -> / 1048576 <= W <= 1 -> 0 <= O <= 1 ->
  fresh s w o -> (n < 2 ^ 32)%N ->
  exists t, float32 (st_time (ticked (sf_arith X) n s)) t /\ Rabs (t - (O + IZR (Z.of_N n) * W)) <= / 4194304 * (O + IZR (Z.of_N n) * W).
Proof. exact clock_near. Qed.
Print Assumptions C66_clock_accurate.

(** It never runs backwards. *)
Theorem C66_never_back : forall X s w o W O n, float32 w W -> float32 o O -> / 1048576 <= W <= 1 -> 0 <= O <= 1 ->
  fresh s w o -> (n + 1 < 2 ^ 32)%N ->
  exists t t', float32 (st_time (ticked (sf_arith X) n s)) t /\ float32 (st_time (ticked (sf_arith X) (n + 1) s)) t' /\ t <= t'.
Proof. exact clock_mono. Qed.
Print Assumptions C66_never_back.

(** Refuted: every tick advances the clock.  With the tick of the firmware
    (1/60000 s), after 256 seconds of one motion two ticks read the same time. *)
Theorem C66_every_tick_refuted : forall X, let A := sf_arith X in exists s n,
  fresh s (tickWidth A) (nofZ (aF A) 0) /\ (n < 16000000)%N /\ st_time (ticked A (n + 1) s) = st_time (ticked A n s).
Proof. exact clock_stalls. Qed.
Print Assumptions C66_every_tick_refuted.

(** True of the first two million ticks of a motion (33 s): each advances the
    clock by one tick, give or take half a tick. *)
Theorem C66_short_motion : forall X s w o W O n, float32 w W -> float32 o O -> / 1048576 <= W <= 1 -> 0 <= O <= W ->
  fresh s w o -> (n < 2000000)%N ->
  exists t t', float32 (st_time (ticked (sf_arith X) n s)) t /\ float32 (st_time (ticked (sf_arith X) (n + 1) s)) t' /\ Rabs (t' - t - W) <= / 2 * W.
Proof. exact clock_step. Qed.
Print Assumptions C66_short_motion.

Example C66_hypotheses : forall X, let A := sf_arith X in let s := c_st (c_init A 375 (tickWidth A)) in
  float32 (tickWidth A) (9162597 / 549755813888) /\ float32 (nofZ (aF A) 0) 0 /\ / 1048576 <= 9162597 / 549755813888 <= 1 /\
  fresh s (tickWidth A) (nofZ (aF A) 0).
Proof. exact clock_example. Qed.

(** C67.  binary32.  An axis with [k] steps per mm is given the floats [mms], which
    stand for the positions [xs] in steps.  As C18, with the rounding of the
    decision itself, [slack B]: within 1/32 of a step up to 2^18 steps
    (1.3 m at 200 steps per mm). *)
Theorem C67_tracking_error : forall X (M : machine sf) i k, float32 (nthF (sf_arith X) (m_stepsPerMm M) i) k ->
  forall B, (i < 3)%nat -> B <= 1048576 ->
  forall mms xs x0 (c : ctrl sf), length (c_pos c) = 3%nat -> stands k B mms xs ->
  Rabs (x0 - IZR (nth i (c_pos c) 0%Z)) <= 55/100 + slack B -> rate_le 1 x0 xs ->
  exists c' cmds, track (sf_arith X) M c i mms = Ok (c', cmds) /\
    Rabs (last xs x0 - IZR (nth i (c_pos c') 0%Z)) <= 55/100 + slack B /\ length (c_pos c') = 3%nat.
Proof. exact track_fin. Qed.
Print Assumptions C67_tracking_error.

(** Rounding does not defeat the hysteresis: never both directions at once, ... *)
Theorem C67_exclusive : forall X (M : machine sf) i k, float32 (nthF (sf_arith X) (m_stepsPerMm M) i) k ->
  forall (c : ctrl sf) mm r B, float32 mm r -> Rabs (r * k) <= B -> B <= 262144 -> (Z.abs (nth i (c_pos c) 0) <= 2000000)%Z ->
  needStepForward (sf_arith X) M c i mm = Ok true -> needStepBackward (sf_arith X) M c i mm = false.
Proof. exact excl_fin. Qed.
Print Assumptions C67_exclusive.

(** ... and within a window of 0.1 step, less twice the slack, never one after the other. *)
Theorem C67_no_chatter : forall X (M : machine sf) i k, float32 (nthF (sf_arith X) (m_stepsPerMm M) i) k ->
  forall B lo, (i < 3)%nat -> B <= 1048576 ->
  forall mms xs x0 (c c' : ctrl sf) cmds, length (c_pos c) = 3%nat -> stands k B mms xs ->
  Rabs (x0 - IZR (nth i (c_pos c) 0%Z)) <= 55/100 + slack B ->
  (forall x, In x (x0 :: xs) -> lo <= x < lo + 1/10 - 2 * slack B) ->
  track (sf_arith X) M c i mms = Ok (c', cmds) -> ~ (In (Some Fwd) cmds /\ In (Some Bwd) cmds).
Proof. intros X M i k HK B lo Hi LB mms xs x0 c c' cmds HL ST H0 HW T. exact (proj1 (quiet_fin X M i k HK B lo Hi LB mms xs x0 c c' cmds HL ST H0 HW T)). Qed.
Print Assumptions C67_no_chatter.

(** As in C20, below half a step per tick and with a rate that changes by less than 0.1 step per
    tick from one tick to the next, both less the slack, steps are never commanded at consecutive ticks. *)
Theorem C67_pulse_spacing : forall X (M : machine sf) i k, float32 (nthF (sf_arith X) (m_stepsPerMm M) i) k ->
  forall B, (i < 3)%nat -> B <= 1048576 ->
  forall mms xs x0 (c c' : ctrl sf) cmds, length (c_pos c) = 3%nat -> stands k B mms xs ->
  Rabs (x0 - IZR (nth i (c_pos c) 0%Z)) <= 55/100 + slack B -> rate_lt (1/2 - slack B) x0 xs -> smooth (1/10 - 4 * slack B) x0 xs ->
  track (sf_arith X) M c i mms = Ok (c', cmds) -> spaced cmds.
Proof. exact spaced_fin. Qed.
Print Assumptions C67_pulse_spacing.
Example C67_spacing_hypotheses : stands 200 4096 [S754_finite false 8388608 (-32); S754_finite false 12582912 (-32); S754_finite false 8388608 (-31)] [200 * / 512; 300 * / 512; 400 * / 512] /\
  rate_lt (1/2 - slack 4096) 0.25 [200 * / 512; 300 * / 512; 400 * / 512] /\ smooth (1/10 - 4 * slack 4096) 0.25 [200 * / 512; 300 * / 512; 400 * / 512].
Proof. exact spacing_example. Qed.

Example C67_hypotheses : forall X, let A := sf_arith X in let M := cnc3axis A in
  let c := c_init A 375 (tickWidth A) in let mms := [S754_finite false 8388608 (-31); S754_finite false 12582912 (-31)] in
  float32 (nthF A (m_stepsPerMm M) 0) 200 /\ length (c_pos c) = 3%nat /\ stands 200 262144 mms [200 * / 256; 300 * / 256] /\
  Rabs (0 - IZR (nth 0 (c_pos c) 0%Z)) <= 55/100 + slack 262144 /\ rate_le 1 0 [200 * / 256; 300 * / 256] /\
  exists c', track A M c 0 mms = Ok (c', [Some Fwd; None]).
Proof. exact track_example. Qed.

(** C76.  binary32.  A motion from standstill to standstill, planned and then sampled
    in single precision, follows an exact motion that respects the acceleration,
    deceleration and speed limits, starts and ends at standstill and covers the
    length asked for to within 1/524288: its duration is right to within 1/131072, and
    at each time up to that duration the distance covered is right to within 1/65536
    of the length.  At the end it is within 1/32768 of the length asked for.  It is not
    needlessly slow: at least half the top speed on average, or half the speed from
    which it can just be braked in time.  It is not asked to stop early. *)
Theorem C76_planned_accurately : forall X p len minS fo a d j vm L, standing X p len fo a d j vm L ->
  let q := p_optimize (aF (sf_arith X)) p len minS fo maximizeSpeed in
  exists T l s v acc Tf, plan_spec 0 0 a (- d) vm 0 0 T l s v acc /\ Rabs (l - L) <= / 524288 * L /\
    (exists V, 0 < V <= vm /\ (V = vm \/ 65535/65536 * (2 * L / (/ a + / d)) <= V * V) /\ T * V <= 2 * l) /\
    float32 (p_duration q) Tf /\ Rabs (Tf - T) <= / 131072 * T /\
    (forall tf t, float32 tf t -> 0 <= t <= Tf -> exists x, float32 (p_s (aF (sf_arith X)) q tf) x /\ Rabs (x - s (Rmin t T)) <= / 65536 * L) /\
    exists x, float32 (p_s (aF (sf_arith X)) q (p_duration q)) x /\ Rabs (x - L) <= / 32768 * L /\ p_tStop q = ninf (aF (sf_arith X)).
Proof. exact plan_float. Qed.
Print Assumptions C76_planned_accurately.

(** 100 mm at 20 mm/s on the machine of the firmware. *)
Example C76_hypotheses : forall X, let A := sf_arith X in let m := linX A 100 20 in
  standing X (prof_setSpeed A (cnc3axis A) (p_zero (aF A)) (traj_set A m) m) (t_length (traj_set A m)) (nofZ (aF A) 1) 200 200 600 20 100.
Proof. exact standing_example. Qed.

(** C77.  binary32 and binary64.  From rest, up to 32 straight motions, each beginning
    where the one before ends, are queued and started.  The controller then executes
    them one after the other, each from standstill to standstill within the limits of
    the axes: at every tick the counted position of every axis is within [reach] steps
    of where that exact execution is at that time, to within one part in 32768 of the
    time elapsed, and in the end it is at rest at the end of the last motion, all
    motions done, ready for more. *)
Theorem C77_job_followed : forall X M fo u, funit_ok X M u -> forall w, float32 w (fu_W u) ->
  forall c x0 qs, idle X c w fo -> Forall (fq_ok X M fo u) qs -> qs <> [] -> (length qs <= 32)%nat -> joined (fu_k u) x0 (map fq_P qs) ->
  (forall i, (i < 3)%nat -> Rabs (fu_k u i * x0 i - counted c i) <= 54/100) ->
  exists c0 legs (n : nat) cn,
    c_run (sf_arith X) M c (map (fun q => OAppend (fq_m q)) qs ++ [OStart]) = Ok (c0, []) /\
    Forall2 (fun g q => executes u g (fq_P q) (fq_l q)) legs qs /\
    (forall j, (j < n)%nat -> exists cj, ticks_run (sf_arith X) M j c0 = Ok cj /\ under_way u x0 legs cj j) /\
    ticks_run (sf_arith X) M n c0 = Ok cn /\ all_done u x0 legs cn n /\ idle X cn w fo.
Proof. exact job_lemma. Qed.
Print Assumptions C77_job_followed.

(** An axis whose path ends on, or close enough to, a whole number of steps [z] is
    counted as exactly there when all is done: no step is lost or gained. *)
Theorem C77_no_step_lost : forall u x0 legs c n i z, all_done u x0 legs c n -> (i < 3)%nat ->
  Rabs (fu_k u i * end_of x0 (map lg_path legs) i - IZR z) < 1 - reach (fu_B u) (fu_H u) -> nth i (c_pos c) 0%Z = z.
Proof. exact landing_lemma. Qed.
Print Assumptions C77_no_step_lost.

(** 50 mm along X and then 50 mm askew, on the machine and with the tick of the
    firmware: 4000, 8000 and 0 steps. *)
Example C77_hypotheses : forall X, let A := sf_arith X in let M := cnc3axis A in let fo := nofZ (aF A) 1 in let c := c_init A 375 (tickWidth A) in
  let qs := [ex_q1 X; ex_q2 X] in let x0 := fun _ => 0 in
  idle X c (tickWidth A) fo /\ float32 (tickWidth A) (fu_W ex_u) /\ funit_ok X M ex_u /\ Forall (fq_ok X M fo ex_u) qs /\
  joined (fu_k ex_u) x0 (map fq_P qs) /\ (forall i, (i < 3)%nat -> Rabs (fu_k ex_u i * x0 i - counted c i) <= 54/100) /\
  (forall i, (i < 3)%nat -> Rabs (fu_k ex_u i * end_of x0 (map fq_P qs) i - IZR (nth i [4000; 8000; 0]%Z 0%Z)) < 1 - reach (fu_B ex_u) (fu_H ex_u)).
Proof. exact job_example. Qed.

(** ** C78 — in single precision straight motions respect the limits of every axis *)

(** From the limits per axis, a straight motion (its direction and length in double
    precision) and its feed: the limits computed for it in single precision keep every
    axis within its own, up to one part in 250000, are no lower than that, and meet what
    C76 and C77 ask for. *)
Theorem C78_axis_limits : forall X M a d v j m dl len fo f, axis_limits X M a d v j -> straight_by X m dl len -> feed_is m fo f -> gentle a d v j len f ->
  exists l, fl_j l = j /\ Rabs (fl_L l - len) <= len / 4194304 /\ limits_kept a d v f dl len l /\ limits_used a d v f dl len l /\
    standing X (prof_setSpeed (sf_arith X) M (p_zero (aF (sf_arith X))) (traj_set (sf_arith X) m) m) (t_length (traj_set (sf_arith X) m)) fo
      (fl_a l) (fl_d l) (fl_j l) (fl_vm l) (fl_L l).
Proof. exact limits_lemma. Qed.
Print Assumptions C78_axis_limits.

(** 50 mm askew at 20 mm/s and a traverse of 100 mm, on the machine of the firmware. *)
Example C78_hypotheses : forall X, let A := sf_arith X in let M := cnc3axis A in let fo := nofZ (aF A) 1 in
  let a := fun _ : nat => 200 in let v := fun _ : nat => 30 in let dl1 := fun i => IZR (nth i [-30; 40; 0]%Z 0%Z) in let dl2 := fun i => IZR (nth i [100; 0; 0]%Z 0%Z) in
  axis_limits X M a a v 600 /\
  straight_by X (fq_m (ex_q2 X)) dl1 50 /\ feed_is (fq_m (ex_q2 X)) fo (Some 20) /\ gentle a a v 600 50 (Some 20) /\
  straight_by X (travX A 100) dl2 100 /\ feed_is (travX A 100) fo None /\ gentle a a v 600 100 None.
Proof. exact limits_example. Qed.
