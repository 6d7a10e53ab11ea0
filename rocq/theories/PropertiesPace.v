(** From a program to the pins in real time: C74. *)
Require Import String List Arith NArith ZArith Bool Reals Lra Lia.
From Verif Require Import Base EventModel StepModel StepSpec Num NumR MotionModel CtrlModel CtrlSpec CtrlRSpec ProfileSpec GeomSpec RunSpec
  GcodeModel GcodeSpec GcodeRSpec GText ProgramSpec ProgramProofs ReferenceSpec ReferenceProofs FlowModel FlowSpec PaceSpec PaceSpeedProofs PaceFlowProofs PaceProofs PaceExample
  PropertiesRun PropertiesProgram.
Import ListNotations.
Open Scope R_scope.

(** C74.  Exact arithmetic.  The lines of a program are the text of blocks whose moves the
    reference interpreter knows, and the moves are slow enough for this machine ([moderate]).  The
    controller is given the motions, the main loop keeps coming round ([steady]) and writes into the step
    buffer what the controller computes.  Then the step buffer reports no error, the pins have a level for every tick
    of the timer, and at every tick the pulses seen on each axis are within 1.55 steps (plus a drift
    of at most [creep] per motion) of where the program is 952 ticks (15.9 ms) earlier; when the
    program is over the pulses amount to its final position, exactly if it is on the step grid. *)
Theorem C74_program_in_real_time : forall (M : machine xr) (r : rmach) (w : R) (N : nat) (u : nat -> R),
  machine_is M r -> 0 < w -> (forall i, (i < 3)%nat -> tick_rate r w i + INR N * creep r w i <= 1) ->
  (forall i, (i < 3)%nat -> calm r w N i) -> moderate r w N u ->
  forall ls wss mvs s, Forall2 written ls wss -> interp rs_start wss mvs s -> Forall (possible r) mvs -> (length mvs <= N)%nat ->
  (forall mv l, In mv mvs -> does r mv l -> short w l) -> Forall (keeps r u) mvs ->
  exists c' m' outs, rprogram (gcode0 x_num) (sm_new x_num) ls = Ok (c', m', outs) /\ length (sent outs) = length mvs /\
  forall first ops, passed M (c_init x_arith 375 (XF w)) (sent outs) first ops ->
  exists c recs legs, c_run x_arith M (c_init x_arith 375 (XF w)) (script first ops) = Ok (c, recs) /\ Forall2 (does r) mvs legs /\
  forall fops, steady fops -> (passes_in fops <= asked ops)%nat ->
  let '(f, pins) := flow_run (stream recs) (flow_init sb0) fops in
  sb_lastError (fl_b f) = ev_none /\ length pins = ticks_in fops /\
  forall a, (a < 3)%nat ->
    let t := INR (ticks_in fops - 952) * w in
    let n := net_dirs (pulses (N.of_nat a) false pins) in
    Rabs (rm_k r a * where_at (fun _ => 0) legs t a - IZR n) <= 155/100 + INR N * creep r w a /\
    (total legs < t -> Rabs (rm_k r a * rs_pos s a - IZR n) <= 55/100 + INR N * creep r w a) /\
    (forall z, total legs < t -> INR N * creep r w a <= 4/10 -> rm_k r a * rs_pos s a = IZR z -> n = z).
Proof. exact reference_real_time. Qed.
Print Assumptions C74_program_in_real_time.

(** A main loop that keeps coming round fills the buffer in time, whatever sparse records it
    writes. *)
Theorem C74_steady_is_prompt : forall src, bounded src -> sparse src -> forall ops, steady ops -> prompt src 376 0 (flow_init sb0) ops.
Proof. exact steady_prompt. Qed.
Print Assumptions C74_steady_is_prompt.

(** "G1X3Y4F300", "G2X13I5J0", "G1X3Y14" (5 mm/s) on the machine of [C64_machine], with a main loop that comes round once
    per tick. *)
Example C74_hypotheses : let u := fun _ : nat => 5 in let N := (10 * 100)%nat in
  machine_is C64_machine C64_limits /\ (forall i, (i < 3)%nat -> tick_rate C64_limits C64_w i + INR N * creep C64_limits C64_w i <= 1) /\
  (forall i, (i < 3)%nat -> calm C64_limits C64_w N i) /\ moderate C64_limits C64_w N u /\
  Forall2 written pc_lines pc_words /\ interp rs_start pc_words pc_moves pc_end /\ Forall (possible C64_limits) pc_moves /\ (length pc_moves <= N)%nat /\
  (forall mv l, In mv pc_moves -> does C64_limits mv l -> short C64_w l) /\ Forall (keeps C64_limits u) pc_moves /\
  rm_k C64_limits 0 * rs_pos pc_end 0 = IZR 600 /\
  forall n : nat, steady (each_tick n) /\ passes_in (each_tick n) = n /\ ticks_in (each_tick n) = n /\
    exists c m outs, rprogram (gcode0 x_num) (sm_new x_num) pc_lines = Ok (c, m, outs) /\
    passed C64_machine (c_init x_arith 375 (XF C64_w)) (sent outs) (sent outs) (repeat OCalc n) /\ asked (repeat OCalc n) = n.
Proof.
  intros u N. destruct C64_machine_ok as (MI & _).
  assert (NN : INR N = 1000) by (unfold N; rewrite mult_INR; cbn; lra).
  assert (RT : forall i, (i < 3)%nat -> tick_rate C64_limits C64_w i + INR N * creep C64_limits C64_w i <= 1).
  { intros i _. rewrite NN. unfold tick_rate, creep, C64_w. cbn [C64_limits rm_k rm_v rm_d]. lra. }
  assert (SH : forall mv l, In mv pc_moves -> does C64_limits mv l -> short C64_w l) by (apply pc_short; [intros; cbn; repeat split; lra|unfold C64_w; lra]).
  assert (PO : Forall (possible C64_limits) pc_moves) by (apply pc_possible; reflexivity).
  assert (LN : (length pc_moves <= N)%nat) by (unfold N; cbn [length pc_moves]; lia).
  split; [exact MI|]. split; [exact RT|].
  split. { intros i _. unfold calm. rewrite NN. unfold tick_rate, creep, C64_w. cbn [C64_limits rm_k rm_v rm_d]. lra. }
  split. { exists (fun _ => 127). split.
    - intros i _. unfold u, turn, C64_w. cbn [C64_limits rm_k rm_a rm_d]. rewrite Rmax_left by lra. lra.
    - cbn [map rsum fold_right]. rewrite NN. unfold u, creep, C64_w. cbn [C64_limits rm_k rm_d]. lra. }
  split; [exact pc_written|]. split; [exact pc_interp|]. split; [exact PO|]. split; [exact LN|]. split; [exact SH|].
  split; [apply pc_keeps; intros; unfold u; lra|]. split; [cbn; lra|].
  intros n. destruct (each_tick_counts n) as (C1 & C2). split; [apply each_tick_steady|]. split; [exact C1|]. split; [exact C2|].
  destruct (reference_runs C64_machine C64_limits C64_w N MI ltac:(unfold C64_w; lra) RT _ _ _ _ pc_written pc_interp PO LN SH) as (c & m & outs & E & _ & LE & _).
  exists c, m, outs. split; [exact E|]. destruct (asked_repeat n) as (A & B & C). split; [|exact A]. constructor; auto.
  - rewrite B, app_nil_r. reflexivity.
  - intros Z. rewrite Z in LE. discriminate.
  - rewrite LE. cbn [length pc_moves]. lia.
  - intros pre m' post c' recs EQ. exfalso. assert (I : In (OAppend m') (repeat (@OCalc xr xr) n)) by (rewrite EQ; apply in_or_app; right; left; reflexivity).
    apply repeat_spec in I. discriminate.
Qed.
