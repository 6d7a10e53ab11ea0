(** Properties of whole programs: C65. *)
Require Import String List Arith NArith ZArith Bool Reals Lra Lia.
From Verif Require Import Base EventModel StepModel StepSpec Num NumR MotionModel CtrlModel CtrlSpec CtrlRSpec ProfileSpec GeomSpec RunSpec
  GcodeModel GcodeSpec GcodeRSpec GText GLineProofs GExamples ProgramSpec ProgramProofs ProgramExample ReferenceSpec ReferenceProofs ReferenceExample PropertiesRun.
Import ListNotations.
Open Scope R_scope.

(** C65.  Exact arithmetic.  The lines of a good program, read in any state a program can
    reach, ask for paths that join, and the motions made from them describe these
    paths; the last one ends where the interpreter says it is. *)
Theorem C65_program_path : forall r, (forall i, (i < 3)%nat -> 0 < rm_k r i) ->
  forall ls c m c' m' outs p, reachedR c m -> rprogram c m ls = Ok (c', m', outs) -> program_ok r c m ls ->
  at_mm (s_cur (g_st c)) p ->
  exists Ps, drawn c m ls p Ps /\ Forall2 (executable r) (sent outs) Ps /\ chained p Ps /\ at_mm (s_cur (g_st c')) (end_of p Ps).
Proof. exact program_path. Qed.
Print Assumptions C65_program_path.

(** From power-up: read a good program, give the announced motions to the
    controller, some before the start and the others as there is room, and keep
    asking for output records.  The machine draws the program: at every moment the step
    counters, and with them the pulses on the pins, are where the legs say,
    one leg per motion along the path its line asks for; in the end it rests at the
    position the interpreter has reached. *)
Theorem C65_program_runs : forall (M : machine xr) (r : rmach) (w : R) (N : nat),
  machine_is M r -> 0 < w -> (forall i, (i < 3)%nat -> tick_rate r w i + INR N * creep r w i <= 1) ->
  forall m ls c' m' outs first ops, rprogram (gcode0 x_num) (sm_new x_num) ls = Ok (c', m', outs) ->
  program_ok r (gcode0 x_num) (sm_new x_num) ls -> (length (sent outs) <= N)%nat -> (m < two32)%N ->
  given M r w (c_init x_arith m (XF w)) (sent outs) first ops ->
  exists c recs legs x, c_run x_arith M (c_init x_arith m (XF w)) (script first ops) = Ok (c, recs) /\
    drawn (gcode0 x_num) (sm_new x_num) ls (fun _ => 0) (map lg_path legs) /\
    Forall2 (fun m l => leg_ok r (sm_vFeed m) 1 l) (sent outs) legs /\
    at_mm (s_cur (g_st c')) x /\
    INR (asked ops) * w <= elapsed w recs /\
    (forall p q, ops = p ++ q -> exists cp rp, c_run x_arith M (c_init x_arith m (XF w)) (script first p) = Ok (cp, rp) /\
       within r (fun i => 55/100 + INR N * creep r w i) (where_at (fun _ => 0) legs (elapsed w rp)) cp) /\
    (elapsed w recs <= total legs -> c_state c = ms_running) /\
    (total legs < elapsed w recs -> at_rest c w 1 /\ within r (fun i => 55/100 + INR N * creep r w i) x c) /\
    (forall a, (a < 3)%nat -> calm r w N a -> exists pend, (length pend <= 1)%nat /\
       net_dirs (pulses (N.of_nat a) false (replay 0 recs) ++ pend) = nth a (c_pos c) 0%Z /\ (total legs < elapsed w recs -> pend = [])).
Proof. exact program_runs. Qed.
Print Assumptions C65_program_runs.

(** If the final position is on the step grid, the pulses amount to exactly it. *)
Theorem C65_program_lands : forall (M : machine xr) (r : rmach) (w : R) (N : nat),
  machine_is M r -> 0 < w -> (forall i, (i < 3)%nat -> tick_rate r w i + INR N * creep r w i <= 1) ->
  forall m ls c' m' outs first ops a z x, rprogram (gcode0 x_num) (sm_new x_num) ls = Ok (c', m', outs) ->
  program_ok r (gcode0 x_num) (sm_new x_num) ls -> (length (sent outs) <= N)%nat -> (m < two32)%N ->
  given M r w (c_init x_arith m (XF w)) (sent outs) first ops ->
  (a < 3)%nat -> calm r w N a -> INR N * creep r w a <= 4/10 -> coord_at x_num (s_cur (g_st c')) a = XF x -> rm_k r a * x = IZR z ->
  exists c recs legs, c_run x_arith M (c_init x_arith m (XF w)) (script first ops) = Ok (c, recs) /\
    drawn (gcode0 x_num) (sm_new x_num) ls (fun _ => 0) (map lg_path legs) /\
    Forall2 (fun m l => leg_ok r (sm_vFeed m) 1 l) (sent outs) legs /\
    (total legs < INR (asked ops) * w -> nth a (c_pos c) 0%Z = z /\ net_dirs (pulses (N.of_nat a) false (replay 0 recs)) = z).
Proof. exact program_lands. Qed.
Print Assumptions C65_program_lands.

(** The program "G0X3Y4", "G2X13Y4Z0I5J0F600" on the machine of [C64_machine]: both motions queued,
    then any number of records asked for. *)
Lemma asked_repeat n : asked (repeat OCalc n) = n /\ appends (repeat OCalc n) = [] /\ Forall simple_op (repeat OCalc n).
Proof.
  induction n as [|n (A & B & C)]; [repeat constructor|]. cbn [repeat]. unfold asked, appends in *. cbn [filter length flat_map app]. rewrite A, B.
  repeat split; auto. constructor; auto. left. reflexivity.
Qed.
Example C65_hypotheses : forall n : nat,
  exists c2 m2 m1 outs, rprogram (gcode0 x_num) (sm_new x_num) [txt "G0X3Y4"%string; txt "G2X13Y4Z0I5J0F600"%string] = Ok (c2, m2, outs) /\
  program_ok C64_limits (gcode0 x_num) (sm_new x_num) [txt "G0X3Y4"%string; txt "G2X13Y4Z0I5J0F600"%string] /\
  (length (sent outs) <= 100 * 300)%nat /\
  given C64_machine C64_limits (1/60000) (c_init x_arith 375 (XF (1/60000))) (sent outs) [m1; m2] (repeat OCalc n) /\
  coord_at x_num (s_cur (g_st c2)) 0%nat = XF 13 /\ rm_k C64_limits 0 * 13 = IZR 2600.
Proof.
  intros n. destruct (two_ok C64_limits) as (c2 & m2 & m1 & outs & E & PO & SE & BR & X & Y); [reflexivity|].
  exists c2, m2, m1, outs. change [txt "G0X3Y4"%string; txt "G2X13Y4Z0I5J0F600"%string] with two_lines. rewrite SE. destruct (asked_repeat n) as (A & B & C).
  split; [exact E|]. split; [exact PO|]. split; [cbn [length]; lia|]. split; [|split; [exact X|cbn; lra]].
  constructor; auto.
  - rewrite B. reflexivity.
  - discriminate.
  - cbn [length]. lia.
  - intros pre m post c' recs EQ. exfalso. assert (I : In (OAppend m) (repeat (@OCalc xr xr) n)) by (rewrite EQ; apply in_or_app; right; left; reflexivity).
    apply repeat_spec in I. discriminate.
  - intros m P IM DS OK. apply (BR (1/60000) P m); auto; try lra.
Qed.

(** The same against a reference interpreter ([ReferenceSpec]) that knows nothing of the
    controller.  If the lines are the text of blocks of words, the reference interpreter makes the
    moves [mvs] of these blocks, and the moves exist on this machine, then
    the controller accepts the program, announces one motion per move, and the machine does
    these moves, one after the other; in the end it rests at the position of the reference interpreter. *)
Theorem C65_reference_runs : forall (M : machine xr) (r : rmach) (w : R) (N : nat),
  machine_is M r -> 0 < w -> (forall i, (i < 3)%nat -> tick_rate r w i + INR N * creep r w i <= 1) ->
  forall ls wss mvs s, Forall2 written ls wss -> interp rs_start wss mvs s -> Forall (possible r) mvs -> (length mvs <= N)%nat ->
  (forall mv l, In mv mvs -> does r mv l -> short w l) ->
  exists c' m' outs, rprogram (gcode0 x_num) (sm_new x_num) ls = Ok (c', m', outs) /\ at_mm (s_cur (g_st c')) (rs_pos s) /\
  length (sent outs) = length mvs /\
  forall m first ops, (m < two32)%N -> passed M (c_init x_arith m (XF w)) (sent outs) first ops ->
  exists c recs legs, c_run x_arith M (c_init x_arith m (XF w)) (script first ops) = Ok (c, recs) /\ Forall2 (does r) mvs legs /\
    INR (asked ops) * w <= elapsed w recs /\
    (forall p q, ops = p ++ q -> exists cp rp, c_run x_arith M (c_init x_arith m (XF w)) (script first p) = Ok (cp, rp) /\
       within r (fun i => 55/100 + INR N * creep r w i) (where_at (fun _ => 0) legs (elapsed w rp)) cp) /\
    (elapsed w recs <= total legs -> c_state c = ms_running) /\
    (total legs < elapsed w recs -> at_rest c w 1 /\ within r (fun i => 55/100 + INR N * creep r w i) (rs_pos s) c) /\
    (forall a, (a < 3)%nat -> calm r w N a -> exists pend, (length pend <= 1)%nat /\
       net_dirs (pulses (N.of_nat a) false (replay 0 recs) ++ pend) = nth a (c_pos c) 0%Z /\ (total legs < elapsed w recs -> pend = [])).
Proof. exact reference_runs. Qed.
Print Assumptions C65_reference_runs.

Theorem C65_reference_lands : forall (M : machine xr) (r : rmach) (w : R) (N : nat),
  machine_is M r -> 0 < w -> (forall i, (i < 3)%nat -> tick_rate r w i + INR N * creep r w i <= 1) ->
  forall ls wss mvs s a z, Forall2 written ls wss -> interp rs_start wss mvs s -> Forall (possible r) mvs -> (length mvs <= N)%nat ->
  (forall mv l, In mv mvs -> does r mv l -> short w l) ->
  (a < 3)%nat -> calm r w N a -> INR N * creep r w a <= 4/10 -> rm_k r a * rs_pos s a = IZR z ->
  exists c' m' outs, rprogram (gcode0 x_num) (sm_new x_num) ls = Ok (c', m', outs) /\
  forall m first ops, (m < two32)%N -> passed M (c_init x_arith m (XF w)) (sent outs) first ops ->
  exists c recs legs, c_run x_arith M (c_init x_arith m (XF w)) (script first ops) = Ok (c, recs) /\ Forall2 (does r) mvs legs /\
    (total legs < INR (asked ops) * w -> nth a (c_pos c) 0%Z = z /\ net_dirs (pulses (N.of_nat a) false (replay 0 recs)) = z).
Proof. exact reference_lands. Qed.
Print Assumptions C65_reference_lands.

(** "G21G90", "G0X3Y4", "G2X13I5J0F600", "G1Y14", "X3" on the same machine: four moves, which
    end at X3 Y14, 600 and 2800 steps. *)
Example C65_reference_hypotheses :
  Forall2 written ex_lines ex_words /\ interp rs_start ex_words ex_moves ex_end /\ Forall (possible C64_limits) ex_moves /\
  (length ex_moves <= 100 * 300)%nat /\ (forall mv l, In mv ex_moves -> does C64_limits mv l -> short (1/60000) l) /\
  rm_k C64_limits 0 * rs_pos ex_end 0 = IZR 600 /\ rm_k C64_limits 1 * rs_pos ex_end 1 = IZR 2800 /\
  forall n : nat, exists c m outs, rprogram (gcode0 x_num) (sm_new x_num) ex_lines = Ok (c, m, outs) /\
    passed C64_machine (c_init x_arith 375 (XF (1/60000))) (sent outs) (sent outs) (repeat OCalc n).
Proof.
  assert (SH : forall mv l, In mv ex_moves -> does C64_limits mv l -> short (1/60000) l) by (apply ex_short; [intros; cbn; repeat split; lra|lra]).
  assert (PO : Forall (possible C64_limits) ex_moves) by (apply ex_possible; reflexivity).
  split; [exact ex_written|]. split; [exact ex_interp|]. split; [exact PO|]. split; [cbn [length ex_moves]; lia|]. split; [exact SH|].
  split; [cbn; lra|]. split; [cbn; lra|]. intros n. destruct C64_machine_ok as (MI & RATE & _).
  destruct (reference_runs C64_machine C64_limits C64_w (100 * 300) MI ltac:(unfold C64_w; lra) RATE _ _ _ _ ex_written ex_interp PO ltac:(cbn [length ex_moves]; lia) SH)
    as (c & m & outs & E & _ & LE & _).
  exists c, m, outs. split; [exact E|]. destruct (asked_repeat n) as (A & B & C). constructor; auto.
  - rewrite B, app_nil_r. reflexivity.
  - intros Z. rewrite Z in LE. discriminate.
  - rewrite LE. cbn [length ex_moves]. lia.
  - intros pre m' post c' recs EQ. exfalso. assert (I : In (OAppend m') (repeat (@OCalc xr xr) n)) by (rewrite EQ; apply in_or_app; right; left; reflexivity).
    apply repeat_spec in I. discriminate.
Qed.
