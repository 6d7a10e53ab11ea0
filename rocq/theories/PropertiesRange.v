(** * C95: the range the axes move in *)
Require Import String List Arith NArith ZArith Bool Reals.
From Coq Require Import Floats.SpecFloat.
From Verif Require Import Base StepModel StepSpec Num NumSF MotionModel GcodeModel GcodeSpec GcodeRSpec GText CtrlModel CtrlSpec GeomSpec HomingModel FloatSpec FloatRunSpec FloatProgSpec FloatArcSpec FloatBendSpec FloatFlowSpec GLineProofs FloatPassProofs RangeSpec RangeProofs PropertiesText PropertiesBend.
Import ListNotations.
Open Scope R_scope.

(** Refuted.  Z has a travel of 60 mm, that is 12000 steps.  A program that sends it to 100 mm is
    accepted without an error, and Z goes all the 20000 steps. *)
Theorem C95_travel_refuted : forall X, let A := sf_arith X in let M := cnc3axis A in let k := c_init A 375 (tickWidth A) in
  exists c m outs k0 (n : nat) kn,
    g_run (g_f X) pi_f (gcode0 (g_f X)) (sm_new (g_f X)) (map txt ["G21 G90 F1200"; "G1 Z50"; "Z100"]%string) = Ok (c, m, outs) /\ Forall accepted outs /\
    c_run A M k (map (fun o => OAppend (snd o)) (passed_on outs) ++ [OStart]) = Ok (k0, []) /\ ticks_run A M n k0 = Ok kn /\ idle X kn (tickWidth A) (nofZ (aF A) 1) /\
    nth 2 (c_pos k) 0%Z = 0%Z /\ nth 2 (c_pos kn) 0%Z = 20000%Z /\
    exists travel steps, float32 (nth 2 (hc_sMax (cnc3axis_homing A)) S754_nan) travel /\ float32 (nthF A (m_stepsPerMm M) 2) steps /\ travel * steps = 12000.
Proof. exact too_far. Qed.
Print Assumptions C95_travel_refuted.

(** What is true: a program of straight motions as in C79 whose positions, the first included, are
    all in a box never leaves this box, at any tick, by more than what rounding makes of a step. *)
Theorem C95_box_partial : forall X M u s fo lo hi, funit_ok X M u -> shop_ok X M u s -> forall w, float32 w (fu_W u) ->
  forall pi c m ls c' m' outs r x0 stops fs k, reached (g_f X) pi c m -> float64 (sm_radius m) r -> at64 X (s_cur (g_st c)) x0 ->
  g_run (g_f X) pi c m ls = Ok (c', m', outs) -> straight_only outs -> stops_fit X u s fo x0 (passed_on outs) stops fs -> (1 <= length stops <= 32)%nat ->
  idle X k w fo -> (forall i, (i < 3)%nat -> Rabs (fu_k u i * x0 i - counted k i) <= 54/100) ->
  in_box lo hi x0 -> Forall (in_box lo hi) stops ->
  exists k0 (n : nat), c_run (sf_arith X) M k (map (fun o => OAppend (snd o)) (passed_on outs) ++ [OStart]) = Ok (k0, []) /\
    (forall j, (j <= n)%nat -> exists kj, ticks_run (sf_arith X) M j k0 = Ok kj /\ counts_in u lo hi kj) /\
    exists kn, ticks_run (sf_arith X) M n k0 = Ok kn /\ idle X kn w fo.
Proof. exact stays_in. Qed.
Print Assumptions C95_box_partial.
(** The program of [C79_hypotheses]; it leaves the box by less than a step. *)
Example C95_hypotheses : let lo := ex_at [0; 0; 0]%Z in let hi := ex_at [50; 40; 0]%Z in in_box lo hi (ex_at [0; 0; 0]%Z) /\ Forall (in_box lo hi) [ex_at [50; 0; 0]%Z; ex_at [20; 40; 0]%Z] /\
  forall i, (i < 3)%nat -> fu_k ex_unit i * stray lo hi i + reach (fu_B ex_unit) (fu_H ex_unit) < 95/100.
Proof. exact box_example. Qed.

(** With arcs, as in C81: when the ways asked for are in a box, the counted steps are too, at every tick. *)
Theorem C95_way_partial : forall X M u s fo lo hi, funit_ok X M u -> forall w, shop_ok X M u s -> trig_ok X -> atan_ok X -> float32 w (fu_W u) ->
  forall pi c m ls c' m' outs r x0 stops fs k, pi_ok pi -> reached (g_f X) pi c m -> float64 (sm_radius m) r -> at64 X (s_cur (g_st c)) x0 ->
  g_run (g_f X) pi c m ls = Ok (c', m', outs) -> reported outs -> route_fits X u s fo (s_cur (g_st c)) x0 (passed_on outs) stops fs -> (1 <= length stops <= 32)%nat ->
  idle X k w fo -> (forall i, (i < 3)%nat -> Rabs (fu_k u i * x0 i - counted k i) <= 54/100) ->
  in_box lo hi x0 -> route_in lo hi x0 stops ->
  exists k0 (n : nat), c_run (sf_arith X) M k (map (fun o => OAppend (snd o)) (passed_on outs) ++ [OStart]) = Ok (k0, []) /\
    (forall j, (j <= n)%nat -> exists kj, ticks_run (sf_arith X) M j k0 = Ok kj /\ counts_along u lo hi kj) /\
    exists kn, ticks_run (sf_arith X) M n k0 = Ok kn /\ idle X kn w fo.
Proof. exact stays_along. Qed.
Print Assumptions C95_way_partial.
(** The program of [C81_hypotheses], a line, a quarter of a circle and a helix back, leaves the box by
    less than a step. *)
Example C95_way_hypotheses : let lo := ex_at [0; 0; 0]%Z in let hi := ex_at [20; 20; 10]%Z in in_box lo hi (ex_at [0; 0; 0]%Z) /\
  route_in lo hi (ex_at [0; 0; 0]%Z) [mkStop (ex_at [20; 0; 0]%Z) None; mkStop (ex_at [0; 20; 0]%Z) (Some ex_left); mkStop (ex_at [20; 0; 10]%Z) (Some ex_back)] /\
  reach (fu_B ex_unit) (fu_H ex_unit) + fu_H ex_unit / 450000 < 97/100.
Proof. exact way_example. Qed.

(** A program of any length, handed over while it is executed, as in C82: after every call, and
    however many signals are computed, the counted steps are in the box. *)
Theorem C95_streamed_partial : forall X M u s fo lo hi, funit_ok X M u -> forall w, shop_ok X M u s -> trig_ok X -> atan_ok X -> float32 w (fu_W u) ->
  forall pi c m ls c' m' outs r x0 stops fs k now later, pi_ok pi -> reached (g_f X) pi c m -> float64 (sm_radius m) r -> at64 X (s_cur (g_st c)) x0 ->
  g_run (g_f X) pi c m ls = Ok (c', m', outs) -> reported outs -> route_fits X u s fo (s_cur (g_st c)) x0 (passed_on outs) stops fs ->
  map snd (passed_on outs) = now ++ later -> (1 <= length now <= 32)%nat ->
  idle X k w fo -> sg_ticks (c_sig k) = 0%N -> (sg_maxTicks (c_sig k) < two32)%N -> (forall i, (i < 3)%nat -> Rabs (fu_k u i * x0 i - counted k i) <= 54/100) ->
  in_box lo hi x0 -> route_in lo hi x0 stops ->
  exists k0, c_run (sf_arith X) M k (map OAppend now ++ [OStart]) = Ok (k0, []) /\
  forall l, c_passed l = later -> c_fed X M k0 l ->
  forall n a b, l ++ repeat CCalc n = a ++ b -> exists ka recs, c_run (sf_arith X) M k0 (map call_op a) = Ok (ka, recs) /\ counts_along u lo hi ka.
Proof. exact stays_streamed. Qed.
Print Assumptions C95_streamed_partial.
(** The program of [C95_way_hypotheses], handed over as in [C82_hypotheses]. *)
Example C95_streamed_hypotheses : forall X, let A := sf_arith X in let M := cnc3axis A in let k := c_init A 375 (tickWidth A) in
  sg_ticks (c_sig k) = 0%N /\ (sg_maxTicks (c_sig k) < two32)%N /\
  exists c m outs m1 m2 m3, g_run (g_f X) pi_f (gcode0 (g_f X)) (sm_new (g_f X)) (map txt ex_bends) = Ok (c, m, outs) /\
    map snd (passed_on outs) = [m1] ++ [m2; m3] /\
    exists k0, c_run A M k (map OAppend [m1] ++ [OStart]) = Ok (k0, []) /\ let l := [CPass m2; CCalc; CPass m3; CCalc] in c_passed l = [m2; m3] /\ c_fed X M k0 l.
Proof. exact pass_example. Qed.
