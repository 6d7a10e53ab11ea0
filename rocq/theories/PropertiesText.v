(** Properties of programs from their text to the counted steps, in the arithmetic of
    the target: C79. *)
Require Import String List Arith NArith ZArith Bool Reals.
From Coq Require Import Floats.SpecFloat.
From Verif Require Import Base Num NumSF MotionModel GcodeModel GcodeSpec GcodeRSpec GText CtrlModel CtrlSpec GeomSpec ProfileSpec RunSpec FloatSpec FloatRunSpec FloatProgSpec GLineProofs FloatReadProofs FloatTextProofs.
Import ListNotations.
Open Scope R_scope.

(** C79.  What a decimal of up to 15 digits means in double precision: its value, up to
    one rounding. *)
Theorem C79_value : forall X t neg ip fp, decimal t neg ip fp -> (length (ip ++ fp) <= 15)%nat ->
  exists r, float64 (number_of (g_f X) t) r /\ nearly 1 r (decimal_value neg ip fp) /\ (r = 0 \/ / 10000000000000000 <= Rabs r <= 10000000000000000).
Proof. exact value_near. Qed.
Print Assumptions C79_value.

(** An axis word in absolute mode: the new coordinate in mm, up to three roundings; in
    millimetres it is the number itself. *)
Theorem C79_coordinate : forall X pi c m l c' m' ws ch i g x r, line_words (g_f X) l ws -> reached (g_f X) pi c m ->
  g_line (g_f X) pi c m l = Ok (c', m') -> made_motion c' m' -> s_dist (g_st c') = G90 ->
  In (ch, i, g) axis_letters -> has_value ws ch x -> float64 x r -> sensible r ->
  exists y, float64 (coord_at (g_f X) (s_cur (g_st c')) i) y /\ nearly 3 y (mm (s_unit (g_st c')) r) /\ (s_unit (g_st c') = G21 -> y = r).
Proof. exact coordinate_near. Qed.
Print Assumptions C79_coordinate.

(** The feed: unlimited for a traverse; in units per minute the active F, in mm/s, up to
    five roundings. *)
Theorem C79_feed : forall X pi c m l c' m' ws, line_words (g_f X) l ws -> reached (g_f X) pi c m ->
  g_line (g_f X) pi c m l = Ok (c', m') -> made_motion c' m' ->
  (sm_type m' = traverse -> sm_vFeed m' = S754_infinity false) /\
  (sm_type m' = feedLinear -> forall x f, active_feed (g_f X) ws (letter (g_f X) (g_st c) LtF) x -> float64 x f -> sensible f -> s_feed (g_st c') = G94 ->
     exists v, float64 (sm_vFeed m') v /\ nearly 5 v (mm (s_unit (g_st c')) f / 60)).
Proof. exact feed_near. Qed.
Print Assumptions C79_feed.

(** "-12.50", and "G20 G1 X2 F10" as the first line of a program. *)
Example C79_words : forall X, decimal (txt "-12.50") true [1; 2]%N [5; 0]%N /\ reached (g_f X) pi_f (gcode0 (g_f X)) (sm_new (g_f X)) /\
  exists c m ws, line_words (g_f X) ex_line ws /\ g_line (g_f X) pi_f (gcode0 (g_f X)) (sm_new (g_f X)) ex_line = Ok (c, m) /\ made_motion c m /\
    s_dist (g_st c) = G90 /\ s_unit (g_st c) = G20 /\ s_feed (g_st c) = G94 /\ sm_type m = feedLinear /\
    has_value ws cX (nofZ (g_f X) 2) /\ float64 (nofZ (g_f X) 2) 2 /\ active_feed (g_f X) ws (letter (g_f X) (g_st (gcode0 (g_f X))) LtF) (nofZ (g_f X) 10) /\ float64 (nofZ (g_f X) 10) 10 /\ sensible 2 /\ sensible 10.
Proof. exact words_example. Qed.

(** A program of straight motions is read; the motions it makes, at most 32, are queued
    on an idle controller standing at the parser's position, and started.  It goes
    straight from each position to the next, with the feeds asked for and within the
    limits of every axis, at every tick where it should be at that time, and in the
    end it is idle at the parser's position: if that is a whole number of steps, or
    near enough to one, exactly this number is counted. *)
Theorem C79_program_followed : forall X M u s fo, funit_ok X M u -> shop_ok X M u s -> forall w, float32 w (fu_W u) ->
  forall pi c m ls c' m' outs r x0 stops fs k, reached (g_f X) pi c m -> float64 (sm_radius m) r -> at64 X (s_cur (g_st c)) x0 ->
  g_run (g_f X) pi c m ls = Ok (c', m', outs) -> straight_only outs -> stops_fit X u s fo x0 (passed_on outs) stops fs -> (1 <= length stops <= 32)%nat ->
  idle X k w fo -> (forall i, (i < 3)%nat -> Rabs (fu_k u i * x0 i - counted k i) <= 54/100) ->
  at64 X (s_cur (g_st c')) (last stops x0) /\
  exists k0 legs (n : nat) kn,
    c_run (sf_arith X) M k (map (fun o => OAppend (snd o)) (passed_on outs) ++ [OStart]) = Ok (k0, []) /\
    legs_done u s x0 stops fs legs /\
    (forall j, (j < n)%nat -> exists kj, ticks_run (sf_arith X) M j k0 = Ok kj /\ under_way u x0 legs kj j) /\
    ticks_run (sf_arith X) M n k0 = Ok kn /\ all_done u x0 legs kn n /\ idle X kn w fo /\
    forall i z, (i < 3)%nat -> Rabs (fu_k u i * last stops x0 i - IZR z) < 999/1000 - reach (fu_B u) (fu_H u) -> nth i (c_pos kn) 0%Z = z.
Proof. intros X M u s fo UO SO w FW pi c m ls c' m' outs r x0 stops fs k RE. exact (program_lemma X M u s fo UO SO w FW pi c m ls c' m' outs r x0 stops fs k (reached_sized _ _ _ _ RE)). Qed.
Print Assumptions C79_program_followed.

(** "G1 X50" and "X20 Y40.0" at F1200, with a comment between, on the machine of the
    firmware: 4000, 8000 and 0 steps. *)
Example C79_hypotheses : forall X, let A := sf_arith X in let M := cnc3axis A in let fo := nofZ (aF A) 1 in let k := c_init A 375 (tickWidth A) in
  let x0 := ex_at [0; 0; 0]%Z in let stops := [ex_at [50; 0; 0]%Z; ex_at [20; 40; 0]%Z] in
  funit_ok X M ex_unit /\ shop_ok X M ex_unit ex_shop /\ float32 (tickWidth A) (fu_W ex_unit) /\ idle X k (tickWidth A) fo /\
  (forall i, (i < 3)%nat -> Rabs (fu_k ex_unit i * x0 i - counted k i) <= 54/100) /\
  reached (g_f X) pi_f (gcode0 (g_f X)) (sm_new (g_f X)) /\ float64 (sm_radius (sm_new (g_f X))) 0 /\ at64 X (s_cur (g_st (gcode0 (g_f X)))) x0 /\
  (exists c m outs, g_run (g_f X) pi_f (gcode0 (g_f X)) (sm_new (g_f X)) (map txt ex_prog) = Ok (c, m, outs) /\
    straight_only outs /\ stops_fit X ex_unit ex_shop fo x0 (passed_on outs) stops [Some 20; Some 20]) /\
  (forall i, (i < 3)%nat -> Rabs (fu_k ex_unit i * last stops x0 i - IZR (nth i [4000; 8000; 0]%Z 0%Z)) < 999/1000 - reach (fu_B ex_unit) (fu_H ex_unit)).
Proof. exact prog_example. Qed.
