(** Properties of programs with straight motions and arcs, from their text to the counted
    steps, in the arithmetic of the target: C81. *)
Require Import String List Arith NArith ZArith Bool Reals.
From Coq Require Import Floats.SpecFloat.
From Verif Require Import Base Num NumR NumSF MotionModel GcodeModel GcodeSpec GcodeRSpec GText CtrlModel CtrlSpec GeomSpec ProfileSpec RunSpec FloatSpec FloatRunSpec FloatProgSpec FloatArcSpec FloatBendSpec GLineProofs FloatReadProofs FloatTextProofs FloatBendProofs FloatWayProofs FloatOffsetProofs.
Import ListNotations.
Open Scope R_scope.

(** C81.  The circle of an arc with its offsets: about the start plus the offsets, through
    the start, in the plane selected. *)
Theorem C81_circle : forall X pi c m l c' m' ws a0 a1 y0 y1 o0 o1 p, line_words (g_f X) l ws -> reached (g_f X) pi c m ->
  g_line (g_f X) pi c m l = Ok (c', m') -> made_motion c' m' -> is_arc_type (sm_type m') ->
  arc_axes (s_plane (g_st c')) = (a0, a1) -> has_value ws (fst (offset_letter a0)) y0 -> has_value ws (fst (offset_letter a1)) y1 ->
  float64 y0 o0 -> float64 y1 o1 -> sensible o0 -> sensible o1 -> at64 X (s_cur (g_st c)) p -> Rabs (p a0) <= 1000000 -> Rabs (p a1) <= 1000000 ->
  let v := mm (s_unit (g_st c')) in / 1000 <= sqrt (sq (v o0) + sq (v o1)) <= 400000 ->
  sm_arc0 m' = a0 /\ sm_arc1 m' = a1 /\
  exists c0 c1 r, float64 (sm_center0 m') c0 /\ float64 (sm_center1 m') c1 /\ float64 (sm_radius m') r /\
    Rabs (c0 - (p a0 + v o0)) <= / 1000000000 /\ Rabs (c1 - (p a1 + v o1)) <= / 1000000000 /\ Rabs (r - sqrt (sq (v o0) + sq (v o1))) <= / 200000000.
Proof. exact circle_near. Qed.
Print Assumptions C81_circle.

(** The feed of an arc: in units per minute the active F, in mm/s, up to five roundings. *)
Theorem C81_feed : forall X pi c m l c' m' ws, line_words (g_f X) l ws -> reached (g_f X) pi c m ->
  g_line (g_f X) pi c m l = Ok (c', m') -> made_motion c' m' -> is_arc_type (sm_type m') ->
  forall x f, active_feed (g_f X) ws (letter (g_f X) (g_st c) LtF) x -> float64 x f -> sensible f -> s_feed (g_st c') = G94 ->
     exists v, float64 (sm_vFeed m') v /\ nearly 5 v (mm (s_unit (g_st c')) f / 60).
Proof. exact arc_feed_near. Qed.
Print Assumptions C81_feed.

(** "G20 G3 X0 Y8 I-3 J4 F10" as the first line of a program: a radius of five inches. *)
Example C81_words : forall X, let d := nofZ (g_f X) in reached (g_f X) pi_f (gcode0 (g_f X)) (sm_new (g_f X)) /\ at64 X (s_cur (g_st (gcode0 (g_f X)))) (fun _ => 0) /\
  exists c m ws, line_words (g_f X) ex_bend ws /\ g_line (g_f X) pi_f (gcode0 (g_f X)) (sm_new (g_f X)) ex_bend = Ok (c, m) /\ made_motion c m /\ is_arc_type (sm_type m) /\
    arc_axes (s_plane (g_st c)) = (0, 1)%nat /\ s_unit (g_st c) = G20 /\ s_feed (g_st c) = G94 /\
    has_value ws (fst (offset_letter 0)) (d (-3)%Z) /\ has_value ws (fst (offset_letter 1)) (d 4%Z) /\ active_feed (g_f X) ws (letter (g_f X) (g_st (gcode0 (g_f X))) LtF) (d 10%Z) /\
    float64 (d (-3)%Z) (-3) /\ float64 (d 4%Z) 4 /\ float64 (d 10%Z) 10 /\ sensible (-3) /\ sensible 4 /\ sensible 10 /\
    sqrt (sq (mm G20 (-3)) + sq (mm G20 4)) = 127.
Proof. exact bend_words. Qed.

(** A program of straight motions and arcs is read; the motions it makes, at most 32, are
    queued on an idle controller standing at the parser's position, and started.  It
    goes from each position to the next, straight or round the arc in the direction
    asked for, everywhere to within a millionth of a mm, with the feeds asked for and
    within the limits of every axis, at every tick where it should be at that time, and
    in the end it is idle at the parser's position: if that is a whole number of steps, or
    near enough to one, exactly this number is counted. *)
Theorem C81_program_followed : forall X M u s fo, funit_ok X M u -> shop_ok X M u s -> trig_ok X -> atan_ok X -> forall w, float32 w (fu_W u) ->
  forall pi c m ls c' m' outs r x0 stops fs k, pi_ok pi -> reached (g_f X) pi c m -> float64 (sm_radius m) r -> at64 X (s_cur (g_st c)) x0 ->
  g_run (g_f X) pi c m ls = Ok (c', m', outs) -> reported outs -> route_fits X u s fo (s_cur (g_st c)) x0 (passed_on outs) stops fs -> (1 <= length stops <= 32)%nat ->
  idle X k w fo -> (forall i, (i < 3)%nat -> Rabs (fu_k u i * x0 i - counted k i) <= 54/100) ->
  let x1 := last (map to_pos stops) x0 in
  at64 X (s_cur (g_st c')) x1 /\
  exists k0 legs (n : nat) kn,
    c_run (sf_arith X) M k (map (fun o => OAppend (snd o)) (passed_on outs) ++ [OStart]) = Ok (k0, []) /\
    route_done u s x0 stops fs legs /\
    (forall j, (j < n)%nat -> exists kj, ticks_run (sf_arith X) M j k0 = Ok kj /\ under_way u x0 legs kj j) /\
    ticks_run (sf_arith X) M n k0 = Ok kn /\ all_done u x0 legs kn n /\ idle X kn w fo /\
    forall i z, (i < 3)%nat -> Rabs (fu_k u i * x1 i - IZR z) < 999/1000 - reach (fu_B u) (fu_H u) -> nth i (c_pos kn) 0%Z = z.
Proof. intros X M u s fo UO SO TO AO w FW pi c m ls c' m' outs r x0 stops fs k PO RE. exact (route_lemma X M u s fo UO SO w TO AO FW pi c m ls c' m' outs r x0 stops fs k PO (reached_sized _ _ _ _ RE)). Qed.
Print Assumptions C81_program_followed.

(** Such libraries exist. *)
Example C81_library : forall X, trig_ok (exact_funs X) /\ atan_ok (exact_funs X).
Proof. exact exact_funs_ok. Qed.
(** A line, a quarter of a circle and a helix back at F1200, on the machine of the firmware:
    4000, 0 and 2000 steps. *)
Example C81_hypotheses : forall X, let A := sf_arith X in let M := cnc3axis A in let fo := nofZ (aF A) 1 in let k := c_init A 375 (tickWidth A) in
  let x0 := ex_at [0; 0; 0]%Z in let stops := [mkStop (ex_at [20; 0; 0]%Z) None; mkStop (ex_at [0; 20; 0]%Z) (Some ex_left); mkStop (ex_at [20; 0; 10]%Z) (Some ex_back)] in
  funit_ok X M ex_unit /\ shop_ok X M ex_unit ex_shop /\ float32 (tickWidth A) (fu_W ex_unit) /\ idle X k (tickWidth A) fo /\ pi_ok pi_f /\
  (forall i, (i < 3)%nat -> Rabs (fu_k ex_unit i * x0 i - counted k i) <= 54/100) /\
  reached (g_f X) pi_f (gcode0 (g_f X)) (sm_new (g_f X)) /\ float64 (sm_radius (sm_new (g_f X))) 0 /\ at64 X (s_cur (g_st (gcode0 (g_f X)))) x0 /\
  (exists c m outs, g_run (g_f X) pi_f (gcode0 (g_f X)) (sm_new (g_f X)) (map txt ex_bends) = Ok (c, m, outs) /\
    reported outs /\ route_fits X ex_unit ex_shop fo (s_cur (g_st (gcode0 (g_f X)))) x0 (passed_on outs) stops [Some 20; Some 20; Some 20]) /\
  (forall i, (i < 3)%nat -> Rabs (fu_k ex_unit i * last (map to_pos stops) x0 i - IZR (nth i [4000; 0; 2000]%Z 0%Z)) < 999/1000 - reach (fu_B ex_unit) (fu_H ex_unit)).
Proof. exact bends_example. Qed.
