(** Properties of arcs given by their radius, in the arithmetic of the target: C89. *)
Require Import String List Arith NArith ZArith Bool Reals.
From Coq Require Import Floats.SpecFloat.
From Verif Require Import Base Num NumR NumSF MotionModel CtrlModel CtrlSpec GeomSpec ProfileSpec RunSpec GcodeModel GcodeSpec GcodeRSpec GText GWitness FloatSpec FloatRunSpec FloatProgSpec FloatArcSpec FloatBendSpec FloatRadiusSpec FloatRadiusProofs FloatRadiusWitness.
Import ListNotations.
Open Scope R_scope.

(** C89: refuted.  "G0 X10.1", "G2 X20.3 R5.1 F600" asks for half a circle.  The rounded radius is too
    short for the rounded distance: the motion is announced without an error, but the
    commanded position of X and Y is not a number at any distance, whatever the library, the machine, the
    motion object it is written to and the override. *)
Theorem C89_half_circle_refuted : forall X, exists c m, run X ex_half = Ok (c, m) /\ g_res c = OkContextUpdateAndMotion /\ g_err c = ENone /\ sm_type m = feedHelicalCW /\
  let A := sf_arith X in forall M o fo s i dist, (i < 2)%nat ->
    mo_position A (mo_set A M o m fo s) i dist = S754_nan /\ ntoZ (aF A) (nround (aF A) (mo_position A (mo_set A M o m fo s) i dist)) = None.
Proof. exact half_circle. Qed.
Print Assumptions C89_half_circle_refuted.

(** True: away from half circles.  In every reachable state and every unit and plane, a line with a
    radius and without offsets makes an arc about the centre of the arc asked for, the short or the long one, on
    the correct side. *)
Theorem C89_radius_partial : forall X pi c m l c' m' ws a0 a1 y r p q, line_words (g_f X) l ws -> reached (g_f X) pi c m ->
  g_line (g_f X) pi c m l = Ok (c', m') -> made_motion c' m' -> is_arc_type (sm_type m') ->
  arc_axes (s_plane (g_st c')) = (a0, a1) -> (forall i, (i < 3)%nat -> ~ has_letter ws (fst (offset_letter i))) -> has_value ws cR y -> float64 y r -> sensible r ->
  at64 X (s_cur (g_st c)) p -> at64 X (s_cur (g_st c')) q -> Rabs (p a0) <= 1000000 -> Rabs (p a1) <= 1000000 ->
  let R := mm (s_unit (g_st c')) r in let dd := dist2 (p a0) (p a1) (q a0) (q a1) in
  Rabs R <= 400000 -> / 1000000 <= dd -> 1000 * dd <= 3999 * sq R ->
  sm_arc0 m' = a0 /\ sm_arc1 m' = a1 /\
  exists c0 c1 rr e0 e1, float64 (sm_center0 m') c0 /\ float64 (sm_center1 m') c1 /\ float64 (sm_radius m') rr /\
    centre_of (is_cw (sm_type m')) R (p a0) (p a1) (q a0) (q a1) e0 e1 /\
    Rabs (c0 - e0) <= / 1000000000 + Rabs R / 5000000000000 /\ Rabs (c1 - e1) <= / 1000000000 + Rabs R / 5000000000000 /\ Rabs (rr - Rabs R) <= / 1000000000.
Proof. exact radius_near. Qed.
Print Assumptions C89_radius_partial.

(** Up to and with half circles: this, less accurately, or not a number as above; nothing in between. *)
Theorem C89_all_or_nothing_partial : forall X pi c m l c' m' ws a0 a1 y r p q, line_words (g_f X) l ws -> reached (g_f X) pi c m ->
  g_line (g_f X) pi c m l = Ok (c', m') -> made_motion c' m' -> is_arc_type (sm_type m') ->
  arc_axes (s_plane (g_st c')) = (a0, a1) -> (forall i, (i < 3)%nat -> ~ has_letter ws (fst (offset_letter i))) -> has_value ws cR y -> float64 y r -> sensible r ->
  at64 X (s_cur (g_st c)) p -> at64 X (s_cur (g_st c')) q -> Rabs (p a0) <= 1000000 -> Rabs (p a1) <= 1000000 ->
  let R := mm (s_unit (g_st c')) r in let dd := dist2 (p a0) (p a1) (q a0) (q a1) in
  Rabs R <= 400000 -> / 1000000 <= dd -> dd <= 4 * sq R ->
  sm_arc0 m' = a0 /\ sm_arc1 m' = a1 /\ (sm_center0 m' = S754_nan /\ sm_center1 m' = S754_nan \/
  exists c0 c1 rr e0 e1, float64 (sm_center0 m') c0 /\ float64 (sm_center1 m') c1 /\ float64 (sm_radius m') rr /\
    centre_of (is_cw (sm_type m')) R (p a0) (p a1) (q a0) (q a1) e0 e1 /\
    Rabs (c0 - e0) <= / 1000000000 + Rabs R / 20000000 /\ Rabs (c1 - e1) <= / 1000000000 + Rabs R / 20000000 /\ Rabs (rr - Rabs R) <= / 1000000000).
Proof. exact radius_half. Qed.
Print Assumptions C89_all_or_nothing_partial.

(** "G3 X3 Y4 R-5 F600" as the first line of a program. *)
Example C89_hypotheses : forall X, let d := nofZ (g_f X) in reached (g_f X) pi_f (gcode0 (g_f X)) (sm_new (g_f X)) /\
  exists c m ws q, line_words (g_f X) ex_long ws /\ g_line (g_f X) pi_f (gcode0 (g_f X)) (sm_new (g_f X)) ex_long = Ok (c, m) /\ made_motion c m /\ is_arc_type (sm_type m) /\ is_cw (sm_type m) = false /\
    arc_axes (s_plane (g_st c)) = (0, 1)%nat /\ s_unit (g_st c) = G21 /\
    (forall i, (i < 3)%nat -> ~ has_letter ws (fst (offset_letter i))) /\ has_value ws cR (d (-5)%Z) /\ float64 (d (-5)%Z) (-5) /\ sensible (-5) /\
    at64 X (s_cur (g_st (gcode0 (g_f X)))) (fun _ => 0) /\ at64 X (s_cur (g_st c)) q /\ q 0%nat = 3 /\ q 1%nat = 4 /\
    / 1000000 <= dist2 0 0 3 4 /\ 1000 * dist2 0 0 3 4 <= 3999 * sq (-5).
Proof. exact long_words. Qed.
