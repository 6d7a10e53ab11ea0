(** * Lines with arcs ask for the arcs that C81 follows *)
Require Import String List Arith NArith ZArith Bool Reals.
From Coq Require Import Floats.SpecFloat.
From Verif Require Import Base Num NumR NumSF MotionModel GcodeModel GcodeSpec GcodeRSpec GText CtrlModel CtrlSpec GeomSpec ProfileSpec RunSpec.
From Verif Require Import FloatSpec FloatRunSpec FloatProgSpec FloatArcSpec FloatBendSpec FloatRadiusSpec GLineProofs FloatTextProofs FloatAskProofs.
Import ListNotations.
Open Scope R_scope.

(** C81.  A line with the offsets of the centre, in every reachable state: the motion it makes asks,
    in the sense of [C81_program_followed], for an arc about the start plus the offsets, in the
    direction of its code.  The end may be off the circle ([Q] and [R] differ), but it must be
    away from the start, or have the same coordinates: then it is a whole turn. *)
Theorem C81_arc_asked : forall X pi c m l c' m' ws a0 a1 y0 y1 o0 o1 p q, line_words (g_f X) l ws -> reached (g_f X) pi c m -> g_line (g_f X) pi c m l = Ok (c', m') -> made_motion c' m' -> is_arc_type (sm_type m') ->
  arc_axes (s_plane (g_st c')) = (a0, a1) -> has_value ws (fst (offset_letter a0)) y0 -> has_value ws (fst (offset_letter a1)) y1 ->
  float64 y0 o0 -> float64 y1 o1 -> sensible o0 -> sensible o1 -> at64 X (s_cur (g_st c)) p -> Rabs (p a0) <= 1000000 -> Rabs (p a1) <= 1000000 -> at64 X (s_cur (g_st c')) q ->
  let v := mm (s_unit (g_st c')) in let R := sqrt (sq (v o0) + sq (v o1)) in let Q := sqrt (dist2 (p a0 + v o0) (p a1 + v o1) (q a0) (q a1)) in
  / 1000 <= R <= 400000 ->
  (R / 500000 + 2 * Rabs (Q - R) + / 1000000 <= sqrt (dist2 (p a0) (p a1) (q a0) (q a1)) \/
   forall i, i = a0 \/ i = a1 -> coord_at (g_f X) (s_cur (g_st c')) i = coord_at (g_f X) (s_cur (g_st c)) i) ->
  exists A hp hq, arc_asked X m' (s_cur (g_st c)) (s_cur (g_st c')) p q A hp hq /\ ar_0 A = a0 /\ ar_1 A = a1 /\
    Rabs (ar_c0 A - (p a0 + v o0)) <= / 1000000000 /\ Rabs (ar_c1 A - (p a1 + v o1)) <= / 1000000000 /\ Rabs (ar_r A - R) <= / 200000000 /\
    Rabs (hp - R) <= / 500000000 /\ Rabs (hq - Q) <= / 500000000.
Proof. exact offsets_asked. Qed.
Print Assumptions C81_arc_asked.

(** "G3 X0 Y8 I-3 J4 F600" as the first line of a program. *)
Example C81_asked_words : forall X, let d := nofZ (g_f X) in let p := fun _ : nat => 0 in let q := ex_at [0; 8; 0]%Z in let line := txt "G3 X0 Y8 I-3 J4 F600" in
  reached (g_f X) pi_f (gcode0 (g_f X)) (sm_new (g_f X)) /\ at64 X (s_cur (g_st (gcode0 (g_f X)))) p /\
  (exists c m ws, line_words (g_f X) line ws /\ g_line (g_f X) pi_f (gcode0 (g_f X)) (sm_new (g_f X)) line = Ok (c, m) /\ made_motion c m /\ is_arc_type (sm_type m) /\
    arc_axes (s_plane (g_st c)) = (0, 1)%nat /\ s_unit (g_st c) = G21 /\ at64 X (s_cur (g_st c)) q /\
    has_value ws (fst (offset_letter 0)) (d (-3)%Z) /\ has_value ws (fst (offset_letter 1)) (d 4%Z) /\ float64 (d (-3)%Z) (-3) /\ float64 (d 4%Z) 4 /\ sensible (-3) /\ sensible 4) /\
  sqrt (sq (mm G21 (-3)) + sq (mm G21 4)) = 5 /\ sqrt (dist2 (p 0%nat + mm G21 (-3)) (p 1%nat + mm G21 4) (q 0%nat) (q 1%nat)) = 5 /\ sqrt (dist2 (p 0%nat) (p 1%nat) (q 0%nat) (q 1%nat)) = 8 /\
  5 / 500000 + 2 * Rabs (5 - 5) + / 1000000 <= 8.
Proof. exact turn_words. Qed.

(** C89.  A line with a radius: the same for the short or the long arc with this radius, the end
    being away from the start and less than nearly two radii from it ([C89_hypotheses] is
    such a line). *)
Theorem C89_arc_asked_partial : forall X pi c m l c' m' ws a0 a1 y r p q, line_words (g_f X) l ws -> reached (g_f X) pi c m ->
  g_line (g_f X) pi c m l = Ok (c', m') -> made_motion c' m' -> is_arc_type (sm_type m') ->
  arc_axes (s_plane (g_st c')) = (a0, a1) -> (forall i, (i < 3)%nat -> ~ has_letter ws (fst (offset_letter i))) -> has_value ws cR y -> float64 y r -> sensible r ->
  at64 X (s_cur (g_st c)) p -> at64 X (s_cur (g_st c')) q -> Rabs (p a0) <= 1000000 -> Rabs (p a1) <= 1000000 ->
  let R := mm (s_unit (g_st c')) r in let dd := dist2 (p a0) (p a1) (q a0) (q a1) in
  Rabs R <= 400000 -> / 1000000 <= dd -> sq R <= 250000000000 * dd -> 1000 * dd <= 3999 * sq R ->
  exists A hp hq e0 e1, arc_asked X m' (s_cur (g_st c)) (s_cur (g_st c')) p q A hp hq /\ ar_0 A = a0 /\ ar_1 A = a1 /\
    centre_of (is_cw (sm_type m')) R (p a0) (p a1) (q a0) (q a1) e0 e1 /\
    let e := / 1000000000 + Rabs R / 5000000000000 in
    Rabs (ar_c0 A - e0) <= e /\ Rabs (ar_c1 A - e1) <= e /\ Rabs (ar_r A - Rabs R) <= / 1000000000 /\ Rabs (hp - Rabs R) <= 2 * e /\ Rabs (hq - Rabs R) <= 2 * e.
Proof. exact radius_asked. Qed.
Print Assumptions C89_arc_asked_partial.
