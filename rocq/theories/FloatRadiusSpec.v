(** Specification of arcs given by their radius, in the arithmetic of the target. *)
Require Import String List Arith NArith ZArith Bool Reals.
From Coq Require Import Floats.SpecFloat.
From Verif Require Import Base Num NumR NumSF MotionModel CtrlModel CtrlSpec GeomSpec ProfileSpec RunSpec GcodeModel GcodeSpec GcodeRSpec GText FloatSpec FloatRunSpec FloatProgSpec FloatArcSpec FloatBendSpec.
Import ListNotations.
Open Scope R_scope.

(** Positive if (e0, e1) is on the left of the way from (p0, p1) to (q0, q1), negative on the right. *)
Definition on_left (p0 p1 q0 q1 e0 e1 : R) : R := (q0 - p0) * (e1 - p1) - (q1 - p1) * (e0 - p0).
(** (e0, e1) is the centre of the arc of radius [Rabs R] from (p0, p1) to (q0, q1): turning left, the centre
    of the short arc ([R] positive) is on the left, that of the long arc ([R] negative) on
    the right; turning right ([cw]), the other way round.  (It is on the line between them for half a circle.) *)
Definition centre_of (cw : bool) (R p0 p1 q0 q1 e0 e1 : R) : Prop :=
  dist2 e0 e1 p0 p1 = sq R /\ dist2 e0 e1 q0 q1 = sq R /\
  (cw = false /\ 0 < R \/ cw = true /\ R < 0 -> 0 <= on_left p0 p1 q0 q1 e0 e1) /\
  (cw = true /\ 0 < R \/ cw = false /\ R < 0 -> on_left p0 p1 q0 q1 e0 e1 <= 0).
(** Half a circle, from 10.1 to 20.3 mm with radius 5.1 mm. *)
Definition ex_half : list string := ["G0 X10.1"; "G2 X20.3 R5.1 F600"]%string.
(** The long way round, turning left. *)
Definition ex_long : list N := txt "G3 X3 Y4 R-5 F600".
