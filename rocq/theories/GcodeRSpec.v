(** Notions for the statements about parsed motions over the reals. *)
Require Import List Arith NArith ZArith Bool Reals.
From Verif Require Import Base Num NumR MotionModel GcodeModel GcodeSpec GeomSpec.
Import ListNotations.
Open Scope R_scope.

(** All parameter values, positions and offsets are finite numbers. *)
Definition finite_state (s : @gstate xr) : Prop :=
  (forall g, exists r, letter x_num s g = XF r) /\
  (forall i, exists r, coord_at x_num (s_cur s) i = XF r) /\
  (forall c i, exists r, offset x_num s c i = XF r).
Definition finite_radius (m : smotion xr) : Prop := exists r, sm_radius m = XF r.

(** The axes of position [p] are at the reals [x]. *)
Definition at_mm (p : list xr) (x : nat -> R) : Prop := forall i, (i < 3)%nat -> coord_at x_num p i = XF (x i).

(** A length given in the unit, in mm. *)
Definition mm (u : mUnit) (x : R) : R := match u with G20 => x * (254 / 10) | G21 => x end.

(** The axes of the active plane, as this controller numbers planes, and the
    letters of their centre offsets. *)
Definition arc_axes (p : mPlane) : nat * nat := match p with G17 => (0, 1) | G18 => (1, 2) | G19 => (2, 0) end%nat.
Definition offset_letter (i : nat) : N * gletter := match i with 0 => (cI, LtI) | 1 => (cJ, LtJ) | _ => (cK, LtK) end%nat.

Definition is_arc_type (t : motionType) : Prop := t = feedHelicalCW \/ t = feedHelicalCCW.
Definition is_line_type (t : motionType) : Prop := t = traverse \/ t = feedLinear.
Definition is_feed_type (t : motionType) : Prop := t = feedLinear \/ is_arc_type t.

(** The motion [m] is a path from [p] to [q]. *)
Definition goes (m : smotion xr) (P : path) (p q : nat -> R) : Prop :=
  describes m P /\ path_ok P /\
  forall i, (i < 3)%nat -> path_pos P i 0 = p i /\ path_pos P i (pa_len P) = q i.

Definition dist2 (x0 y0 x1 y1 : R) : R := sq (x1 - x0) + sq (y1 - y0).

(** Turning from [sa] by [da] around the centre goes from the direction of (p0,p1)
    to the direction of (q0,q1), clockwise resp. counterclockwise, and at most once
    around; never not at all. *)
Definition swept (cw : bool) (c0 c1 p0 p1 q0 q1 sa da : R) : Prop :=
  let rp := sqrt (dist2 c0 c1 p0 p1) in let rq := sqrt (dist2 c0 c1 q0 q1) in
  (p0 = c0 + rp * cos sa /\ p1 = c1 + rp * sin sa) /\
  (q0 = c0 + rq * cos (sa + da) /\ q1 = c1 + rq * sin (sa + da)) /\
  (if cw then - (2 * PI) <= da < 0 else 0 < da <= 2 * PI).

(** The distance between two positions. *)
Definition distance (p q : nat -> R) : R :=
  sqrt (sq (q 0%nat - p 0%nat) + sq (q 1%nat - p 1%nat) + sq (q 2%nat - p 2%nat)).

(** The motion is an arc in the plane of axes a0, a1, with these centre, radius,
    start angle and swept angle. *)
Definition arc_is (m : smotion xr) (a0 a1 : nat) (c0 c1 r sa da : R) : Prop :=
  sm_arc0 m = a0 /\ sm_arc1 m = a1 /\ sm_center0 m = XF c0 /\ sm_center1 m = XF c1 /\
  sm_radius m = XF r /\ sm_startAngle m = XF sa /\ sm_deltaAngle m = XF da.
(** Clockwise. *)
Definition is_cw (t : motionType) : bool := match t with feedHelicalCW => true | _ => false end.
