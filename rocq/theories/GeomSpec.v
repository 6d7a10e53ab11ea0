(** Specification of paths and machine limits over the reals. *)
Require Import List Arith NArith ZArith Bool Reals.
From Verif Require Import Num NumR MotionModel CtrlModel.
Open Scope R_scope.

(** An arc in the plane of two axes: centre, radius, start angle, swept angle. *)
Record arcp := mkArc { ar_0 : nat; ar_1 : nat; ar_c0 : R; ar_c1 : R; ar_r : R; ar_a0 : R; ar_da : R }.
(** A path: its length, for each axis start and displacement, and possibly an arc
    in two of the axes (the others then move linearly: a helix). *)
Record path := mkPath { pa_len : R; pa_start : nat -> R; pa_delta : nat -> R; pa_arc : option arcp }.

Definition on_arc (P : path) (i : nat) : bool :=
  match pa_arc P with Some a => (i =? ar_0 a)%nat || (i =? ar_1 a)%nat | None => false end.
Definition linear_pos (P : path) (i : nat) (s : R) : R := pa_start P i + pa_delta P i * (s / pa_len P).
(** Where axis [i] is after travelling [s] along the path. *)
Definition path_pos (P : path) (i : nat) (s : R) : R :=
  match pa_arc P with
  | Some a =>
      let angle := ar_a0 a + ar_da a * (s / pa_len P) in
      if (i =? ar_0 a)%nat then ar_c0 a + ar_r a * cos angle
      else if (i =? ar_1 a)%nat then ar_c1 a + ar_r a * sin angle
      else linear_pos P i s
  | None => linear_pos P i s
  end.

Definition sq (x : R) : R := x * x.
(** The length is the Euclidean length of the path, and not zero. *)
Definition path_ok (P : path) : Prop :=
  0 < pa_len P /\
  let lin i := if on_arc P i then 0 else sq (pa_delta P i) in
  match pa_arc P with
  | Some a => 0 < ar_r a /\ (ar_0 a < 3)%nat /\ (ar_1 a < 3)%nat /\ ar_0 a <> ar_1 a /\
              sq (pa_len P) = sq (ar_r a * ar_da a) + (lin 0%nat + lin 1%nat + lin 2%nat)
  | None => sq (pa_len P) = lin 0%nat + lin 1%nat + lin 2%nat
  end.

(** The motion descriptor [m] (as filled in by the parser) means path [P]. *)
Definition describes (m : smotion xr) (P : path) : Prop :=
  sm_length m = XF (pa_len P) /\
  (forall i, (i < 3)%nat -> nthD x_arith (sm_start m) i = XF (pa_start P i)) /\
  (forall i, (i < 3)%nat -> nthD x_arith (sm_delta m) i = XF (pa_delta P i)) /\
  match pa_arc P with
  | Some a => sm_arc0 m = ar_0 a /\ sm_arc1 m = ar_1 a /\ sm_center0 m = XF (ar_c0 a) /\ sm_center1 m = XF (ar_c1 a) /\
              sm_radius m = XF (ar_r a) /\ sm_startAngle m = XF (ar_a0 a) /\ sm_deltaAngle m = XF (ar_da a)
  | None => sm_arc0 m = 3%nat /\ sm_arc1 m = 3%nat
  end.

(** Limits of a real machine: speed, acceleration, deceleration (negative) and
    steps per mm of each axis, jerk. *)
Record rmach := mkRM { rm_v : nat -> R; rm_a : nat -> R; rm_d : nat -> R; rm_k : nat -> R; rm_j : R }.
Definition machine_is (M : machine xr) (r : rmach) : Prop :=
  m_jMax M = XF (rm_j r) /\ 0 < rm_j r /\
  forall i, (i < 3)%nat ->
    nthF x_arith (m_vMax M) i = XF (rm_v r i) /\ nthF x_arith (m_aMax M) i = XF (rm_a r i) /\
    nthF x_arith (m_dMax M) i = XF (rm_d r i) /\ nthF x_arith (m_stepsPerMm M) i = XF (rm_k r i) /\
    0 < rm_v r i /\ 0 < rm_a r i /\ rm_d r i < 0 /\ 0 < rm_k r i.

(** Share of the path speed that axis [i] gets; an arc axis may get all of it. *)
Definition share (P : path) (i : nat) : R := if on_arc P i then 1 else pa_delta P i / pa_len P.

(** Path limits that keep every axis within the machine's limits, and cannot be raised. *)
Record limits_ok (r : rmach) (P : path) (v a d : R) : Prop := {
  lo_pos : 0 < v /\ 0 < a /\ d < 0;
  lo_v : forall i, (i < 3)%nat -> v * Rabs (share P i) <= rm_v r i;
  lo_a : forall i, (i < 3)%nat -> a * Rabs (share P i) <= rm_a r i;
  lo_d : forall i, (i < 3)%nat -> rm_d r i <= d * Rabs (share P i);
  lo_c : forall arc i, pa_arc P = Some arc -> on_arc P i = true -> v * v / ar_r arc <= rm_a r i;
  lo_vmax : exists i, (i < 3)%nat /\ (v * Rabs (share P i) = rm_v r i \/
              exists arc, pa_arc P = Some arc /\ on_arc P i = true /\ v * v / ar_r arc = rm_a r i);
  lo_amax : exists i, (i < 3)%nat /\ a * Rabs (share P i) = rm_a r i;
  lo_dmax : exists i, (i < 3)%nat /\ d * Rabs (share P i) = rm_d r i }.
