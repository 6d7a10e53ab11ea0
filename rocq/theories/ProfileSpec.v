(** Specification of speed profiles over the reals. *)
Require Import Reals Lra.
From Verif Require Import NumR MotionModel.
Open Scope R_scope.

(** [s], [v], [acc] describe a speed change from [v0] to [v1] that takes time [T]
    and distance [L], within acceleration [a], deceleration [d] (negative) and,
    for second order profiles, jerk [j]. *)
Record ramp_spec (o : profileOrder) (v0 v1 a d j T L : R) (s v acc : R -> R) : Prop := {
  rs_T : 0 <= T;
  rs_L : 0 <= L;
  rs_start : s 0 = 0 /\ v 0 = v0;
  rs_end : s T = L /\ v T = v1;
  (* speed is the derivative of distance, acceleration that of speed *)
  rs_speed : forall t, 0 <= t <= T -> derivable_pt_lim s t (v t);
  rs_cont : forall t, 0 <= t <= T -> continuity_pt v t;
  rs_acc : forall t, 0 < t < T -> derivable_pt_lim v t (acc t);
  (* limits *)
  rs_vbound : forall t, 0 <= t <= T -> Rmin v0 v1 <= v t <= Rmax v0 v1;
  rs_abound : forall t, 0 <= t <= T -> d <= acc t <= a;
  rs_jerk : o = secondOrder -> forall t1 t2, 0 <= t1 <= T -> 0 <= t2 <= T ->
            Rabs (acc t1 - acc t2) <= j * Rabs (t1 - t2);
  rs_acc0 : o = secondOrder -> acc 0 = 0 /\ acc T = 0;
  (* the time needed: first order uses the full limit throughout *)
  rs_time : o = firstOrder -> T = if Rlt_dec v0 v1 then (v1 - v0) / a else (v1 - v0) / d;
  rs_avg : L = (v0 + v1) / 2 * T }.

(** Distance needed to change speed from [x] to [y] at constant acceleration. *)
Definition flen (a d x y : R) : R :=
  if Rlt_dec x y then (y * y - x * x) / (2 * a) else (y * y - x * x) / (2 * d).

(** A whole motion from time [t0] at distance [s0] and speed [v0] to time [t1] at
    distance [s1] and speed [v1], never slower than 0 nor faster than [vm], with
    speed changes within [a] and [d]. *)
Record plan_spec (v0 v1 a d vm t0 s0 t1 s1 : R) (s v acc : R -> R) : Prop := {
  ps_time : t0 <= t1;
  ps_start : s t0 = s0 /\ v t0 = v0;
  ps_end : s t1 = s1 /\ v t1 = v1;
  ps_speed : forall t, t0 < t < t1 -> derivable_pt_lim s t (v t);
  ps_scont : forall t, t0 <= t <= t1 -> continuity_pt s t;
  ps_cont : forall t, t0 <= t <= t1 -> continuity_pt v t;
  ps_vbound : forall t, t0 <= t <= t1 -> 0 <= v t <= vm;
  ps_accel : forall x y, t0 <= x <= y -> y <= t1 -> d * (y - x) <= v y - v x <= a * (y - x);
  ps_energy : forall x y, t0 <= x <= y -> y <= t1 ->
              2 * d * (s y - s x) <= v y * v y - v x * v x <= 2 * a * (s y - s x);
  ps_abound : forall t, t0 < t <= t1 -> d <= acc t <= a }.

(** The inputs of planning for a motion of length [len]: [v0] at the current
    point (time [t0], distance [s0]), [v1] at the end, limits [a] [d] [j], speed
    cap [vm] = the smaller of vMax and vFeed times the override. *)
Record plan_input (p : profile xr) (fo : xr) (v0 v1 a d j vm t0 s0 : R) : Prop := {
  pi_v0 : ad_vStart (p_left p) = XF v0;
  pi_v1 : ad_vEnd (p_right p) = XF v1;
  pi_a : p_aMax p = XF a; pi_d : p_dMax p = XF d; pi_j : p_jMax p = XF j;
  pi_t0 : p_doneDuration p = XF t0; pi_s0 : p_doneLength p = XF s0;
  pi_cap : (if xltb (p_vMax p) (xmul (p_vFeed p) fo) then p_vMax p else xmul (p_vFeed p) fo) = XF vm;
  pi_apos : 0 < a; pi_dneg : d < 0; pi_jpos : 0 < j;
  pi_v0pos : 0 <= v0; pi_v1pos : 0 <= v1 }.

(** The cruise speed asked for: the cap, or 0 when stopping. *)
Definition target (s : motionStrategy) (vm : R) : R :=
  match s with maximizeSpeed => vm | minimizeSpeed => 0 end.

(** It is possible to get from [v0] to [v1] within distance [L]. *)
Definition feasible (v0 v1 a d L : R) : Prop :=
  v1 * v1 <= v0 * v0 + 2 * a * L /\ v0 * v0 <= v1 * v1 - 2 * d * L.
