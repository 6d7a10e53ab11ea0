(** C86: how hard an axis is accelerated. *)
Require Import List Reals Lra Lia.
From Verif Require Import Base Num NumR MotionModel ProfileSpec GeomSpec AxisAccelSpec AxisAccelProofs.
Open Scope R_scope.

(** C86: refuted.  In exact arithmetic, from rest, on an arc of radius 1 mm: the
    planner limits the acceleration along the path and the acceleration towards
    the centre each to the limit of the axis, but not their sum, so that X is
    accelerated with more than 213 mm/s2 where its limit is 200 mm/s2. *)
Theorem C86_axis_acceleration_refuted : exists M r m P, machine_is M r /\ describes m P /\ path_ok P /\
  let o := mo_set x_arith M (mo_zero x_arith) m (XF 1) maximizeSpeed in
  exists T x t w, p_duration (mo_prof o) = XF T /\ axis_follows o 0 x 0 T /\ 0 < t < T /\ accelerates x t w /\
    strongest (rm_a r 0%nat) (rm_d r 0%nat) + 13 < Rabs w.
Proof. exact fast_refuted. Qed.
Print Assumptions C86_axis_acceleration_refuted.

(** C86, true variant.  An axis that moves straight stays within its own limit, and
    an axis of an arc within sqrt 2 times its limit, at every moment of every plan
    (from any speed to any speed, also when stopping). *)
Theorem C86_axis_acceleration_partial : forall (m : smotion xr) P M r o fo st v0 v1 a d j vm t0 s0 V,
  describes m P -> path_ok P -> machine_is M r ->
  limits x_arith M (traj_set x_arith m) = (XF V, XF a, XF d) ->
  mo_traj o = traj_set x_arith m -> is_move (mo_type o) = true ->
  plan_input (mo_prof o) fo v0 v1 a d j vm t0 s0 -> feasible v0 v1 a d (pa_len P - s0) -> 0 <= pa_len P - s0 ->
  0 <= vm <= V -> v0 <= V -> v1 <= V ->
  exists t1 x, t0 <= t1 /\ ends_at (mo_prof (mo_optimize x_arith M o fo st)) t1 /\
    forall i, (i < 3)%nat ->
      axis_follows (mo_optimize x_arith M o fo st) i (x i) t0 t1 /\
      (forall t w, t0 < t < t1 -> accelerates (x i) t w ->
        Rabs w <= (if on_arc P i then sqrt 2 else 1) * strongest (rm_a r i) (rm_d r i)).
Proof. exact planned_accel. Qed.
Print Assumptions C86_axis_acceleration_partial.

(** The arc of the refutation meets the hypotheses. *)
Example C86_hypotheses :
  describes fast_motion fast_arc /\ path_ok fast_arc /\ machine_is fast_machine fast_limits /\
  limits x_arith fast_machine (traj_set x_arith fast_motion) = (XF (sqrt 200), XF 200, XF (-200)) /\
  mo_traj fast_before = traj_set x_arith fast_motion /\ is_move (mo_type fast_before) = true /\
  plan_input (mo_prof fast_before) (XF 1) 0 0 200 (-200) 600 (sqrt 200) 0 0 /\
  feasible 0 0 200 (-200) (pa_len fast_arc - 0) /\ on_arc fast_arc 0 = true.
Proof.
  destruct fast_describes as (DS & OK & MI). split; [exact DS|]. split; [exact OK|]. split; [exact MI|].
  split; [exact fast_limit|]. split; [reflexivity|]. split; [reflexivity|]. split; [exact fast_input|].
  split; [unfold feasible; cbn; lra|reflexivity].
Qed.
