(** Specification of how an axis accelerates. *)
Require Import Reals.
From Verif Require Import Num NumR MotionModel.
Open Scope R_scope.

(** [x t] is where the planned motion [o] has axis [i] at time [t], from [t0] to [t1]. *)
Definition axis_follows (o : motion xr) (i : nat) (x : R -> R) (t0 t1 : R) : Prop :=
  forall t, t0 <= t <= t1 ->
    mo_position x_arith o i (p_s x_num (mo_prof o) (XF t)) = XF (x t).

(** The position [x] has acceleration [w] at time [t]: it has a speed around [t],
    and that speed has the derivative [w] at [t]. *)
Definition accelerates (x : R -> R) (t w : R) : Prop :=
  exists u e, 0 < e /\ (forall t', Rabs (t' - t) < e -> derivable_pt_lim x t' (u t')) /\
              derivable_pt_lim u t w.

(** The larger of an acceleration limit and a (negative) deceleration limit. *)
Definition strongest (a d : R) : R := Rmax a (- d).

(** The plan [p] ends (at the end of the path, or at rest on the way) at time [t]. *)
Definition ends_at (p : profile xr) (t : R) : Prop := p_duration p = XF t \/ p_tStop p = XF t.
