(** Specification of the position the controller reports, in single precision, and of a
    motion of one axis that starts from there, as homing asks for. *)
Require Import List Arith NArith ZArith Bool Reals.
From Coq Require Import Floats.SpecFloat.
From Verif Require Import Base Num NumR NumSF MotionModel CtrlModel CtrlSpec HomingModel FloatSpec GeomSpec ProfileSpec RunSpec FloatRunSpec.
Import ListNotations.
Open Scope R_scope.

(** The position reported for axis [i]. *)
Definition reported (X : sf_funs) (M : machine sf) (c : ctrl sf) (i : nat) : sf := nthF (sf_arith X) (c_getMachinePosition (sf_arith X) M c) i.
(** The speed [sp], times the override [fo], is [f] mm/s. *)
Definition speed_is (sp fo : sf) (f : R) : Prop :=
  exists g o, float64 sp g /\ 0 < g <= 1000000000 /\ float32 fo o /\ / 1000 <= o <= 1000 /\ f = g * o.
(** Along [ax] only, by [x], from [p]. *)
Definition axis_path (p : nat -> R) (ax : nat) (x : R) : path := mkPath (Rabs x) p (fun i => if Nat.eqb i ax then x else 0) None.
(** Moving axis [ax] by [x] mm at [f] mm/s from where [c] stands is within the limits of the
    axes, [a], [d], [v] and the jerk [j], and within the bounds [u]. *)
Record errand (u : funit) (a d v : nat -> R) (j : R) (c : ctrl sf) (ax : nat) (x f : R) : Prop := {
  er_axis : (ax < 3)%nat;
  er_steps : forall i, (i < 3)%nat -> / 1048576 <= fu_k u i <= 1048576;
  er_length : / 8192 <= Rabs x <= 500000;
  er_feed : / 8192 <= f <= v ax;
  er_gentle : gentle a d v j (Rabs x) (Some f);
  er_room : forall i, (i < 3)%nat -> Rabs (counted c i) + 2 * (fu_k u i * Rabs x) + 2 <= fu_B u /\ fu_k u i * Rabs x <= fu_H u /\
    Rabs (counted c i) / fu_k u i + Rabs x + 1 <= 1048576;
  (* it does not take longer than [fu_T], nor less than some five ticks *)
  er_brief : 301/100 * Rabs x <= f * fu_T u /\ 301/100 * Rabs x * (/ a ax + / d ax) <= fu_T u * fu_T u;
  er_long : 501/100 * (f * tick_gap (fu_W u) (fu_T u)) <= Rabs x;
  (* at most one step between two readings of the clock, and slow at its ends *)
  er_rate : forall i, (i < 3)%nat -> fu_k u i * (1001/1000 * (f * tick_gap (fu_W u) (fu_T u))) <= 1;
  er_soft : forall i, (i < 3)%nat -> fu_k u i * (1001/1000 * (a ax * (last_gap (fu_W u) (fu_T u) * last_gap (fu_W u) (fu_T u)))) <= 1/20 /\
    fu_k u i * (1001/1000 * (d ax * (last_gap (fu_W u) (fu_T u) * last_gap (fu_W u) (fu_T u)))) <= 1/20 }.
(** [l] are the limits of axis [ax] and the speed [f], to within one part in 250000. *)
Definition limits_of (a d : nat -> R) (ax : nat) (f : R) (l : flimits) : Prop :=
  Rabs (fl_a l - a ax) <= a ax / 250000 /\ Rabs (fl_d l - d ax) <= d ax / 250000 /\ Rabs (fl_vm l - f) <= f / 250000.

(** *** For examples: 300 mm and 60 mm at 10 mm/s on the machine of the firmware. *)
Definition ex_far : funit := mkFU (fun _ => 200) 262144 60000 (9162597 / 549755813888) 91.
Definition ex_near : funit := mkFU (fun _ => 200) 65536 12000 (9162597 / 549755813888) 19.
