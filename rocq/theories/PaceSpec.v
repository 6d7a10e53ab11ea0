(** What is asked of a program so that the pins can follow it in real time. *)
Require Import List Arith NArith ZArith Bool Reals.
From Verif Require Import Base EventModel StepModel StepSpec Num NumR MotionModel CtrlModel CtrlSpec CtrlRSpec ProfileSpec GeomSpec RunSpec ReferenceSpec FlowModel FlowSpec.
Import ListNotations.
Open Scope R_scope.

(** How fast the speed of axis [i] changes at most (mm/s2): while the path speed changes, and
    in an arc by its curvature. *)
Definition turn (r : rmach) (i : nat) : R := rm_a r i + Rmax (rm_a r i) (- rm_d r i).

(** The axes move at most at [u i] mm/s, and so slowly that in 750 ticks (12.5 ms) at most
    83 steps are made: [u i] times the steps per mm; and, because an axis can make a step
    to and fro when it turns round, twice as many (and two) as times [g i] fit into this time,
    [g i] being so short (ticks) that an axis cannot turn round twice within it. *)
Definition moderate (r : rmach) (w : R) (N : nat) (u : nat -> R) : Prop :=
  exists g : nat -> R,
    (forall i, (i < 3)%nat -> 0 <= u i /\ 0 < g i /\ rm_k r i * turn r i * (w * w) * (g i * g i) <= 36/100) /\
    rsum (map (fun i => rm_k r i * u i * w * 750 + (1 + INR N * creep r w i) * (2 + 2 * (750 / g i))) [0; 1; 2]%nat) < 84.

(** A move that keeps this pace: the axis cannot go faster, or the feed says so. *)
Definition keeps (r : rmach) (u : nat -> R) (mv : move) : Prop :=
  forall i, (i < 3)%nat -> rm_v r i <= u i \/ (mv_mode mv <> Rapid /\ mv_inverse mv = false /\ mv_F mv / 60 <= u i).

(** The main loop keeps coming round: it is never more than 376 ticks (6.3 ms) late with
    254 passes. *)
Definition passes_in (ops : list flow_op) : nat := length (filter (fun o => match o with Tick => false | Pass => true end) ops).
Definition steady (ops : list flow_op) : Prop :=
  forall a b c, ops = a ++ b ++ c -> (passes_in b < 254)%nat -> (ticks_in b <= 376)%nat.
