(** Specification notions over the reals for step tracking. *)
Require Import List Arith NArith ZArith Bool Reals.
From Verif Require Import Base StepModel Num NumR MotionModel CtrlModel CtrlSpec.
Import ListNotations.
Open Scope R_scope.

(** Commanded positions in steps, from positions in steps [xs] and the steps per
    mm [k]: the list handed to the controller, in mm. *)
Definition to_mm (k : R) (xs : list R) : list xr := map (fun x => XF (x / k)) xs.

(** Consecutive values differ by at most / less than d. *)
Fixpoint rate_le (d : R) (x0 : R) (xs : list R) : Prop :=
  match xs with [] => True | x :: r => Rabs (x - x0) <= d /\ rate_le d x r end.
Fixpoint rate_lt (d : R) (x0 : R) (xs : list R) : Prop :=
  match xs with [] => True | x :: r => Rabs (x - x0) < d /\ rate_lt d x r end.

(** The rate changes by less than d from one tick to the next. *)
Fixpoint smooth (d : R) (x0 : R) (xs : list R) : Prop :=
  match xs with
  | x1 :: ((x2 :: _) as r) => Rabs ((x2 - x1) - (x1 - x0)) < d /\ smooth d x1 r
  | _ => True
  end.

(** Positions inside the range of the step counter, so that no conversion overflows. *)
Definition in_range (x : R) : Prop := Rabs x <= 2147483000.

Definition pos_of (c : ctrl xr) (i : nat) : R := IZR (nth i (c_pos c) 0%Z).

(** *** Time.  The sample clock reads [t] and ticks by [w]. *)
Definition clock (c : ctrl xr) (w t : R) : Prop :=
  st_width (c_st c) = XF w /\
  exists o, st_offset (c_st c) = XF o /\ t = IZR (Z.of_N (st_index (c_st c))) * w + o /\ st_time (c_st c) = XF t.

Definition duration_of (o : motion xr) : xr := p_duration (mo_prof o).
Definition rsum (l : list R) : R := fold_right Rplus 0 l.
(** Duration other than minus infinity. *)
Definition notXM (o : motion xr) := duration_of o <> XM.
(** Planned to end at time [d], with no stop scheduled. *)
Definition finite_motion (o : motion xr) (d : R) : Prop :=
  duration_of o = XF d /\ p_tStop (mo_prof o) = XP.
(** A motion whose plan never has duration minus infinity, whatever was in its
    queue slot before. *)
Definition timed (M : machine xr) (m : smotion xr) : Prop :=
  forall o fo s, notXM (mo_set x_arith M o m fo s).
