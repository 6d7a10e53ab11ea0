(** Positions along a motion: motionitem.cpp:280-297 and general/point.h.  Only the unit tests call it. *)
Require Import List Arith NArith ZArith Bool.
From Verif Require Import Base Num MotionModel.
Import ListNotations.

(** general/point.h:13-19 *)
Record point (F : Type) := mkPt { pt_mm : list F; pt_steps : list Z }.
Arguments mkPt {F}. Arguments pt_mm {F}. Arguments pt_steps {F}.

Section Point.
Context {D F : Type} (A : arith D F) (M : machine F).
Local Notation K := (aF A).

(** point.h:15-16: a point as it is constructed *)
Definition pt_zero : point F := mkPt (map (fun _ => nofZ K 0) axes) (map (fun _ => 0%Z) axes).

(** motionitem.cpp:285-291 *)
Definition pt_axis_mm (t : traj F) (i : nat) (s : F) : F :=
  if (i =? t_arc0 t)%nat then
    nadd K (t_center0 t) (nmul K (t_radius t) (ncos K (nadd K (t_startAngle t) (nmul K (nthF A (t_dRT t) i) s))))
  else if (i =? t_arc1 t)%nat then
    nadd K (t_center1 t) (nmul K (t_radius t) (nsin K (nadd K (t_startAngle t) (nmul K (nthF A (t_dRT t) i) s))))
  else nadd K (nthF A (t_start t) i) (nmul K (nthF A (t_dRT t) i) s).
(** motionitem.cpp:293: conversion to int32_t, undefined when out of range *)
Definition pt_axis_steps (i : nat) (mm : F) : res Z :=
  match ntoZ K (nmul K mm (nthF A (m_stepsPerMm M) i)) with
  | Some z => if int32_ok z then Ok z else UB
  | None => UB
  end.
(** motionitem.cpp:282-296 *)
Fixpoint pt_axes (o : motion F) (s : F) (p : point F) (l : list nat) : res (point F) :=
  match l with
  | [] => Ok p
  | i :: r =>
      if mo_isMoving A o i then
        let mm := pt_axis_mm (mo_traj o) i s in
        z <- pt_axis_steps i mm ;;
        pt_axes o s (mkPt (upd (pt_mm p) i mm) (upd (pt_steps p) i z)) r
      else pt_axes o s p r
  end.
(** motionitem.cpp:280-297: the caller's point [p], after the call *)
Definition positionFromDistance (o : motion F) (p : point F) (s : F) : res (point F) := pt_axes o s p axes.
End Point.
