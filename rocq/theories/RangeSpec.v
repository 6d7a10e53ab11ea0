(** Specification of the range the axes move in: C95. *)
Require Import String List Arith NArith ZArith Bool Reals.
From Coq Require Import Floats.SpecFloat.
From Verif Require Import Base Num NumSF MotionModel CtrlModel CtrlSpec GeomSpec GcodeModel FloatSpec FloatRunSpec FloatBendSpec.
Import ListNotations.
Open Scope R_scope.

(** A box: for each axis an interval, in mm. *)
Definition in_box (lo hi x : nat -> R) : Prop := forall i, (i < 3)%nat -> lo i <= x i <= hi i.
(** How far, in mm, axis [i] may get out of the box through rounding. *)
Definition stray (lo hi : nat -> R) (i : nat) : R := / 900000 + (hi i - lo i) / 450000.
(** The counted steps are in the box, as far as the rounding goes. *)
Definition counts_in (u : funit) (lo hi : nat -> R) (c : ctrl sf) : Prop := forall i, (i < 3)%nat ->
  fu_k u i * (lo i - stray lo hi i) - reach (fu_B u) (fu_H u) <= counted c i <= fu_k u i * (hi i + stray lo hi i) + reach (fu_B u) (fu_H u).
(** The ways asked for, one after the other from [p], straight or round an arc, are in the box, *)
Definition way_in (lo hi p : nat -> R) (t : stop) : Prop :=
  forall i x, (i < 3)%nat -> 0 <= x <= 1 -> lo i <= path_pos (way p t) i (x * pa_len (way p t)) <= hi i.
Fixpoint route_in (lo hi p : nat -> R) (stops : list stop) : Prop :=
  match stops with [] => True | t :: r => way_in lo hi p t /\ route_in lo hi (to_pos t) r end.
(** and so are the counted steps: [fu_H] is the length of the longest motion, in steps. *)
Definition counts_along (u : funit) (lo hi : nat -> R) (c : ctrl sf) : Prop := let e := reach (fu_B u) (fu_H u) + fu_H u / 450000 in forall i, (i < 3)%nat ->
  fu_k u i * (lo i - / 1000000) - e <= counted c i <= fu_k u i * (hi i + / 1000000) + e.
(** No error is reported. *)
Definition accepted (o : @gcode sf * smotion sf) : Prop := g_res (fst o) = OkContextUpdateOnly \/ g_res (fst o) = OkContextUpdateAndMotion.

(** *** For examples. *)
Definition ex_far : list string := ["G21 G90 F1200"; "G1 Z50"; "Z100"]%string.
