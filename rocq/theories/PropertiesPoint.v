(** * C94: the position after a distance along a motion *)
Require Import List Arith NArith ZArith Bool Reals Lra Lia.
From Coq Require Import Floats.SpecFloat.
From Verif Require Import Base Num NumSF NumR MotionModel CtrlModel CtrlSpec CtrlRSpec GeomSpec GeomProofs RunSpec FloatSpec StopWitness PointModel PointProofs PropertiesRun.
Import ListNotations.
Open Scope R_scope.

(** Refuted.  Moving along X at Y5, a new point is reported to be at Y0: axes that do not move keep
    what the caller's point held before. *)
Theorem C94_other_axes_refuted : forall X, let A := sf_arith X in let M := cnc3axis A in let o := planned_alone A M (sideways A) in
  exists p, positionFromDistance A M o (pt_zero A) (nofZ (aF A) 0) = Ok p /\ nthF A (pt_mm p) 1 = nofZ (aF A) 0 /\ nth 1 (pt_steps p) 0%Z = 0%Z /\
    mo_position A o 1 (nofZ (aF A) 0) = nofZ (aF A) 5.
Proof. exact still_wrong. Qed.
Print Assumptions C94_other_axes_refuted.

(** Refuted.  At the end of a motion to X0.265, that is 53 steps, 52 steps are reported, where
    the controller stays when it has counted 53. *)
Theorem C94_steps_refuted : forall X, let A := sf_arith X in let M := cnc3axis A in let o := planned_alone A M (travMicro A 265) in let s := t_length (mo_traj o) in
  (exists p, positionFromDistance A M o (pt_zero A) s = Ok p /\ nthF A (pt_mm p) 0 = ndec (aF A) 265 3 /\ nth 0 (pt_steps p) 0%Z = 52%Z) /\
  forall c, nth 0 (c_pos c) 0%Z = 53%Z -> c_decide A M c 0 (mo_position A o 0 s) = Ok None.
Proof. exact steps_wrong. Qed.
Print Assumptions C94_steps_refuted.

(** What is true, in exact arithmetic: as long as the steps fit into 32 bits the call is defined; the axes
    that move get their place on the path, and its number of whole steps, rounded towards zero; an axis
    that keeps its old values is at the same place all along the path. *)
Theorem C94_on_path_partial : forall M r m P o (p : point xr) s, machine_is M r -> describes m P -> path_ok P -> mo_traj o = traj_set x_arith m ->
  length (pt_mm p) = 3%nat -> length (pt_steps p) = 3%nat -> (forall i, (i < 3)%nat -> Rabs (path_pos P i s * rm_k r i) < 2147483648) ->
  exists p', positionFromDistance x_arith M o p (XF s) = Ok p' /\
    forall i, (i < 3)%nat -> (mo_isMoving x_arith o i = false -> nthF x_arith (pt_mm p') i = nthF x_arith (pt_mm p) i /\ nth i (pt_steps p') 0%Z = nth i (pt_steps p) 0%Z /\
                                forall s', path_pos P i s' = path_pos P i 0) /\
      (mo_isMoving x_arith o i = true -> nthF x_arith (pt_mm p') i = XF (path_pos P i s) /\
        let z := IZR (nth i (pt_steps p') 0%Z) in let x := path_pos P i s * rm_k r i in Rabs z <= Rabs x < Rabs z + 1 /\ 0 <= x * z).
Proof. exact point_exact. Qed.
Print Assumptions C94_on_path_partial.
(** 5 mm along Y, at X10. *)
Example C94_hypotheses : let o := mo_set x_arith C64_machine (mo_zero x_arith) C64_m2 (XF 1) maximizeSpeed in
  machine_is C64_machine C64_limits /\ describes C64_m2 C64_P2 /\ path_ok C64_P2 /\ mo_traj o = traj_set x_arith C64_m2 /\
  forall s i, 0 <= s <= 5 -> (i < 3)%nat -> Rabs (path_pos C64_P2 i s * rm_k C64_limits i) < 2147483648.
Proof.
  destruct C64_machine_ok as (MI & _). destruct C64_m2_ok as (_ & DS & OK & _ & RG). split; [exact MI|]. split; [exact DS|]. split; [exact OK|]. split; [reflexivity|].
  intros s i Hs Hi. specialize (RG i s Hi Hs). unfold in_range in RG. rewrite Rmult_comm. lra.
Qed.

(** What is true, in binary32: up to a million steps the call is defined, the place in mm is the one the
    controller follows, and the steps are less than 17/16 off. *)
Theorem C94_single_partial : forall X M (k : nat -> R) o (p : point sf) s, let A := sf_arith X in (forall i, (i < 3)%nat -> float32 (nthF A (m_stepsPerMm M) i) (k i)) ->
  length (pt_mm p) = 3%nat -> length (pt_steps p) = 3%nat ->
  forall x, (forall i, (i < 3)%nat -> mo_isMoving A o i = true -> float32 (mo_position A o i s) (x i) /\ Rabs (x i * k i) <= 1000000) ->
  exists p', positionFromDistance A M o p s = Ok p' /\ forall i, (i < 3)%nat -> mo_isMoving A o i = true ->
    nthF A (pt_mm p') i = mo_position A o i s /\ Rabs (IZR (nth i (pt_steps p') 0%Z) - x i * k i) <= 1 + / 16.
Proof. exact point_single. Qed.
Print Assumptions C94_single_partial.
(** Half way along 10 mm. *)
Example C94_single_hypotheses : forall X, let A := sf_arith X in let M := cnc3axis A in let o := planned_alone A M (linX A 10 10) in let s := nofZ (aF A) 5 in
  (forall i, (i < 3)%nat -> float32 (nthF A (m_stepsPerMm M) i) 200) /\ mo_isMoving A o 0 = true /\
  forall i, (i < 3)%nat -> mo_isMoving A o i = true -> float32 (mo_position A o i s) 5 /\ Rabs (5 * 200) <= 1000000.
Proof. exact single_example. Qed.
