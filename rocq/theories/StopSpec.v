(** Specification of stopping and resuming, over the reals. *)
Require Import List Arith NArith ZArith Bool Reals.
From Verif Require Import Base EventModel StepModel StepSpec Num NumR MotionModel CtrlModel CtrlSpec CtrlRSpec ProfileSpec GeomSpec RunSpec.
Import ListNotations.
Open Scope R_scope.

(** [l] is an execution of a motion, possibly interrupted: from rest at the start
    of the path to rest at its end, never going back, with the limits of [leg_ok]. *)
Definition leg_fine (r : rmach) (f : xr) (fo : R) (l : leg) : Prop :=
  path_ok (lg_path l) /\ 0 < lg_T l /\
  exists V a d vm v acc, limits_ok r (lg_path l) V a d /\ 0 < vm <= V /\
    (forall x, f = XF x -> vm <= x * fo) /\
    plan_spec 0 0 a d vm 0 0 (lg_T l) (pa_len (lg_path l)) (lg_s l) v acc.

(** At time [t] of motion [h] there is room to stop it in time: it is not just gaining
    speed (after [T0], where it was last planned, it does so until [T0 + T1]), and
    what is left of it is more than the distance in which its speed [v] can be taken
    away with deceleration [d] and jerk [j]. *)
Definition room_to_stop (h : motion xr) (t : R) : Prop :=
  exists T0 T1 s v d j len, p_doneDuration (mo_prof h) = XF T0 /\ ad_duration (p_left (mo_prof h)) = XF T1 /\ (t <= T0 \/ T0 + T1 < t) /\
    p_s x_num (mo_prof h) (XF t) = XF s /\ p_v x_num (mo_prof h) (XF t) = XF v /\
    p_dMax (mo_prof h) = XF d /\ p_jMax (mo_prof h) = XF j /\ t_length (mo_traj h) = XF len /\
    v / 2 * (v / - d + - d / j) < len - s.

(** How long it takes to brake the motion [h] from its speed at time [t]. *)
Definition stop_time (h : motion xr) (t : R) (x : R) : Prop :=
  exists v d j, p_v x_num (mo_prof h) (XF t) = XF v /\ p_dMax (mo_prof h) = XF d /\ p_jMax (mo_prof h) = XF j /\ x = v / - d + - d / j.

(** A session with stops: the main loop asks for output records, the host appends
    motions, stops and resumes. *)
Inductive sop := SCalc | SAppend (m : smotion xr) (P : path) | SStop | SStart.
Definition sop_op (o : sop) : c_op xr xr :=
  match o with SCalc => OCalc | SAppend m _ => OAppend m | SStop => OStop | SStart => OStart end.
Definition sappended (ops : list sop) : list (smotion xr * path) :=
  flat_map (fun o => match o with SAppend m P => [(m, P)] | _ => [] end) ops.
Fixpoint scalcs (ops : list sop) : N :=
  match ops with [] => 0 | SCalc :: r => 1 + scalcs r | _ :: r => scalcs r end%N.
(** Queue [qs], start, then [ops]. *)
Definition session (qs : list (smotion xr * path)) (ops : list sop) : list (c_op xr xr) :=
  job qs [] ++ map sop_op ops.

(** A stop can be asked for. *)
Definition may_stop (c : ctrl xr) : Prop :=
  c_state c = ms_running /\ exists t, st_time (c_st c) = XF t /\ room_to_stop (c_getHead x_arith c) t.
(** The host behaves: it stops only when it may, resumes only when the controller
    has come to a stop with motions left, appends only while motions are left and
    the queue has room; no motion takes more ticks than the clock can count. *)
Definition allowed (c : ctrl xr) (o : sop) : Prop :=
  match o with
  | SCalc => (st_index (c_st c) + N.max 1 (sg_maxTicks (c_sig c)) < two32)%N
  | SAppend _ _ => c_level c <> 0%N /\ (c_level c < 32)%N
  | SStop => may_stop c
  | SStart => c_state c = ms_stopped /\ c_level c <> 0%N
  end.
Definition proper (M : machine xr) (c : ctrl xr) (qs : list (smotion xr * path)) (ops : list sop) : Prop :=
  forall p o rest c' recs, ops = p ++ o :: rest -> c_run x_arith M c (session qs p) = Ok (c', recs) -> allowed c' o.

(** [clk k] is how long the machine has been moving after [k] operations: time
    passes as the output records say, but not while the controller is stopped (it may
    stop during an operation). *)
Definition motion_clock (M : machine xr) (w : R) (c : ctrl xr) (qs : list (smotion xr * path)) (ops : list sop) (clk : nat -> R) : Prop :=
  clk 0%nat = 0 /\
  forall p o rest c1 r1 c2 r2, ops = p ++ o :: rest -> c_run x_arith M c (session qs p) = Ok (c1, r1) ->
    c_step x_arith M c1 (sop_op o) = Ok (c2, r2) ->
    let dt := clk (S (length p)) - clk (length p) in
    0 <= dt <= elapsed w r2 /\ (c_state c2 <> ms_stopped -> dt = elapsed w r2) /\ (c_state c1 = ms_stopped -> dt = 0).

(** The machine stands still at time [T]: it has not moved for some time. *)
Definition standing (x0 : nat -> R) (legs : list leg) (T : R) : Prop :=
  exists d, 0 < d /\ forall y i, T - d <= y <= T -> where_at x0 legs y i = where_at x0 legs T i.

(** Nothing but records and appended motions. *)
Definition quiet (o : sop) : Prop := match o with SCalc | SAppend _ _ => True | _ => False end.

(** What is asked of a session: a controller at rest at [x0], motions that can be
    executed, not more than the queue holds at first and not more than [N] in all,
    each beginning where the one before ends, and a host that behaves. *)
Definition session_ok (M : machine xr) (r : rmach) (w fo : R) (N : nat) (x0 : nat -> R) (c0 : ctrl xr)
    (qs : list (smotion xr * path)) (ops : list sop) : Prop :=
  at_rest c0 w fo /\ sg_ticks (c_sig c0) = 0%N /\ (sg_maxTicks (c_sig c0) < two32)%N /\ qs <> [] /\ (length qs <= 32)%nat /\
  Forall (fun q => executable r (fst q) (snd q)) (qs ++ sappended ops) /\ (length (qs ++ sappended ops) <= N)%nat /\
  chained x0 (map snd (qs ++ sappended ops)) /\ within r (fun _ => 55/100) x0 c0 /\ proper M c0 qs ops.
