(** Specification of a whole run: a sequence of motions executed one after the
    other, over the reals. *)
Require Import List Arith NArith ZArith Bool Reals.
From Verif Require Import Base EventModel StepModel StepSpec Num NumR MotionModel CtrlModel CtrlSpec CtrlRSpec ProfileSpec GeomSpec.
Import ListNotations.
Open Scope R_scope.

(** One motion as executed: along a path, in a given time, having covered
    distance [lg_s t] at time [t]. *)
Record leg := mkLeg { lg_path : path; lg_T : R; lg_s : R -> R }.

(** [l] is a proper execution of a motion with feed [f] and override [fo] on
    machine [r]: from rest at the start of the path to rest at its end, speed and
    acceleration such that every axis stays within its limits, never faster
    than the feed.  It is not needlessly slow: the top speed [vm] is reached, and is
    the limit of an axis, the feed, or the highest speed from which the motion can
    still be braked to rest at its end; the average speed is at least [vm]/2. *)
Definition leg_ok (r : rmach) (f : xr) (fo : R) (l : leg) : Prop :=
  path_ok (lg_path l) /\ 0 < lg_T l /\
  exists V a d vm v acc, limits_ok r (lg_path l) V a d /\ 0 < vm <= V /\
    (forall x, f = XF x -> vm <= x * fo) /\
    plan_spec 0 0 a d vm 0 0 (lg_T l) (pa_len (lg_path l)) (lg_s l) v acc /\
    (vm = V \/ (exists x, f = XF x /\ vm = x * fo) \/ vm * vm / (2 * a) + vm * vm / (2 * - d) = pa_len (lg_path l)) /\
    (exists t, 0 <= t <= lg_T l /\ v t = vm) /\ lg_T l <= 2 * pa_len (lg_path l) / vm.

(** Where the machine is at time [t] of the sequence: the legs still to be done,
    the time since the current one began, and where the last completed one ended
    ([x0] when there is none). *)
Fixpoint locate (x0 : nat -> R) (legs : list leg) (t : R) : (nat -> R) * list leg * R :=
  match legs with
  | [] => (x0, [], t)
  | l :: r => if Rle_dec t (lg_T l) then (x0, legs, t)
              else locate (fun i => path_pos (lg_path l) i (pa_len (lg_path l))) r (t - lg_T l)
  end.
(** Position (mm) of axis [i] at time [t]: on the path, and at its end afterwards. *)
Definition where_at (x0 : nat -> R) (legs : list leg) (t : R) (i : nat) : R :=
  match locate x0 legs t with
  | (x, [], _) => x i
  | (_, l :: _, t') => path_pos (lg_path l) i (lg_s l t')
  end.
Definition total (legs : list leg) : R := rsum (map lg_T legs).

(** How many legs are complete at time [t]. *)
Fixpoint finished (legs : list leg) (t : R) : nat :=
  match legs with
  | [] => 0
  | l :: r => if Rle_dec t (lg_T l) then 0 else S (finished r (t - lg_T l))
  end.

(** Each path begins where the previous one ended, the first at [x0]. *)
Fixpoint chained (x0 : nat -> R) (Ps : list path) : Prop :=
  match Ps with
  | [] => True
  | P :: r => (forall i, (i < 3)%nat -> path_pos P i 0 = x0 i) /\
              chained (fun i => path_pos P i (pa_len P)) r
  end.
Fixpoint end_of (x0 : nat -> R) (Ps : list path) : nat -> R :=
  match Ps with [] => x0 | P :: r => end_of (fun i => path_pos P i (pa_len P)) r end.

(** A motion the controller can execute: a move along a path of positive length,
    with a positive feed (infinite for a traverse), within the range of the step
    counters. *)
Definition executable (r : rmach) (m : smotion xr) (P : path) : Prop :=
  is_move (sm_type m) = true /\ describes m P /\ path_ok P /\
  (sm_vFeed m = XP \/ exists f, 0 < f /\ sm_vFeed m = XF f) /\
  forall i s, (i < 3)%nat -> 0 <= s <= pa_len P -> in_range (rm_k r i * path_pos P i s).

(** A controller at rest with nothing to do. *)
Record at_rest (c : ctrl xr) (w fo : R) : Prop := {
  ar_state : c_state c = ms_stopped;
  ar_level : c_level c = 0%N;
  ar_head : (c_head c < 32)%N;
  ar_items : length (c_items c) = 32%nat;
  ar_clock : c_st c = mkST (XF 0) (XF 0) 0 (XF w);
  ar_fo : c_fo c = XF fo;
  ar_pos : length (c_pos c) = 3%nat }.

(** How far, in steps, axis [i] moves at most while coming to rest within one tick. *)
Definition creep (r : rmach) (w : R) (i : nat) : R := rm_k r i * - rm_d r i * (w * w).
(** Steps per tick at full speed. *)
Definition tick_rate (r : rmach) (w : R) (i : nat) : R := rm_k r i * rm_v r i * w.

(** What happens after the start: the main loop asks for output records, and
    the host appends further motions. *)
Inductive rop := RCalc | RAppend (m : smotion xr) (P : path).
Definition rop_op (o : rop) : c_op xr xr := match o with RCalc => OCalc | RAppend m _ => OAppend m end.
Definition appended (ops : list rop) : list (smotion xr * path) :=
  flat_map (fun o => match o with RCalc => [] | RAppend m P => [(m, P)] end) ops.
Fixpoint calcs (ops : list rop) : N :=
  match ops with [] => 0 | RCalc :: r => 1 + calcs r | RAppend _ _ :: r => calcs r end%N.
(** The host appends only while the controller is running and its queue has
    room; [pre] is what was done before. *)
Definition fed (M : machine xr) (c : ctrl xr) (pre : list (c_op xr xr)) (ops : list rop) : Prop :=
  forall p m P rest c' recs, ops = p ++ RAppend m P :: rest -> c_run x_arith M c (pre ++ map rop_op p) = Ok (c', recs) ->
    c_state c' = ms_running /\ (c_level c' < 32)%N.

(** The step counters are within [e i] of the place [x] (mm). *)
Definition within (r : rmach) (e : nat -> R) (x : nat -> R) (c : ctrl xr) : Prop :=
  forall i, (i < 3)%nat -> Rabs (rm_k r i * x i - IZR (nth i (c_pos c) 0%Z)) <= e i.

(** The step rate of axis [i] leaves room for every pulse: at most one step in
    ten ticks, and little drift over [N] motions. *)
Definition calm (r : rmach) (w : R) (N : nat) (i : nat) : Prop :=
  tick_rate r w i <= 1/10 /\ INR N * creep r w i <= 1/2.

(** Not too long for the clock: a leg takes fewer than 2^32 - 1 ticks (20 hours at
    60 kHz). *)
Definition short (w : R) (l : leg) : Prop := lg_T l < 4294967295 * w.

(** The operations of a run: queue [qs], start, then [ops]. *)
Definition job (qs : list (smotion xr * path)) (ops : list rop) : list (c_op xr xr) :=
  map (fun q => OAppend (fst q)) qs ++ OStart :: map rop_op ops.

(** The time covered by the output records, in seconds. *)
Definition elapsed (w : R) (recs : list step) : R := IZR (Z.of_N (sum_times recs)) * w.

(** The motion cannot take too long for the clock. *)
Definition brief (r : rmach) (w fo : R) (m : smotion xr) (P : path) : Prop :=
  forall l, lg_path l = P -> leg_ok r (sm_vFeed m) fo l -> short w l.

(** What is asked of a job: motions that can be executed, none too long, not
    more than the queue holds at first, and the host feeds it properly. *)
Record job_ok (M : machine xr) (r : rmach) (w fo : R) (c : ctrl xr) (qs : list (smotion xr * path)) (ops : list rop) : Prop := {
  jo_some : qs <> [];
  jo_room : (length qs <= 32)%nat;
  jo_exec : Forall (fun q => executable r (fst q) (snd q)) (qs ++ appended ops);
  jo_brief : Forall (fun q => brief r w fo (fst q) (snd q)) (qs ++ appended ops);
  jo_fed : fed M c (job qs []) ops }.

(** Jobs one after the other: for each the override [fo] is set, then it is run until
    the controller has stopped. *)
Definition jobs := list (R * list (smotion xr * path) * list rop).
Definition motions (js : jobs) : list (smotion xr * path) := flat_map (fun j => snd (fst j) ++ appended (snd j)) js.
Definition overridden (c : ctrl xr) (fo : R) : ctrl xr :=
  mkC (c_state c) (XF fo) (c_st c) (c_items c) (c_head c) (c_level c) (c_levelMax c) (c_sig c) (c_pos c) (c_events c).
Definition jobs_ops (js : jobs) : list (c_op xr xr) :=
  flat_map (fun j => OOverride (XF (fst (fst j))) :: job (snd (fst j)) (snd j)) js.
Inductive jobs_done (M : machine xr) (r : rmach) (w : R) : ctrl xr -> jobs -> ctrl xr -> list step -> Prop :=
| jobs_none c : jobs_done M r w c [] c []
| jobs_next c fo qs ops c1 recs js c2 recs2 : 0 < fo -> job_ok M r w fo (overridden c fo) qs ops ->
    c_run x_arith M c (OOverride (XF fo) :: job qs ops) = Ok (c1, recs) -> c_state c1 = ms_stopped ->
    jobs_done M r w c1 js c2 recs2 -> jobs_done M r w c ((fo, qs, ops) :: js) c2 (recs ++ recs2).
