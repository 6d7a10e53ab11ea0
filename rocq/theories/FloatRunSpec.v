(** Specification of a run of straight motions as the controller computes it on the
    target, in single precision. *)
Require Import List Arith NArith ZArith Bool Reals.
From Coq Require Import Floats.SpecFloat.
From Verif Require Import Base Num NumR NumSF MotionModel CtrlModel CtrlSpec FloatSpec GeomSpec ProfileSpec RunSpec.
Import ListNotations.
Open Scope R_scope.

(** Each path begins where the previous one ended, the first at [x0], to within a
    thousandth of a step; [k i] are the steps per mm of axis [i]. *)
Fixpoint joined (k : nat -> R) (x0 : nat -> R) (Ps : list path) : Prop :=
  match Ps with
  | [] => True
  | P :: r => (forall i, (i < 3)%nat -> Rabs (k i * (path_pos P i 0 - x0 i)) <= / 1000) /\
              joined k (fun i => path_pos P i (pa_len P)) r
  end.

(** Axis [i] does not move along [P]. *)
Definition still (P : path) (i : nat) : Prop := forall x y, path_pos P i x = path_pos P i y.
(** An axis that moves neither along [P] nor then along [P'] stays where it is. *)
Definition flush (P P' : path) : Prop := forall i, (i < 3)%nat -> still P i -> still P' i -> path_pos P' i 0 = path_pos P i (pa_len P).

(** How far, in steps, the counted position may be from the exact one: [B] bounds the
    positions and [H] the length of a motion, both in steps. *)
Definition reach (B H : R) : R := 64/100 + 3 * slack B + H / 56000.
(** The longest time between two readings of the clock, [W] being the tick and [Tmax]
    the longest motion: it is longer than [W] since large readings are coarse. *)
Definition tick_gap (W Tmax : R) : R := W + Tmax / 1500000.
(** The longest time between the last sample of a motion and its end. *)
Definition last_gap (W Tmax : R) : R := W + Tmax / 100000.

(** [x] is a finite binary64 number and stands for [r]. *)
Definition float64 (x : spec_float) (r : R) : Prop := valid_binary 53 1024 x = true /\ sf_val x = Some r.

(** The machine and the bounds of a run: [fu_k] the steps per mm of each axis, [fu_B] and
    [fu_H] bounds for positions and lengths of motions, both in steps, [fu_W] the tick
    and [fu_T] the longest duration of a motion, in seconds. *)
Record funit := mkFU { fu_k : nat -> R; fu_B : R; fu_H : R; fu_W : R; fu_T : R }.
Record funit_ok (X : sf_funs) (M : machine sf) (u : funit) : Prop := {
  fu_steps : forall i, (i < 3)%nat -> float32 (nthF (sf_arith X) (m_stepsPerMm M) i) (fu_k u i) /\ 0 < fu_k u i;
  fu_large : 0 <= fu_B u <= 1048576 /\ 0 <= fu_H u <= 262144;
  fu_tick : / 1048576 <= fu_W u <= / 4;
  fu_brief : fu_T u <= 524288 /\ fu_T u <= 4000000000 * fu_W u }.

(** The limits of a motion: acceleration, deceleration, jerk, top speed, and its
    length in single precision. *)
Record flimits := mkFL { fl_a : R; fl_d : R; fl_j : R; fl_vm : R; fl_L : R }.

(** The motion [m], as the parser hands it over in double precision, is a straight
    move along [P] with limits [l]. *)
Record straight (X : sf_funs) (M : machine sf) (fo : sf) (u : funit) (m : smotion sf) (P : path) (l : flimits) : Prop := {
  sg_move : is_move (sm_type m) = true;
  sg_line : pa_arc P = None /\ sm_arc0 m = 3%nat /\ sm_arc1 m = 3%nat;
  sg_length : float64 (sm_length m) (pa_len P);
  sg_start : forall i, (i < 3)%nat -> float64 (nthD (sf_arith X) (sm_start m) i) (pa_start P i);
  (* an axis moves by nothing, or not by an absurdly small part of the length *)
  sg_delta : forall i, (i < 3)%nat -> float64 (nthD (sf_arith X) (sm_delta m) i) (pa_delta P i) /\ Rabs (pa_delta P i) <= pa_len P /\
    (pa_delta P i = 0 \/ pa_len P <= 1000000000000000000000000 * Rabs (pa_delta P i));
  sg_plan : standing X (prof_setSpeed (sf_arith X) M (p_zero (aF (sf_arith X))) (traj_set (sf_arith X) m) m)
    (t_length (traj_set (sf_arith X) m)) fo (fl_a l) (fl_d l) (fl_j l) (fl_vm l) (fl_L l);
  sg_range : forall i, (i < 3)%nat -> fu_k u i * (Rabs (pa_start P i) + 2 * pa_len P) + 1 <= fu_B u /\ fu_k u i * pa_len P <= fu_H u /\
    Rabs (pa_start P i) + pa_len P <= 1048576;
  (* it does not take longer than [fu_T], nor less than some five ticks *)
  sg_brief : 3 * pa_len P <= fl_vm l * fu_T u /\ 3 * pa_len P * (/ fl_a l + / fl_d l) <= fu_T u * fu_T u;
  sg_long : 5 * (fl_vm l * tick_gap (fu_W u) (fu_T u)) <= pa_len P;
  (* at most one step between two readings of the clock, and slow at its ends *)
  sg_rate : forall i, (i < 3)%nat -> fu_k u i * (fl_vm l * tick_gap (fu_W u) (fu_T u)) <= 1;
  sg_soft : forall i, (i < 3)%nat -> fu_k u i * (fl_a l * (last_gap (fu_W u) (fu_T u) * last_gap (fu_W u) (fu_T u))) <= 1/20 /\
    fu_k u i * (fl_d l * (last_gap (fu_W u) (fu_T u) * last_gap (fu_W u) (fu_T u))) <= 1/20 }.

(** [g] executes a motion along [P] from rest to rest within limits [l]; what it covers
    differs from the length by at most a 450000th part. *)
Definition executes (u : funit) (g : leg) (P : path) (l : flimits) : Prop :=
  lg_path g = P /\ 0 < lg_T g <= fu_T u /\
  exists len v acc, plan_spec 0 0 (fl_a l) (- fl_d l) (fl_vm l) 0 0 (lg_T g) len (lg_s g) v acc /\ Rabs (len - pa_len P) <= pa_len P / 450000.

(** A controller at rest with nothing to do, the tick being [w]. *)
Record idle (X : sf_funs) (c : ctrl sf) (w fo : sf) : Prop := {
  id_state : c_state c = ms_stopped;
  id_level : c_level c = 0%N;
  id_head : (c_head c < 32)%N;
  id_items : length (c_items c) = 32%nat;
  id_clock : c_st c = mkST (nofZ (aF (sf_arith X)) 0) (nofZ (aF (sf_arith X)) 0) 0 w;
  id_fo : c_fo c = fo;
  id_pos : length (c_pos c) = 3%nat }.
(** The position counted on axis [i]. *)
Definition counted (c : ctrl sf) (i : nat) : R := IZR (nth i (c_pos c) 0%Z).

(** A motion to be queued: as handed over, its path and its limits. *)
Record fmotion := mkFQ { fq_m : smotion sf; fq_P : path; fq_l : flimits }.
Definition fq_ok (X : sf_funs) (M : machine sf) (fo : sf) (u : funit) (q : fmotion) : Prop := straight X M fo u (fq_m q) (fq_P q) (fq_l q).
(** [n] ticks after the start the controller is on its way along [legs], from [x0]: to
    within one part in 32768 it is where it should be at that time. *)
Definition under_way (u : funit) (x0 : nat -> R) (legs : list leg) (c : ctrl sf) (n : nat) : Prop := c_state c = ms_running /\
  exists t, 0 <= t <= total legs /\ Rabs (t - INR n * fu_W u) <= INR n * fu_W u / 32768 /\
    forall i, (i < 3)%nat -> Rabs (fu_k u i * where_at x0 legs t i - counted c i) <= reach (fu_B u) (fu_H u).
(** [n] ticks after the start all motions are done, in time. *)
Definition all_done (u : funit) (x0 : nat -> R) (legs : list leg) (c : ctrl sf) (n : nat) : Prop := c_state c = ms_stopped /\ c_level c = 0%N /\
  (forall i, (i < 3)%nat -> Rabs (fu_k u i * end_of x0 (map lg_path legs) i - counted c i) <= reach (fu_B u) (fu_H u)) /\
  Rabs (total legs - INR n * fu_W u) <= INR n * fu_W u / 32768 + tick_gap (fu_W u) (fu_T u).

(** *** For examples: a feed from [s] by [d], all in whole mm, [len] long, at [v] mm/s. *)
Definition line (X : sf_funs) (s d : list Z) (len v : Z) : smotion sf :=
  let dz := nofZ (aD (sf_arith X)) in
  mkSM feedLinear (dz len) (map dz s) (map dz d) 3 3 (dz 0%Z) (dz 0%Z) (dz 0%Z) (dz 0%Z) (dz 0%Z) (dz v) (dz 0%Z) false false (dz 0%Z) true.
Definition line_path (s d : list Z) (len : Z) : path :=
  mkPath (IZR len) (fun i => IZR (nth i s 0%Z)) (fun i => IZR (nth i d 0%Z)) None.
(** 50 mm along X, then 50 mm askew, at 20 mm/s; the tick of the firmware. *)
Definition ex_q1 (X : sf_funs) : fmotion := mkFQ (line X [0; 0; 0]%Z [50; 0; 0]%Z 50 20) (line_path [0; 0; 0]%Z [50; 0; 0]%Z 50) (mkFL 200 200 600 20 50).
Definition ex_q2 (X : sf_funs) : fmotion := mkFQ (line X [50; 0; 0]%Z [-30; 40; 0]%Z 50 20) (line_path [50; 0; 0]%Z [-30; 40; 0]%Z 50) (mkFL 250 250 600 20 50).
Definition ex_u : funit := mkFU (fun _ => 200) 65536 10000 (9162597 / 549755813888) 15.

(** *** The limits of a straight motion, from those of the axes. *)
Definition moderate (x : R) : Prop := / 8192 <= x <= 500000.
(** [M] has, per axis, acceleration [a], deceleration [d], top speed [v], and jerk [j]. *)
Record axis_limits (X : sf_funs) (M : machine sf) (a d v : nat -> R) (j : R) : Prop := {
  al_a : forall i, (i < 3)%nat -> float32 (nthF (sf_arith X) (m_aMax M) i) (a i) /\ moderate (a i);
  al_d : forall i, (i < 3)%nat -> float32 (nthF (sf_arith X) (m_dMax M) i) (- d i) /\ moderate (d i);
  al_v : forall i, (i < 3)%nat -> float32 (nthF (sf_arith X) (m_vMax M) i) (v i) /\ moderate (v i);
  al_j : float32 (m_jMax M) j /\ usual j }.
(** The feed of [m], times the override, is [f] mm/s; [None]: as fast as possible. *)
Definition feed_is (m : smotion sf) (fo : sf) (f : option R) : Prop :=
  exists o, float32 fo o /\ / 1000 <= o <= 1000 /\
  match f with
  | None => sm_vFeed m = S754_infinity false
  | Some f => exists g, float64 (sm_vFeed m) g /\ f = g * o /\ / 8192 <= f /\ 0 < g <= 1000000000
  end.
(** [m] goes straight, its components being [dl] and its length [len]. *)
Record straight_by (X : sf_funs) (m : smotion sf) (dl : nat -> R) (len : R) : Prop := {
  sb_line : sm_arc0 m = 3%nat /\ sm_arc1 m = 3%nat;
  sb_length : float64 (sm_length m) len /\ / 8192 <= len <= 500000;
  sb_delta : forall i, (i < 3)%nat -> float64 (nthD (sf_arith X) (sm_delta m) i) (dl i) /\ Rabs (dl i) <= len /\
    (dl i = 0 \/ len <= 1000000000000000000000000 * Rabs (dl i));
  sb_some : exists i, (i < 3)%nat /\ len <= 2 * Rabs (dl i) }.
(** [x] along the path is [y] along axis [i]. *)
Definition along (dl : nat -> R) (len x : R) (i : nat) : R := x * (Rabs (dl i) / len).
(** The jerk is low enough, next to the other limits, and high enough for the length: *)
Definition gentle (a d v : nat -> R) (j len : R) (f : option R) : Prop :=
  (exists V, ((forall i, (i < 3)%nat -> 2 * v i <= V) \/ (exists g, f = Some g /\ g <= V)) /\
    forall i, (i < 3)%nat -> j * V <= 990 * (a i * a i) /\ j * V <= 990 * (d i * d i)) /\
  (exists V, 0 < V /\ (forall i, (i < 3)%nat -> V <= v i) /\ (forall g, f = Some g -> V <= g) /\ j * (len * len) <= 549755813888 * (V * V * V)).
(** [l] keeps every axis within its limits, up to one part in 250000, and the motion to its feed, *)
Definition limits_kept (a d v : nat -> R) (f : option R) (dl : nat -> R) (len : R) (l : flimits) : Prop :=
  (forall i, (i < 3)%nat -> along dl len (fl_a l) i <= (1 + / 250000) * a i /\ along dl len (fl_d l) i <= (1 + / 250000) * d i /\
    along dl len (fl_vm l) i <= (1 + / 250000) * v i) /\
  (forall g, f = Some g -> fl_vm l <= (1 + / 250000) * g).
(** and no more than that: for each limit there is an axis that it takes, or the feed it takes, to that limit. *)
Definition limits_used (a d v : nat -> R) (f : option R) (dl : nat -> R) (len : R) (l : flimits) : Prop :=
  (exists i, (i < 3)%nat /\ (1 - / 250000) * a i <= along dl len (fl_a l) i) /\
  (exists i, (i < 3)%nat /\ (1 - / 250000) * d i <= along dl len (fl_d l) i) /\
  ((exists i, (i < 3)%nat /\ (1 - / 250000) * v i <= along dl len (fl_vm l) i) \/ (exists g, f = Some g /\ (1 - / 250000) * g <= fl_vm l)).
