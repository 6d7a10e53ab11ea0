(** Specification of circular and helical motions as the controller computes them on
    the target, in single precision. *)
Require Import List Arith NArith ZArith Bool Reals.
From Coq Require Import Floats.SpecFloat.
From Verif Require Import Base Num NumR NumSF MotionModel CtrlModel CtrlSpec FloatSpec GeomSpec ProfileSpec RunSpec FloatRunSpec.
Import ListNotations.
Open Scope R_scope.

(** The library's cosine and sine in single precision are within 2^-23 of the exact
    ones, for angles of up to 100 rad. *)
Definition trig_ok (X : sf_funs) : Prop := forall x r, float32 x r -> Rabs r <= 100 ->
  (exists c, float32 (fcosf X x) c /\ Rabs (c - cos r) <= / 8388608) /\
  (exists s, float32 (fsinf X x) s /\ Rabs (s - sin r) <= / 8388608).

(** The length, computed in double precision, may be too short by this much. *)
Definition over : R := 1 + / 1000000.
(** The coordinate of the centre on the two axes of an arc. *)
Definition centre (arc : arcp) (i : nat) : R := if (i =? ar_0 arc)%nat then ar_c0 arc else ar_c1 arc.

(** The motion [m], as the parser hands it over in double precision, goes along the
    circle or helix [P] with limits [l]. *)
Record curved (X : sf_funs) (M : machine sf) (fo : sf) (u : funit) (m : smotion sf) (P : path) (l : flimits) (arc : arcp) : Prop := {
  cu_move : is_move (sm_type m) = true;
  cu_arc : pa_arc P = Some arc /\ sm_arc0 m = ar_0 arc /\ sm_arc1 m = ar_1 arc /\ (ar_0 arc < 3)%nat /\ (ar_1 arc < 3)%nat /\ ar_0 arc <> ar_1 arc;
  cu_length : float64 (sm_length m) (pa_len P) /\ 0 <= pa_len P <= 1048576;
  cu_circle : float64 (sm_center0 m) (ar_c0 arc) /\ float64 (sm_center1 m) (ar_c1 arc) /\ float64 (sm_radius m) (ar_r arc) /\
    float64 (sm_startAngle m) (ar_a0 arc) /\ float64 (sm_deltaAngle m) (ar_da arc);
  (* the length is at least that of the arc, and of the way of the third axis *)
  cu_sweep : / 1000000 <= ar_r arc /\ ar_r arc * Rabs (ar_da arc) <= over * pa_len P /\ (ar_da arc = 0 \/ pa_len P <= 1000000000000000000000000 * Rabs (ar_da arc));
  cu_delta : forall i, (i < 3)%nat -> on_arc P i = false ->
    float64 (nthD (sf_arith X) (sm_start m) i) (pa_start P i) /\ float64 (nthD (sf_arith X) (sm_delta m) i) (pa_delta P i) /\ Rabs (pa_delta P i) <= pa_len P /\
    (pa_delta P i = 0 \/ pa_len P <= 1000000000000000000000000 * Rabs (pa_delta P i));
  cu_plan : standing X (prof_setSpeed (sf_arith X) M (p_zero (aF (sf_arith X))) (traj_set (sf_arith X) m) m)
    (t_length (traj_set (sf_arith X) m)) fo (fl_a l) (fl_d l) (fl_j l) (fl_vm l) (fl_L l);
  (* some seven turns at most *)
  cu_turns : Rabs (ar_a0 arc) + 2 * Rabs (ar_da arc) <= 98;
  (* the further the turn, the coarser the angle *)
  cu_range : forall i, (i < 3)%nat ->
    if on_arc P i then fu_k u i * (Rabs (centre arc i) + ar_r arc * (4 + Rabs (ar_a0 arc) + 2 * Rabs (ar_da arc))) + 1 <= fu_B u /\ Rabs (centre arc i) + ar_r arc <= 1048576
    else fu_k u i * (Rabs (pa_start P i) + 2 * pa_len P) + 1 <= fu_B u /\ Rabs (pa_start P i) + pa_len P <= 1048576;
  cu_steps : forall i, (i < 3)%nat -> fu_k u i * (over * pa_len P) <= fu_H u;
  cu_brief : 3 * pa_len P <= fl_vm l * fu_T u /\ 3 * pa_len P * (/ fl_a l + / fl_d l) <= fu_T u * fu_T u;
  cu_long : 5 * (fl_vm l * tick_gap (fu_W u) (fu_T u)) <= pa_len P;
  cu_rate : forall i, (i < 3)%nat -> fu_k u i * (over * (fl_vm l * tick_gap (fu_W u) (fu_T u))) <= 1;
  cu_soft : forall i, (i < 3)%nat -> fu_k u i * (over * (fl_a l * (last_gap (fu_W u) (fu_T u) * last_gap (fu_W u) (fu_T u)))) <= 1/20 /\
    fu_k u i * (over * (fl_d l * (last_gap (fu_W u) (fu_T u) * last_gap (fu_W u) (fu_T u)))) <= 1/20 }.

(** A motion to be queued is a straight or a circular or helical one. *)
Definition move_ok (X : sf_funs) (M : machine sf) (fo : sf) (u : funit) (q : fmotion) : Prop :=
  fq_ok X M fo u q \/ exists arc, curved X M fo u (fq_m q) (fq_P q) (fq_l q) arc.

(** *** For examples: [X] with exact cosine and sine, then rounded. *)
Definition rounded (f : R -> R) (x : sf) : sf :=
  match sf_val x with Some r => binary_normalize 24 128 (up (f r * 1073741824)) (-30) false | None => S754_nan end.
Definition exact_trig (X : sf_funs) : sf_funs := mkFuns (rounded cos) (rounded sin) (fatan2f X) (fcos X) (fsin X) (fatan2 X).
(** A helix in X, Y and Z of radius 20 mm about (-20, 0), from [a0] rad/2 by [da] rad/2
    and from [z] by [dz] mm, [len] long, at [v] mm/s. *)
Definition helix (X : sf_funs) (a0 da z dz len v : Z) : smotion sf :=
  let d := nofZ (aD (sf_arith X)) in let half x := ndiv (aD (sf_arith X)) (d x) (d 2%Z) in
  mkSM feedHelicalCW (d len) [d 0; d 0; d z]%Z [d 0; d 0; d dz]%Z 0 1 (d (-20)%Z) (d 0%Z) (d 20%Z) (half a0) (half da) (d v) (d 0%Z) false false (d 0%Z) true.
Definition helix_path (a0 da z dz len : Z) : path :=
  mkPath (IZR len) (fun i => IZR (nth i [0; 0; z]%Z 0%Z)) (fun i => IZR (nth i [0; 0; dz]%Z 0%Z)) (Some (mkArc 0 1 (-20) 0 20 (IZR a0 / 2) (IZR da / 2))).
(** 3/2 rad up by 40 mm, and back round while going further up by 40 mm. *)
Definition ex_h1 (X : sf_funs) : fmotion := mkFQ (helix X 0 3 0 40 50 20) (helix_path 0 3 0 40 50) (mkFL 200 200 600 20 50).
Definition ex_h2 (X : sf_funs) : fmotion := mkFQ (helix X 3 (-3) 40 40 50 20) (helix_path 3 (-3) 40 40 50) (mkFL 200 200 600 20 50).
Definition ex_hu : funit := mkFU (fun _ => 200) 65536 10001 (9162597 / 549755813888) 15.

(** *** The limits of a circular or helical motion, from those of the axes. *)
(** [m] goes round at radius [rad]; the way of the third axis is [dl], the length [len]. *)
Record curved_by (X : sf_funs) (m : smotion sf) (dl : nat -> R) (len rad : R) : Prop := {
  cb_arc : (sm_arc0 m < 3)%nat /\ (sm_arc1 m < 3)%nat /\ sm_arc0 m <> sm_arc1 m;
  cb_length : float64 (sm_length m) len /\ / 8192 <= len <= 500000;
  cb_radius : float64 (sm_radius m) rad /\ moderate rad;
  cb_delta : forall i, (i < 3)%nat -> is_arc (sm_arc0 m) (sm_arc1 m) i = false -> float64 (nthD (sf_arith X) (sm_delta m) i) (dl i) /\ Rabs (dl i) <= len /\
    (dl i = 0 \/ len <= 1000000000000000000000000 * Rabs (dl i)) }.
(** Somewhere on its way an axis of the arc takes all of the speed. *)
Definition most (m : smotion sf) (dl : nat -> R) (len : R) (i : nat) : R := if is_arc (sm_arc0 m) (sm_arc1 m) i then len else dl i.
(** As [gentle]; the speed [V] must also be possible in the arc. *)
Definition gentle_arc (m : smotion sf) (a d v : nat -> R) (j len rad : R) (f : option R) : Prop :=
  (exists V, ((forall i, (i < 3)%nat -> 2 * v i <= V) \/ (exists g, f = Some g /\ g <= V)) /\
    forall i, (i < 3)%nat -> j * V <= 990 * (a i * a i) /\ j * V <= 990 * (d i * d i)) /\
  (exists V, 0 < V /\ (forall i, (i < 3)%nat -> V <= v i /\ (is_arc (sm_arc0 m) (sm_arc1 m) i = true -> V * V <= a i * rad)) /\ (forall g, f = Some g -> V <= g) /\
    j * (len * len) <= 549755813888 * (V * V * V)).
(** The acceleration towards the centre, at the top speed, is within the limits of both axes of the arc, *)
Definition inward_kept (m : smotion sf) (a : nat -> R) (rad : R) (l : flimits) : Prop :=
  forall i, (i < 3)%nat -> is_arc (sm_arc0 m) (sm_arc1 m) i = true -> fl_vm l * fl_vm l / rad <= (1 + / 250000) * a i.
(** and the limits are no lower than needed: an axis, the feed or that acceleration takes the speed. *)
Definition arc_limits_used (m : smotion sf) (a d v : nat -> R) (f : option R) (dl : nat -> R) (len rad : R) (l : flimits) : Prop :=
  (exists i, (i < 3)%nat /\ (1 - / 250000) * a i <= along dl len (fl_a l) i) /\
  (exists i, (i < 3)%nat /\ (1 - / 250000) * d i <= along dl len (fl_d l) i) /\
  ((exists i, (i < 3)%nat /\ (1 - / 250000) * v i <= along dl len (fl_vm l) i) \/ (exists g, f = Some g /\ (1 - / 250000) * g <= fl_vm l) \/
   (exists i, (i < 3)%nat /\ is_arc (sm_arc0 m) (sm_arc1 m) i = true /\ (1 - / 250000) * a i <= fl_vm l * fl_vm l / rad)).
