(** Properties of speed profiles, planning, limits and geometry: C27-C32. *)
Require Import List Arith NArith ZArith Bool Reals Lra Lia.
From Verif Require Import Base Num NumR NumSF MotionModel CtrlModel CtrlSpec CtrlIdleProofs ProfileSpec ProfileProofs PlanProofs GeomSpec GeomProofs.
Import ListNotations.
Open Scope R_scope.

(** C27.  Exact arithmetic: a computed ramp is kinematically exact. *)
Theorem C27_ramp_exact : forall o (p : accdec xr) v0 v1 a d j,
  0 <= v0 -> 0 <= v1 -> 0 < a -> d < 0 -> 0 < j ->
  ad_vStart p = XF v0 -> ad_vEnd p = XF v1 -> ad_aMax p = XF a -> ad_dMax p = XF d -> ad_jMax p = XF j ->
  let q := ad_calculate x_num p o in
  exists T L s v acc, ad_duration q = XF T /\ ad_length q = XF L /\
    (forall t, ad_s x_num q (XF t) = XF (s t)) /\ (forall t, ad_v x_num q (XF t) = XF (v t)) /\
    (forall t, ad_a x_num q (XF t) = XF (acc t)) /\ ramp_spec o v0 v1 a d j T L s v acc.
Proof. exact accdec_lemma. Qed.
Print Assumptions C27_ramp_exact.

(** A concrete ramp: 0 to 10 mm/s at 10 mm/s^2 takes 1 s and 5 mm. *)
Example C27_run : let q := ad_calculate x_num (mkAD (XF 0) (XF 10) (XF 10) (XF (-10)) (XF 600) XN XN XN XN XN XN XN XN) firstOrder in
  ad_duration q = XF 1 /\ ad_length q = XF 5.
Proof.
  cbv zeta. unfold ad_calculate. rewrite half_eq. cbn [ad_vStart ad_vEnd ad_aMax ad_dMax ad_jMax nltb x_num xltb].
  rewrite (rltb_if 0 10). destruct (Rlt_dec 0 10); [|lra]. cbn [ad_duration ad_length]. xs. rewrite xdiv_nz by lra. xs.
  split; f_equal; field.
Qed.

(** C28.  Exact arithmetic: planning from a point [s0] of the path, at time [t0]
    and speed [v0], to the end of the path at speed [v1], when that is feasible.
    Up to its end the planned motion satisfies [plan_spec]: it starts and ends
    with the right distance and speed, distance is the integral of speed, speed is
    continuous, bounded and changes within the limits.  Either it reaches the end
    of the path (cruise speed [vM] > 0) or, when stopping or at zero feed, comes to
    rest before it.  The cruise speed is the one asked for, unless constant
    acceleration uses the whole distance. *)
Theorem C28_plan : forall (p : profile xr) len minS fo st v0 v1 a d j vm t0 s0,
  plan_input p fo v0 v1 a d j vm t0 s0 -> feasible v0 v1 a d (len - s0) -> 0 <= len - s0 -> 0 <= vm ->
  let q := p_optimize x_num p (XF len) minS fo st in
  p_doneDuration q = XF t0 /\ p_doneLength q = XF s0 /\
  exists t1 vM s v acc, 0 <= vM <= Rmax (target st vm) (Rmin v0 v1) /\
    (vM = target st vm \/ flen a d v0 vM + flen a d vM v1 = len - s0) /\
    (exists t, t0 <= t <= t1 /\ v t = vM) /\
    (forall t, t <= t1 -> p_s x_num q (XF t) = XF (s t) /\ p_v x_num q (XF t) = XF (v t) /\ p_a x_num q (XF t) = XF (acc t)) /\
    ((0 < vM /\ p_duration q = XF t1 /\ p_tStop q = XP /\
      plan_spec v0 v1 a d (Rmax v0 (Rmax vM v1)) t0 s0 t1 len s v acc) \/
     (vM = 0 /\ p_tStop q = XF t1 /\ (p_duration q = XP \/ p_duration q = XN) /\
      exists s1, v1 * v1 <= 2 * a * (len - s1) /\ plan_spec v0 0 a d v0 t0 s0 t1 s1 s v acc)) /\
    (0 < target st vm -> 0 < len - s0 -> 0 < vM).
Proof. exact optimize_lemma. Qed.
Print Assumptions C28_plan.

(** The phases do not overlap and fill the path exactly. *)
Theorem C28_phases_fill : forall (p : profile xr) len minS fo st v0 v1 a d j vm t0 s0,
  plan_input p fo v0 v1 a d j vm t0 s0 -> feasible v0 v1 a d (len - s0) -> 0 <= len - s0 -> 0 <= vm ->
  let q := p_optimize x_num p (XF len) minS fo st in
  exists L1 L2 L3, ad_length (p_left q) = XF L1 /\ cr_length (p_mid q) = XF L2 /\ ad_length (p_right q) = XF L3 /\
    0 <= L1 /\ 0 <= L2 /\ 0 <= L3 /\ L1 + L2 + L3 = len - s0.
Proof. exact phases_fill. Qed.
Print Assumptions C28_phases_fill.

(** Inputs that meet the hypotheses: 100 mm from rest to rest, 10 mm/s. *)
Definition C28_profile : profile xr :=
  mkP (XF 0) (XF 0) (mkAD (XF 0) XN XN XN XN XN XN XN XN XN XN XN XN) (mkCR XN XN XN)
      (mkAD XN (XF 0) XN XN XN XN XN XN XN XN XN XN XN) (XF 10) (XF 30) (XF 200) (XF (-200)) (XF 600) XN XN.
Example C28_hypotheses : plan_input C28_profile (XF 1) 0 0 200 (-200) 600 10 0 0 /\ feasible 0 0 200 (-200) (100 - 0).
Proof.
  split; [constructor; try reflexivity; try lra|unfold feasible; lra].
  cbn. rewrite rltb_if. destruct (Rlt_dec 30 (10 * 1)); [lra|]. f_equal. ring.
Qed.

(** C29.  Peak and dip speed, and the speed after a given length. *)
Theorem C29_peak_speed : forall v0 v1 a d L, 0 <= v0 -> 0 <= v1 -> 0 < a -> d < 0 -> 0 <= L ->
  exists v, vTri_static x_num (XF v0) (XF v1) (XF a) (XF d) (XF L) maximizeSpeed = XF v /\ 0 <= v /\
    (v * v - v0 * v0) / (2 * a) + (v1 * v1 - v * v) / (2 * d) = L /\
    (v1 * v1 <= v0 * v0 + 2 * a * L -> v1 <= v) /\ (v0 * v0 <= v1 * v1 - 2 * d * L -> v0 <= v).
Proof. exact vTri_max_lemma. Qed.
Print Assumptions C29_peak_speed.

Theorem C29_dip_speed : forall v0 v1 a d L, 0 <= v0 -> 0 <= v1 -> 0 < a -> d < 0 -> 0 <= L ->
  exists v, vTri_static x_num (XF v0) (XF v1) (XF a) (XF d) (XF L) minimizeSpeed = XF v /\ 0 <= v /\
    ((v * v - v0 * v0) / (2 * d) + (v1 * v1 - v * v) / (2 * a) = L \/
     (v = 0 /\ (0 - v0 * v0) / (2 * d) + (v1 * v1 - 0) / (2 * a) < L)) /\
    (v1 * v1 <= v0 * v0 + 2 * a * L -> v <= v0) /\ (v0 * v0 <= v1 * v1 - 2 * d * L -> v <= v1).
Proof. exact vTri_min_lemma. Qed.
Print Assumptions C29_dip_speed.

Theorem C29_speed_after : forall vIn a d L s dir, exists v,
  vOut_static x_num (XF vIn) (XF a) (XF d) (XF L) s dir = XF v /\ 0 <= v /\
  let acc := match dir, s with
             | cd_forward, maximizeSpeed => a | cd_forward, minimizeSpeed => d
             | cd_reverse, maximizeSpeed => - d | cd_reverse, minimizeSpeed => - a end in
  (0 <= vIn * vIn + 2 * acc * L -> v * v = vIn * vIn + 2 * acc * L) /\
  (vIn * vIn + 2 * acc * L <= 0 -> v = 0).
Proof. exact vOut_lemma. Qed.
Print Assumptions C29_speed_after.

(** C30.  The path limits keep every axis within the machine limits (and are the
    largest that do). *)
Theorem C30_limits : forall (m : smotion xr) P M r, describes m P -> path_ok P -> machine_is M r ->
  exists v a d, limits x_arith M (traj_set x_arith m) = (XF v, XF a, XF d) /\ limits_ok r P v a d.
Proof. exact limits_lemma'. Qed.
Print Assumptions C30_limits.

(** No axis moves faster than its share of the path speed. *)
Theorem C30_axis_speed : forall P, path_ok P -> forall i s s',
  Rabs (path_pos P i s - path_pos P i s') <= Rabs (share P i) * Rabs (s - s').
Proof. exact pos_lip. Qed.
Print Assumptions C30_axis_speed.

(** A helix (half circle of radius 1 in X/Y while Z moves by pi) and a machine. *)
Definition C30_helix : path := mkPath (sqrt 2 * PI) (fun _ => 0) (fun i => if (i =? 2)%nat then PI else 0)
                                      (Some (mkArc 0 1 1 0 1 PI (- PI))).
Definition C30_motion : smotion xr :=
  mkSM feedHelicalCW (XF (sqrt 2 * PI)) [XF 0; XF 0; XF 0] [XF 0; XF 0; XF PI] 0 1 (XF 1) (XF 0) (XF 1) (XF PI) (XF (- PI))
       (XF 10) (XF 0) false false (XF 0) true.
Definition C30_machine : machine xr :=
  mkMachine (XF 600) [XF 200; XF 200; XF 200] [XF (-200); XF (-200); XF (-200)] [XF 30; XF 30; XF 30] [XF 200; XF 200; XF 200] (XF 0).
Example C30_hypotheses : describes C30_motion C30_helix /\ path_ok C30_helix /\
  machine_is C30_machine (mkRM (fun _ => 30) (fun _ => 200) (fun _ => -200) (fun _ => 200) 600).
Proof.
  split; [|split].
  - split; [reflexivity|]. split; [apply lt3; reflexivity|]. split; [apply lt3; reflexivity|]. repeat split; reflexivity.
  - assert (0 < sqrt 2) by (apply sqrt_lt_R0; lra). pose proof PI_RGT_0. split; [apply Rmult_lt_0_compat; auto|].
    cbn. split; [lra|]. split; [lia|]. split; [lia|]. split; [lia|]. unfold sq. cbn.
    replace (sqrt 2 * PI * (sqrt 2 * PI)) with (sqrt 2 * sqrt 2 * (PI * PI)) by ring. rewrite sqrt_sqrt by lra. ring.
  - split; [reflexivity|]. split; [cbn; lra|]. apply lt3; cbn; repeat split; lra.
Qed.

(** C31: refuted.  Binary32/binary64, 10 mm along X on the 3-axis machine: a stop
    requested while the motion is still accelerating moves the position the
    controller steers to from below 0.01 mm to above 0.03 mm at once (more than
    four steps). *)
Theorem C31_replan_refuted : forall X, let A := sf_arith X in let M := cnc3axis A in
  exists ops c recs, c_run A M (c_init A 375 (tickWidth A)) ops = Ok (c, recs) /\ c_state c = ms_running /\
    nltb (aF A) (setpoint A c 0) (ndec (aF A) 1 2) = true /\
    nltb (aF A) (ndec (aF A) 3 2) (setpoint A (c_stop A M c) 0) = true.
Proof. exact replan_jump_lemma. Qed.
Print Assumptions C31_replan_refuted.

(** C31, what is true: re-planning at any time outside the first phase (before it
    or after it) keeps distance and speed, and the new plan is again feasible, so
    C28 applies to it. *)
Theorem C31_replan_continuous : forall (p : profile xr) len minS fo st v0 v1 a d j vm t0 s0 fo' st' vm' tN T1,
  plan_input p fo v0 v1 a d j vm t0 s0 -> feasible v0 v1 a d (len - s0) -> 0 <= len - s0 -> 0 <= vm ->
  let q := p_optimize x_num p (XF len) minS fo st in
  (if xltb (p_vMax p) (xmul (p_vFeed p) fo') then p_vMax p else xmul (p_vFeed p) fo') = XF vm' -> 0 <= vm' ->
  ad_duration (p_left q) = XF T1 -> t0 <= tN -> tN <= t0 \/ t0 + T1 < tN ->
  (forall te, p_duration q = XF te \/ p_tStop q = XF te -> tN <= te) ->
  exists sN vN, p_s x_num q (XF tN) = XF sN /\ p_v x_num q (XF tN) = XF vN /\
    plan_input (p_replan_start x_num q (XF tN)) fo' vN v1 a d j vm' tN sN /\
    feasible vN v1 a d (len - sN) /\ 0 <= len - sN /\
    let q' := p_optimize x_num (p_replan_start x_num q (XF tN)) (XF len) minS fo' st' in
    p_s x_num q' (XF tN) = XF sN /\ p_v x_num q' (XF tN) = XF vN.
Proof. exact replan_lemma. Qed.
Print Assumptions C31_replan_continuous.

(** C32.  After distance [s] every axis is where the path says. *)
Theorem C32_position : forall (m : smotion xr) P, describes m P -> path_ok P ->
  forall (o : motion xr) i s, mo_traj o = traj_set x_arith m -> (i < 3)%nat ->
  mo_position x_arith o i (XF s) = XF (path_pos P i s).
Proof. exact position_eq. Qed.
Print Assumptions C32_position.

(** Linear axes go from start to start + displacement; arc axes stay on the circle. *)
Theorem C32_path : forall P, 0 < pa_len P ->
  (forall i, on_arc P i = false -> path_pos P i 0 = pa_start P i /\ path_pos P i (pa_len P) = pa_start P i + pa_delta P i) /\
  (forall a s, pa_arc P = Some a -> ar_0 a <> ar_1 a ->
     sq (path_pos P (ar_0 a) s - ar_c0 a) + sq (path_pos P (ar_1 a) s - ar_c1 a) = sq (ar_r a)).
Proof. exact path_ends. Qed.
Print Assumptions C32_path.

(** An arc starts at its start angle and ends after exactly the swept angle. *)
Theorem C32_arc_ends : forall P a, 0 < pa_len P -> pa_arc P = Some a -> ar_0 a <> ar_1 a ->
  path_pos P (ar_0 a) 0 = ar_c0 a + ar_r a * cos (ar_a0 a) /\ path_pos P (ar_1 a) 0 = ar_c1 a + ar_r a * sin (ar_a0 a) /\
  path_pos P (ar_0 a) (pa_len P) = ar_c0 a + ar_r a * cos (ar_a0 a + ar_da a) /\
  path_pos P (ar_1 a) (pa_len P) = ar_c1 a + ar_r a * sin (ar_a0 a + ar_da a).
Proof. exact arc_ends. Qed.
Print Assumptions C32_arc_ends.
