(** Homing, the main loop and names: C50-C53, C55, C63. *)
Require Import String List Arith NArith ZArith Bool Reals.
From Verif Require Import Base EventModel InputModel StepModel Num NumSF NumR MotionModel CtrlModel CtrlSpec
  HomingModel HomingSpec HomingProofs HomingRestProofs SystemModel SystemSpec SystemProofs HomingWitness NamesModel.
From Verif Require GcodeModel.
Import ListNotations.
Open Scope nat_scope.

(** C50.  start() and every later event cause exactly the calls of the homing
    protocol: for each axis of the route, approach the switch (unless it is closed
    already), back off, move by the offset.  The hypothesis only excludes calling
    start() in mid-homing on a machine without any homeable axis. *)
Theorem C50_homing_follows_protocol : forall D F (A : arith D F) (H : hcfg D F) h running closed ins,
  h_state h = hs_lost \/ h_state h = hs_found \/ route H <> [] ->
  let '(h1, acts) := h_start A H running closed h in
  let '(acts', p) := begin_homing A H running closed in
  acts = acts' /\ snd (h_run A H h1 ins) = perform p ins.
Proof. exact @refines_lemma. Qed.
Print Assumptions C50_homing_follows_protocol.

(** C50, as one sequence of calls: whatever the events, it is an initial part of
    the complete sequence, and homingCompleted ends the complete one. *)
Theorem C50_homing_order : forall D F (A : arith D F) (H : hcfg D F) h running closed ins,
  h_state h = hs_lost \/ h_state h = hs_found \/ route H <> [] ->
  let '(h1, acts) := h_start A H running closed h in
  let calls := acts ++ concat (snd (h_run A H h1 ins)) in
  (route H = [] -> calls = [DoPush homingError]) /\
  (route H <> [] -> exists bs, length bs = length (route H) /\
     let full := DoPush homingStarted :: (if running then [DoStop] else [])
                 ++ all_calls A H (combine (route H) bs) in
     prefix calls full /\ (In (DoPush homingCompleted) calls -> calls = full)).
Proof. exact @order_lemma. Qed.
Print Assumptions C50_homing_order.

Example C50_routes : forall D F (A : arith D F),
  route (cnc3axis_homing A) = [2; 0; 1] /\ route (native_homing A) = [2; 0].
Proof. split; reflexivity. Qed.
(** A complete run on cnc3axis, the Y switch being closed when its turn comes. *)
Example C50_run : forall D F (A : arith D F), let H := cnc3axis_homing A in
  let closed := fun i => N.eqb i 2 in
  let stop := (motionStopped, closed) in
  let '(h1, acts) := h_start A H false closed h_init in
  acts ++ concat (snd (h_run A H h1
    [(motionStarted, closed); (limitSwitchZMaxClosed, closed); stop; (limitSwitchZMaxOpened, closed); stop; stop;
     (limitSwitchXMaxClosed, closed); stop; (limitSwitchXMaxOpened, closed); stop; stop;
     (limitSwitchYMaxOpened, closed); stop; stop])) =
  DoPush homingStarted :: all_calls A H [(2, false); (0, false); (1, true)].
Proof. reflexivity. Qed.

(** C51: refuted.  On a machine whose searching motion ends before the switch is
    reached, homing waits for ever: at standstill, without homingError, whatever
    happens next as long as the switch stays open. *)
Theorem C51_homing_never_stuck_refuted : forall X,
  let A := sf_arith X in let M := cnc3axis A in let H := short_travel A in
  exists y, reachable A M H (tickWidth A) y /\ h_state (y_h y) = hs_closing /\
    c_state (y_c y) = ms_stopped /\ queue A (y_c y) = [] /\ (forall e, not_pending e y) /\
    forall ops, sampled_open limitSwitchZMaxClosed ops ->
      exists y', y_run A M H y ops = Ok y' /\ y_h y' = y_h y /\ c_state (y_c y') = ms_stopped /\
        c_pos (y_c y') = c_pos (y_c y) /\ not_pending homingError y' /\ not_pending homingCompleted y'.
Proof. exact stuck_refuted_lemma. Qed.
Print Assumptions C51_homing_never_stuck_refuted.

(** The same for every machine, configuration and arithmetic. *)
Theorem C51_homing_waits_forever_refuted : forall D F (A : arith D F) (M : machine F) (H : hcfg D F) width y ops,
  reachable A M H width y ->
  h_state (y_h y) = hs_closing -> c_state (y_c y) = ms_stopped -> (h_switch (y_h y) < 9)%N ->
  let e := h_close (y_h y) in
  not_pending e y -> holds_open e y -> sampled_open e ops ->
  exists y', y_run A M H y ops = Ok y' /\ y_h y' = y_h y /\ c_state (y_c y') = ms_stopped /\
    c_pos (y_c y') = c_pos (y_c y) /\
    forall x, ~ not_pending x y' -> ~ not_pending x y \/ exists d, In d myInputs /\ reports x d.
Proof. exact @stuck_lemma. Qed.
Print Assumptions C51_homing_waits_forever_refuted.

(** C51, what is true: homing completes in every history in which each event
    occurs again and again. *)
Theorem C51_homing_completes_partial : forall D F (A : arith D F) (H : hcfg D F) h running closed s,
  route H <> [] -> fair s ->
  let '(h1, acts) := h_start A H running closed h in
  exists n, In (DoPush homingCompleted) (concat (snd (h_run A H h1 (map s (seq 0 n))))).
Proof. exact @completes_lemma. Qed.
Print Assumptions C51_homing_completes_partial.

(** C52.  The three motions in exact arithmetic: towards the switch by the full
    travel at homing speed, away from it by the full travel at slow speed, away
    from it by the offset at homing speed.  By C50 homing issues no others. *)
Theorem C52_directions : forall (H : hcfg xr xr) a (t o : R),
  travel x_arith H a = XF t -> clearance x_arith H a = XF o ->
  let s := (if up H a then 1 else -1)%R in
  seek x_arith H a = [DoMove a (XF (s * t)) (hc_vHoming H)] /\
  release x_arith H a = [DoMove a (XF (- s * t)) (hc_vSlow H)] /\
  clear x_arith H a = [DoMove a (XF (- s * o)) (hc_vHoming H)].
Proof. exact directions_lemma. Qed.
Print Assumptions C52_directions.

(** Each motion, issued at rest, replaces the queue by one straight line from the
    current position along one axis, at the given speed, and starts it. *)
Theorem C52_homing_motion : forall D F (A : arith D F) (M : machine F) (c : ctrl F) a off sp,
  a < 3 -> c_state c = ms_stopped -> length (c_items c) = 32 ->
  let c' := do_action A M c (DoMove a off sp) in
  exists o m, queue A c' = [o] /\ holds A m o /\ c_state c' = ms_running /\
    c_events c' = c_events c ++ [motionStarted] /\ c_pos c' = c_pos c /\
    sm_type m = feedLinear /\ sm_start m = map (f2d A) (c_getMachinePosition A M c) /\
    sm_delta m = along A a off /\ sm_length m = nabs (aD A) off /\ sm_vFeed m = sp.
Proof. exact @move_lemma. Qed.
Print Assumptions C52_homing_motion.

(** In the whole program on cnc3axis, in binary arithmetic: from every reachable
    state, in every tick, at most one axis moves. *)
Theorem C52_one_axis_per_tick : forall X, let A := sf_arith X in let H := cnc3axis_homing A in
  forall M width y n c1 c2, reachable A M H width y ->
  ticks_run A M n (y_c y) = Ok c1 -> c_tick A M c1 = Ok c2 -> one_axis (c_pos c1) (c_pos c2).
Proof. exact (fun X M width y n c1 c2 => one_axis_lemma _ M _ width y n c1 c2 (tidy_cnc3axis X)). Qed.
Print Assumptions C52_one_axis_per_tick.

(** The same for the native target, and for any configuration without NaN. *)
Theorem C52_one_axis_per_tick_general : forall D F (A : arith D F) (M : machine F) (H : hcfg D F) width y n c1 c2,
  tidy A H -> reachable A M H width y ->
  ticks_run A M n (y_c y) = Ok c1 -> c_tick A M c1 = Ok c2 -> one_axis (c_pos c1) (c_pos c2).
Proof. exact @one_axis_lemma. Qed.
Print Assumptions C52_one_axis_per_tick_general.
Example C52_tidy_native : forall X, tidy (sf_arith X) (native_homing (sf_arith X)).
Proof. exact tidy_native. Qed.
(** cnc3axis, Z axis: up 60 mm at 10 mm/s, down 60 mm at 1 mm/s, down 3 mm at
    10 mm/s.  The native target's offset is negative: +10 mm, towards the switch. *)
Example C52_cnc3axis : forall X, let A := sf_arith X in let H := cnc3axis_homing A in let z := nofZ (aD A) in
  seek A H 2 ++ release A H 2 ++ clear A H 2 =
  [DoMove 2 (z 60%Z) (z 10%Z); DoMove 2 (z (-60)%Z) (z 1%Z); DoMove 2 (z (-3)%Z) (z 10%Z)] /\
  clear A (native_homing A) 2 = [DoMove 2 (z 10%Z) (z 15%Z)].
Proof. intros; split; vm_compute; reflexivity. Qed.

(** C53.  The configured input is the switch homing listens to, for every axis at
    the positive end and for Z at the negative end ... *)
Theorem C53_limit_switches_partial : forall D F (A : arith D F) max a, a < 3 ->
  (wired (cnc3axis_homing A) myInputs max a <-> (max = true \/ a = 2)).
Proof. exact @wired_lemma. Qed.
Print Assumptions C53_limit_switches_partial.
(** ... but not for X and Y at the negative end. *)
Theorem C53_limit_switches_refuted : forall D F (A : arith D F),
  ~ (forall max a, a < 3 -> wired (cnc3axis_homing A) myInputs max a).
Proof.
  exact (fun D F A W => match proj1 (wired_lemma A false 0 (Nat.lt_0_succ 2)) (W false 0 (Nat.lt_0_succ 2)) with
                        | or_introl E => Bool.diff_false_true E
                        | or_intror E => match E with eq_refl => I end
                        end).
Qed.
Print Assumptions C53_limit_switches_refuted.

(** C55 *)
Theorem C55_distinct_names_partial :
  distinct_names motionState_toString /\ distinct_names motionType_toString /\
  distinct_names calcDir_toString /\ distinct_names order_toString /\
  distinct_names homingState_toString /\ distinct_names mainState_toString /\
  distinct_names probingState_toString /\ distinct_names hostError_toString /\
  distinct_names rotation_toString /\ distinct_names plane_toString /\ distinct_names axis_toString /\
  (forall a b, event_toString a = event_toString b -> a <> b ->
     In a [eventBufferUnderflow; eventBufferOverflow] /\ In b [eventBufferUnderflow; eventBufferOverflow]) /\
  (forall a b, parseError_toString a = parseError_toString b -> a <> b ->
     In a [GcodeModel.SoftLimits; GcodeModel.ConfigFileError] /\ In b [GcodeModel.SoftLimits; GcodeModel.ConfigFileError]).
Proof.
  repeat split; try (intros a b; destruct a; destruct b; cbn; try congruence; discriminate).
  1,2: destruct a, b; cbn in H; try discriminate H; cbn; auto; congruence.
  1,2: destruct a, b; cbn in H; try discriminate H; cbn; auto; congruence.
Qed.
Print Assumptions C55_distinct_names_partial.
(** Refuted for strategies, events and parse results. *)
Theorem C55_distinct_names_refuted :
  ~ distinct_names strategy_toString /\ ~ distinct_names event_toString /\
  ~ distinct_names parseError_toString /\ ~ distinct_names resultType_toString.
Proof.
  repeat split; intro N.
  - discriminate (N minimizeSpeed maximizeSpeed eq_refl).
  - discriminate (N eventBufferUnderflow eventBufferOverflow eq_refl).
  - discriminate (N GcodeModel.SoftLimits GcodeModel.ConfigFileError eq_refl).
  - discriminate (N GcodeModel.WarningContextUpdateOnly GcodeModel.RError eq_refl).
Qed.
Print Assumptions C55_distinct_names_refuted.

(** C63: refuted.  When the switch opens after the slow motion has ended, homing
    takes two stop notifications of one standstill for two: it goes on to the X
    axis, with its motion queued, while Z still moves by the offset. *)
Theorem C63_homing_issues_motions_at_rest_refuted : forall X,
  let A := sf_arith X in let M := cnc3axis A in let H := short_travel A in
  exists y o1 o2, reachable A M H (tickWidth A) y /\ c_state (y_c y) = ms_running /\
    queue A (y_c y) = [o1; o2] /\
    map (mo_isMoving A o1) [0; 1; 2]%nat = [false; false; true] /\
    map (mo_isMoving A o2) [0; 1; 2]%nat = [true; false; false] /\
    h_state (y_h y) = hs_closing /\ h_axis (y_h y) = 0.
Proof. exact late_lemma. Qed.
Print Assumptions C63_homing_issues_motions_at_rest_refuted.

(** It only issues a motion when it is started with the controller not running, and when it is
    told of a stop: in any history at most one motion for each of these. *)
Theorem C63_one_motion_per_stop_partial : forall D F (A : arith D F) (H : hcfg D F) running closed h ins,
  let '(h1, acts) := h_start A H running closed h in
  length (filter (fun a => match a with DoMove _ _ _ => true | _ => false end) (acts ++ concat (snd (h_run A H h1 ins)))) <=
    (if running then 0 else 1) + length (filter (fun i => event_eqb (fst i) motionStopped) ins).
Proof. exact @one_move_per_stop. Qed.
Print Assumptions C63_one_motion_per_stop_partial.
(** Approach, back off, offset: three motions, two stops. *)
Example C63_motions : forall X, let A := sf_arith X in let H := cnc3axis_homing A in
  let '(h1, acts) := h_start A H false (fun _ => false) h_init in
  length (filter (fun a => match a with DoMove _ _ _ => true | _ => false end)
    (acts ++ concat (snd (h_run A H h1 (map (fun e => (e, fun _ => false)) [h_close h1; motionStopped; h_open h1; motionStopped]))))) = 3.
Proof. intro X. vm_compute. reflexivity. Qed.
