(** Counterexamples and concrete facts about homing. *)
Require Import List Arith NArith ZArith Bool Lia Reals Lra.
From Verif Require Import Base EventModel EventSpec EventProofs InputModel StepModel Num NumSF NumR MotionModel CtrlModel CtrlSpec
  CtrlProofs CtrlQueueProofs HomingModel HomingSpec HomingProofs SystemModel SystemSpec SystemProofs.
Import ListNotations.
Open Scope N_scope.

Section W.
Context {D F : Type} (A : arith D F) (M : machine F) (H : hcfg D F).
Definition probe {T} (f : sys F -> T) (width : F) (raw : list bool) (ops : list sys_op) : option T :=
  match fresh_steps with
  | Some sb => match y_setup A M H width sb raw with
               | Ok y0 => match y_run A M H y0 ops with Ok y => Some (f y) | UB => None end
               | UB => None
               end
  | None => None
  end.
Lemma probe_lemma {T} (f : sys F -> T) width raw ops t : probe f width raw ops = Some t ->
  exists y, reachable A M H width y /\ f y = t.
Proof.
  unfold probe. destruct fresh_steps as [sb|] eqn:E0; [|discriminate].
  destruct (y_setup A M H width sb raw) as [y0|] eqn:E1; [|discriminate].
  destruct (y_run A M H y0 ops) as [y|] eqn:E2; [|discriminate]. intro E. injection E as <-.
  exists y. split; [|reflexivity]. exists sb, raw, y0, ops. auto.
Qed.

(** *** One motion *)
Lemma upd_along a x : (a < 3)%nat -> upd (map (fun _ => nofZ (aD A) 0) axes) a x = along A a x.
Proof. intro L. destruct a as [|[|[|a]]]; try lia; reflexivity. Qed.

Lemma move_lemma (c : ctrl F) a off sp : (a < 3)%nat -> c_state c = ms_stopped -> length (c_items c) = 32%nat ->
  let c' := do_action A M c (DoMove a off sp) in
  exists o m, queue A c' = [o] /\ holds A m o /\ c_state c' = ms_running /\
    c_events c' = c_events c ++ [motionStarted] /\ c_pos c' = c_pos c /\
    sm_type m = feedLinear /\ sm_start m = map (f2d A) (c_getMachinePosition A M c) /\
    sm_delta m = along A a off /\ sm_length m = nabs (aD A) off /\ sm_vFeed m = sp.
Proof.
  intros LA S0 L. cbn [do_action].
  assert (EF : c_flush A c = c_flushBuffer (c_with_st c (st_initialize A (c_st c)))).
  { unfold c_flush, c_isRunning. rewrite S0. reflexivity. }
  set (m := h_motion A M (c_flush A c) a off sp).
  assert (R : rel A (c_flush A c) (mkAQ [] [] ms_stopped)).
  { rewrite EF. unfold rel. cbn [c_flushBuffer c_with_queue c_with_st c_items c_head c_level c_state aq_q aq_state].
    split; [exact L|]. split; [reflexivity|]. split; [discriminate|]. split; [constructor|]. split; [exact S0|]. congruence. }
  destruct (rel_append A M _ _ m R) as (es & a1 & OP & R1 & E1). cbn [aq_op aq_q aq_done aq_state app] in OP.
  change (length (@nil (smotion D)) <? 32)%nat with true in OP. cbn iota in OP. destruct OP as [-> ->].
  destruct (step_rel A M _ _ OStart (c_start A M (c_append A M (c_flush A c) m)) [] R1) as (es & a2 & OP & R2 & E2);
    [discriminate|reflexivity|]. cbn [aq_op aq_q] in OP. destruct OP as [-> ->].
  destruct R2 as (_ & _ & _ & F2 & ST & _). cbn [aq_q aq_state] in F2, ST.
  inversion F2 as [|m0 o l1 l2 HO F3 EQ1 EQ2]; subst. inversion F3; subst.
  exists o, m. split; [congruence|]. split; [exact HO|]. split; [exact ST|].
  split; [rewrite E2, E1, app_nil_r, EF; reflexivity|].
  split.
  { pose proof (do_frame A M c (DoMove a off sp)) as [_ P]. exact P. }
  unfold m, h_motion, sm_set. cbn [sm_type sm_start sm_delta sm_length sm_vFeed sm_default].
  split; [reflexivity|]. split; [rewrite EF; reflexivity|]. split; [apply upd_along, LA|]. split; reflexivity.
Qed.
End W.

(** *** Directions, in exact arithmetic *)
Lemma directions_lemma (H : hcfg xr xr) a (t o : R) : travel x_arith H a = XF t -> clearance x_arith H a = XF o ->
  let s := (if up H a then 1 else -1)%R in
  seek x_arith H a = [DoMove a (XF (s * t)) (hc_vHoming H)] /\
  release x_arith H a = [DoMove a (XF (- s * t)) (hc_vSlow H)] /\
  clear x_arith H a = [DoMove a (XF (- s * o)) (hc_vHoming H)].
Proof.
  intros ET EO. unfold seek, release, clear. rewrite ET, EO. cbn [x_arith aD aF f2d].
  destruct (up H a); cbn zeta; unfold minusF, minusD; cbn [x_arith aD aF nmul nofZ x_num xmul];
    repeat split; repeat f_equal; lra.
Qed.

(** *** cnc3axis in binary32/binary64 *)
Lemma tidy_cnc3axis X : tidy (sf_arith X) (cnc3axis_homing (sf_arith X)).
Proof.
  split; [vm_compute; reflexivity|]. intros a L. destruct a as [|[|[|a]]]; try lia; repeat constructor; vm_compute; reflexivity.
Qed.
Lemma tidy_native X : tidy (sf_arith X) (native_homing (sf_arith X)).
Proof.
  split; [vm_compute; reflexivity|]. intros a L. destruct a as [|[|[|a]]]; try lia; repeat constructor; vm_compute; reflexivity.
Qed.

(** *** Stuck *)
Definition rounds (n : nat) : list sys_op := concat (repeat [YTimer; YFill; YEvent] n).
Definition look {F} (y : sys F) :=
  (h_state (y_h y), h_axis (y_h y), c_state (y_c y), c_level (y_c y), eb_level (y_ev y), h_close (y_h y), h_switch (y_h y)).
Definition look_in {F} (y : sys F) := map (fun d => (db_current d, db_previous d, io d)) (y_in y).

Lemma stuck_witness X : let A := sf_arith X in let M := cnc3axis A in let H := short_travel A in
  probe A M H (fun y => (look y, look_in y)) (tickWidth A) (repeat true 9) (rounds 10) =
  Some ((hs_closing, 2%nat, ms_stopped, 0, 0, limitSwitchZMaxClosed, 0), map (fun d => (true, true, io d)) myInputs).
Proof. vm_compute. reflexivity. Qed.

Lemma stuck_refuted_lemma X : let A := sf_arith X in let M := cnc3axis A in let H := short_travel A in
  exists y, reachable A M H (tickWidth A) y /\ h_state (y_h y) = hs_closing /\
    c_state (y_c y) = ms_stopped /\ queue A (y_c y) = [] /\ (forall e, not_pending e y) /\
    forall ops, sampled_open limitSwitchZMaxClosed ops ->
      exists y', y_run A M H y ops = Ok y' /\ y_h y' = y_h y /\ c_state (y_c y') = ms_stopped /\
        c_pos (y_c y') = c_pos (y_c y) /\ not_pending homingError y' /\ not_pending homingCompleted y'.
Proof.
  intros A M H. destruct (probe_lemma A M H _ _ _ _ _ (stuck_witness X)) as (y & R & E).
  unfold look, look_in in E. injection E as HS HA CS CL EL HC HW EI.
  assert (NP : forall e, not_pending e y).
  { intros e. unfold not_pending. rewrite EL. intros []. }
  exists y. split; [exact R|]. split; [exact HS|]. split; [exact CS|].
  split; [unfold queue; rewrite CL; reflexivity|]. split; [exact NP|].
  intros ops SO.
  assert (HO : holds_open (h_close (y_h y)) y).
  { intros j d N _. apply (map_nth_error (fun d => (db_current d, db_previous d, io d))) in N. rewrite EI in N.
    apply nth_error_In in N.
    change (In (db_current d, db_previous d, io d) (map (fun d => (true, true, io d)) myInputs)) in N. apply in_map_iff in N. destruct N as (d' & E & _). apply (f_equal fst) in E. injection E as <- <-. split; reflexivity. }
  destruct (stuck_lemma A M H (tickWidth A) y ops R HS CS) as (y' & E1 & E2 & E3 & E4 & E5).
  - rewrite HW. reflexivity.
  - apply NP.
  - exact HO.
  - rewrite HC. exact SO.
  - exists y'. split; [exact E1|]. split; [exact E2|]. split; [exact E3|]. split; [exact E4|].
    assert (Q : forall x, In x [homingError; homingCompleted] -> not_pending x y').
    { intros x IX I. destruct (E5 x) as [B|(d & ID & RP)]; [intro B; exact (B I) | exact (B (NP x)) |].
      assert (B : Forall (fun d => db_onOpen d <> x /\ db_onClose d <> x) myInputs).
      { destruct IX as [<-|[<-|[]]]; repeat constructor; discriminate. }
      rewrite Forall_forall in B. destruct (B d ID) as [B1 B2]. destruct RP as [RP|RP]; [exact (B1 RP)|exact (B2 RP)]. }
    split; apply Q; cbn; auto.
Qed.

(** *** Two motions at once *)
Definition closed_z : list sys_op := repeat (YSample (false :: repeat true 8)) 5.
Definition open_z : list sys_op := repeat (YSample (repeat true 9)) 5.
Definition late_ops : list sys_op := rounds 10 ++ closed_z ++ rounds 10 ++ open_z ++ rounds 6.
Lemma late_witness X : let A := sf_arith X in let M := cnc3axis A in let H := short_travel A in
  probe A M H (fun y => (h_state (y_h y), h_axis (y_h y), c_state (y_c y), c_level (y_c y),
      map (fun o => (mo_type o, map (mo_isMoving A o) [0; 1; 2]%nat)) (queue A (y_c y))))
    (tickWidth A) (repeat true 9) late_ops =
  Some (hs_closing, 0%nat, ms_running, 2, [(feedLinear, [false; false; true]); (feedLinear, [true; false; false])]).
Proof. vm_compute. reflexivity. Qed.
Lemma late_lemma X : let A := sf_arith X in let M := cnc3axis A in let H := short_travel A in
  exists y o1 o2, reachable A M H (tickWidth A) y /\ c_state (y_c y) = ms_running /\
    queue A (y_c y) = [o1; o2] /\
    map (mo_isMoving A o1) [0; 1; 2]%nat = [false; false; true] /\
    map (mo_isMoving A o2) [0; 1; 2]%nat = [true; false; false] /\
    h_state (y_h y) = hs_closing /\ h_axis (y_h y) = 0%nat.
Proof.
  cbv zeta. destruct (probe_lemma _ _ _ _ _ _ _ _ (late_witness X)) as (y & R & E).
  apply (f_equal (fun p => p)) in E.
  assert (E1 : h_state (y_h y) = hs_closing) by (apply (f_equal (fun p => fst (fst (fst (fst p))))) in E; exact E).
  assert (E2 : h_axis (y_h y) = 0%nat) by (apply (f_equal (fun p => snd (fst (fst (fst p))))) in E; exact E).
  assert (E3 : c_state (y_c y) = ms_running) by (apply (f_equal (fun p => snd (fst (fst p)))) in E; exact E).
  apply (f_equal snd) in E. cbn [snd] in E.
  destruct (queue (sf_arith X) (y_c y)) as [|o1 [|o2 [|o3 q]]] eqn:Q; try discriminate.
  apply (f_equal (map snd)) in E. cbn [map snd] in E. 
  exists y, o1, o2. split; [exact R|]. split; [exact E3|]. split; [exact Q|].
  injection E as X1 X2 X3 X4 X5 X6. cbn [map]. rewrite X1, X2, X3, X4, X5, X6. auto.
Qed.

(** *** Wiring *)
Lemma wired_lemma {D F} (A : arith D F) max a : (a < 3)%nat ->
  (wired (cnc3axis_homing A) myInputs max a <-> (max = true \/ a = 2%nat)).
Proof.
  intro L. destruct a as [|[|[|a]]]; try lia; destruct max; cbn; split; intro W;
    try (destruct W as (d & E & E1 & E2); cbn in E; injection E as <-; discriminate);
    try (eexists; split; [reflexivity|split; reflexivity]); auto; destruct W; discriminate.
Qed.
