(** * Changes of the feed override *)
Require Import List Arith NArith ZArith Bool Reals Lra Lia.
From Coq Require Import Floats.SpecFloat.
From Verif Require Import Base EventModel StepModel Num NumSF NumR MotionModel CtrlModel CtrlSpec CtrlProofs CtrlIdleProofs.
From Verif Require Import CtrlRSpec CtrlTimeProofs ProfileSpec GeomSpec RunSpec RunTickProofs RunPlanProofs RunStartProofs FloatSpec FloatClockProofs FloatLimitProofs OverrideSpec.
Import ListNotations.
Open Scope R_scope.

Section Ignored.
Context {D F : Type} (A : arith D F) (M : machine F) (fo : F).
Definition lift (r : res (ctrl F)) : res (ctrl F) := match r with Ok c => Ok (with_override c fo) | UB => UB end.

Lemma move_axes_lift o d l : forall c, c_moveAxes A M o d (with_override c fo) l = lift (c_moveAxes A M o d c l).
Proof.
  induction l as [|i l IH]; intro c; cbn [c_moveAxes]; [reflexivity|].
  assert (E : c_moveAxis A M o d (with_override c fo) i = lift (c_moveAxis A M o d c i)).
  { unfold c_moveAxis. destruct (mo_isMoving A o i); [|reflexivity]. unfold c_trackAxis, c_decide, rbind.
    change (needStepForward A M (with_override c fo) i (mo_position A o i d)) with (needStepForward A M c i (mo_position A o i d)).
    change (needStepBackward A M (with_override c fo) i (mo_position A o i d)) with (needStepBackward A M c i (mo_position A o i d)).
    destruct (needStepForward A M c i (mo_position A o i d)) as [[]|]; [| |reflexivity].
    - unfold c_stepAxis. cbn [with_override c_pos c_sig]. destruct (int32_ok _); reflexivity.
    - destruct (needStepBackward A M c i (mo_position A o i d)); [|reflexivity].
      unfold c_stepAxis. cbn [with_override c_pos c_sig]. destruct (int32_ok _); reflexivity. }
  rewrite E. unfold rbind, lift. destruct (c_moveAxis A M o d c i) as [c1|]; [apply IH|reflexivity].
Qed.
Lemma move_lift c : c_move A M (with_override c fo) = lift (c_move A M c).
Proof. unfold c_move. apply move_axes_lift. Qed.
Lemma advance_lift n : forall c, c_advance A M n (with_override c fo) = lift (c_advance A M n c).
Proof.
  induction n as [|n IH]; intro c; cbn [c_advance];
    change (c_st (with_override c fo)) with (c_st c); change (c_getHead A (with_override c fo)) with (c_getHead A c); change (c_level (with_override c fo)) with (c_level c);
    (destruct (st_isBeyond _ _ _); [|apply move_lift]); (destruct (1 <? c_level c)%N; [|reflexivity]).
  - reflexivity.
  - cbv zeta. rewrite <- IH. reflexivity.
Qed.
Lemma tick_lift c : c_tick A M (with_override c fo) = lift (c_tick A M c).
Proof.
  unfold c_tick. cbv zeta. change (c_sig (with_override c fo)) with (c_sig c). 
  change (c_with_sig (with_override c fo) (sg_next (c_sig c))) with (with_override (c_with_sig c (sg_next (c_sig c))) fo).
  set (c1 := c_with_sig c (sg_next (c_sig c))). change (c_isRunning (with_override c1 fo)) with (c_isRunning c1).
  destruct (c_isRunning c1); [|reflexivity].
  change (c_st (with_override c1 fo)) with (c_st c1). change (c_with_st (with_override c1 fo) (st_next A (c_st c1))) with (with_override (c_with_st c1 (st_next A (c_st c1))) fo).
  set (c2 := c_with_st c1 (st_next A (c_st c1))). change (c_st (with_override c2 fo)) with (c_st c2). change (c_getHead A (with_override c2 fo)) with (c_getHead A c2).
  destruct (st_isBeyond _ _ _); [|apply advance_lift]. rewrite <- advance_lift. reflexivity.
Qed.
Lemma calc_lift n : forall c, c_calc A M n (with_override c fo) = match c_calc A M n c with Ok (Some (c', s)) => Ok (Some (with_override c' fo, s)) | Ok None => Ok None | UB => UB end.
Proof.
  induction n as [|n IH]; intro c; cbn [c_calc]; [reflexivity|]. rewrite tick_lift. unfold rbind, lift. destruct (c_tick A M c) as [c1|]; [|reflexivity].
  change (c_sig (with_override c1 fo)) with (c_sig c1). destruct (_ || _); [|apply IH]. destruct (sg_output (c_sig c1)) as [g s]. reflexivity.
Qed.
Lemma step_lift o c : goes_on o -> c_step A M (with_override c fo) o = match c_step A M c o with Ok (c', s) => Ok (with_override c' fo, s) | UB => UB end.
Proof.
  intro G. destruct o; try contradiction; cbn [c_step].
  - unfold c_flush. change (c_isRunning (with_override c fo)) with (c_isRunning c). destruct (negb (c_isRunning c)); reflexivity.
  - reflexivity.
  - rewrite calc_lift. change (c_sig (with_override c fo)) with (c_sig c). unfold rbind. destruct (c_calc A M _ c) as [[[c' s]|]|]; reflexivity.
Qed.
Lemma run_lift ops : Forall goes_on ops -> forall c, c_run A M (with_override c fo) ops = match c_run A M c ops with Ok (c', s) => Ok (with_override c' fo, s) | UB => UB end.
Proof.
  induction 1 as [|o ops G _ IH]; intro c; cbn [c_run]; [reflexivity|]. rewrite step_lift by auto. unfold rbind. destruct (c_step A M c o) as [[c1 s1]|]; [|reflexivity].
  rewrite IH. destruct (c_run A M c1 ops) as [[c2 s2]|]; reflexivity.
Qed.
Lemma change_ignored c ops : Forall goes_on ops ->
  c_run A M c (OOverride fo :: ops) = match c_run A M c ops with Ok (c', recs) => Ok (with_override c' fo, recs) | UB => UB end.
Proof.
  intro G. cbn [c_run c_step rbind]. fold (with_override c fo). rewrite run_lift by exact G. unfold rbind. destruct (c_run A M c ops) as [[c2 s2]|]; reflexivity.
Qed.
End Ignored.

(** *** In binary32/binary64 *)
Section Witness.
Variable X : sf_funs.
Let A := sf_arith X.
Let M := cnc3axis A.
Let c0 := c_init A 375 (tickWidth A).
Let one := nofZ (aF A) 1.
Let nil := nofZ (aF A) 0.

Lemma zero_rapid : c_run A M c0 [OOverride nil; OAppend (travX A 10); OStart; OCalc] = UB.
Proof. vm_compute. reflexivity. Qed.

Lemma zero_first : exists c recs, c_run A M c0 [OOverride nil; OAppend (linX A 10 10); OStart; OCalc; OOverride one] = Ok (c, recs) /\
  c_state c = ms_stopped /\ c_events c = [motionStarted; motionStopped] /\ c_level c = 1%N /\ c_fo c = one.
Proof.
  destruct (c_run A M c0 [OOverride nil; OAppend (linX A 10 10); OStart; OCalc; OOverride one]) as [[c recs]|] eqn:E; vm_compute in E; [|discriminate].
  exists c, recs. split; [reflexivity|]. inversion E. repeat split.
Qed.
Lemma zero_lasts k : exists c recs, c_run A M c0 ([OOverride nil; OAppend (linX A 10 10); OStart; OCalc; OOverride one] ++ repeat OCalc k) = Ok (c, recs) /\
  c_state c = ms_stopped /\ c_events c = [motionStarted; motionStopped] /\ c_level c = 1%N /\ c_fo c = one.
Proof.
  destruct zero_first as (c & recs & E & S & EV & L & FO).
  destruct (stopped_stays_lemma A M 375 (tickWidth A) _ c recs k ltac:(reflexivity) E S) as (g & recs' & p & R & _).
  eexists _, _. split.
  { etransitivity; [exact (CtrlIdleProofs.run_app X c0 _ _)|]. fold A M. rewrite E. cbn [rbind]. rewrite R. cbn [rbind]. reflexivity. }
  auto.
Qed.

(** Two motions queued and the first one under way. *)
Lemma ignored_example : exists c recs, c_run A M c0 [OAppend (linX A 10 10); OAppend (linX A 10 10); OStart; OCalc] = Ok (c, recs) /\ c_state c = ms_running /\ c_level c = 2%N.
Proof.
  destruct (c_run A M c0 [OAppend (linX A 10 10); OAppend (linX A 10 10); OStart; OCalc]) as [[c recs]|] eqn:E; vm_compute in E; [|discriminate].
  exists c, recs. split; [reflexivity|]. inversion E. repeat split.
Qed.
End Witness.

Lemma rapid_same X M o m fo fo' x x' st : float32 fo x -> float32 fo' x' -> 0 < x -> 0 < x' -> sm_vFeed m = ninf (aD (sf_arith X)) ->
  mo_set (sf_arith X) M o m fo st = mo_set (sf_arith X) M o m fo' st.
Proof.
  intros F1 F2 P1 P2 V. apply FloatClockProofs.fin_float32 in F1, F2. unfold mo_set. destruct (is_move (sm_type m)) eqn:MV; [|reflexivity].
  unfold mo_optimize. cbn [mo_type]. rewrite MV. cbn [mo_traj mo_prof mo_per mo_type].
  assert (E : forall len minS, p_optimize (aF (sf_arith X)) (prof_setSpeed (sf_arith X) M (mo_prof o) (traj_set (sf_arith X) m) m) len minS fo st =
    p_optimize (aF (sf_arith X)) (prof_setSpeed (sf_arith X) M (mo_prof o) (traj_set (sf_arith X) m) m) len minS fo' st).
  { intros len minS. unfold p_optimize, p_plan. destruct st; [|reflexivity].
    assert (EV : p_vFeed (prof_setSpeed (sf_arith X) M (mo_prof o) (traj_set (sf_arith X) m) m) = S754_infinity false).
    { unfold prof_setSpeed. cbn [p_vFeed]. rewrite V. reflexivity. }
    rewrite EV. change (nmul (aF (sf_arith X))) with (SFmul 24 128). rewrite (inf_mul fo x F1 P1), (inf_mul fo' x' F2 P2). reflexivity. }
  rewrite E. reflexivity.
Qed.

(** *** Exact arithmetic *)
Lemma next_motion M r fo c m P : machine_is M r -> 0 < fo -> c_state c = ms_running -> c_fo c = XF fo -> length (c_items c) = 32%nat -> (c_head c < 32)%N -> (c_level c < 32)%N ->
  executable r m P ->
  exists o l, queue x_arith (c_append x_arith M c m) = queue x_arith c ++ [o] /\ lg_path l = P /\ leg_ok r (sm_vFeed m) fo l /\ executed o l.
Proof.
  intros MI FO ST CF LI LH LL EX. destruct (push_queue M c m) as (_ & _ & _ & _ & o & Q); [repeat split; auto; lia|auto|].
  rewrite CF in Q. unfold c_strategy in Q. rewrite ST in Q.
  pose proof (set_ready M r fo MI FO o (m, P) maximizeSpeed EX) as RD. destruct (ready_runs M r fo _ (m, P) EX RD) as (l & L1 & L2 & [R1 R2 R3 R4 _]).
  exists (mo_set x_arith M o m (XF fo) maximizeSpeed), l. split; [exact Q|]. split; [exact L1|]. split; [exact L2|]. constructor; auto.
Qed.

Lemma change_ignored' D F (A : arith D F) (M : machine F) (c : ctrl F) (fo : F) ops : Forall goes_on ops ->
  c_run A M c (OOverride fo :: ops) = match c_run A M c ops with Ok (c', recs) => Ok (with_override c' fo, recs) | UB => UB end.
Proof. intro G. apply change_ignored, G. Qed.

Lemma two_overrides X : let A := sf_arith X in float32 (ndec (aF A) 5 1) (1/2) /\ float32 (nofZ (aF A) 2) 2 /\ sm_vFeed (travX A 10) = ninf (aD A).
Proof.
  cbv zeta. split; [|split; [|reflexivity]]; (split; [vm_compute; reflexivity|]).
  - assert (E : ndec (aF (sf_arith X)) 5 1 = S754_finite false 8388608 (-24)) by (vm_compute; reflexivity). rewrite E. cbn [sf_val]. f_equal. cbv [powerRZ Pos.to_nat Pos.iter_op Nat.add pow]. field.
  - assert (E : nofZ (aF (sf_arith X)) 2 = S754_finite false 8388608 (-22)) by (vm_compute; reflexivity). rewrite E. cbn [sf_val]. f_equal. cbv [powerRZ Pos.to_nat Pos.iter_op Nat.add pow]. field.
Qed.
