(** A stopped controller (C25), stop on an empty queue (C24), motions that never
    complete (C33). *)
Require Import List Arith NArith ZArith Bool Lia ZifyBool ZifyNat ZifyN.
From Verif Require Import Base BaseProofs EventModel StepModel StepSpec StepSignalsProofs Num NumSF MotionModel CtrlModel CtrlSpec CtrlProofs CtrlQueueProofs.
Import ListNotations.
Open Scope N_scope.

Section Idle.
Context {D F : Type} (A : arith D F) (M : machine F).

Lemma run_idle k : forall g, let g' := fst (fst (sg_run g (repeat [] k))) in
  sg_stepFall g' = sg_stepFall g /\ sg_maxTicks g' = sg_maxTicks g /\
  ((1 <= k)%nat -> sg_stepRise g' = sg_stepFall g) /\
  ((1 <= k)%nat -> sg_stepRise g = sg_stepFall g -> sg_dirSetup g' = sg_stepFall g) /\
  ((1 <= k)%nat -> sg_stepRise g = sg_stepFall g -> True).
Proof.
  induction k; intro g; cbn [repeat sg_run].
  - cbn. repeat split; intros; lia.
  - set (t := sg_tick g []). destruct t as [g1 o] eqn:ET. unfold t in ET. clear t.
    assert (G1 : sg_stepFall g1 = sg_stepFall g /\ sg_stepRise g1 = sg_stepFall g /\ sg_dirSetup g1 = sg_stepRise g
       /\ sg_maxTicks g1 = sg_maxTicks g).
    { unfold sg_tick in ET. cbn [sg_cmds] in ET. destruct (_ || _); inversion ET; subst; repeat split. }
    destruct G1 as (X1 & X2 & X3 & X4). specialize (IHk g1). cbv zeta in IHk.
    destruct k.
    + cbn. repeat split; auto; congruence.
    + destruct (sg_run g1 (repeat [] (S k))) as [[g2 p] q]. cbn [fst snd] in *.
      destruct IHk as (Y1 & Y2 & Y3 & Y4 & _).
      repeat split; try congruence.
      * intros _. rewrite Y3 by lia. auto.
      * intros _ _. rewrite Y4; try lia; congruence.
Qed.

Lemma calc_idle p n : forall (c : ctrl F), c_state c = ms_stopped ->
  sg_stepFall (c_sig c) = p -> sg_stepRise (c_sig c) = p -> sg_dirSetup (c_sig c) = p -> sg_lastOutput (c_sig c) = p ->
  let m := N.max 1 (sg_maxTicks (c_sig c)) in
  m < two32 -> m = sg_ticks (c_sig c) + N.of_nat n -> (1 <= n)%nat ->
  exists g, c_calc A M n c = Ok (Some (c_with_sig c g, mkStep m p)) /\
    sg_stepFall g = p /\ sg_stepRise g = p /\ sg_dirSetup g = p /\ sg_lastOutput g = p /\
    sg_maxTicks g = sg_maxTicks (c_sig c) /\ sg_ticks g = 0.
Proof.
  induction n; intros c HS F1 R1 D1 L1 m Hm HN H1; [lia|].
  cbn [c_calc]. rewrite tick_stopped by auto. cbn [rbind].
  change (c_sig (c_with_sig c (sg_next (c_sig c)))) with (sg_next (c_sig c)).
  unfold sg_isModified, sg_isTimedOut. cbn [sg_next sg_dirSetup sg_lastOutput sg_maxTicks sg_ticks].
  rewrite R1, L1, N.eqb_refl. cbn [negb orb].
  unfold add32, w32. rewrite N.mod_small by lia.
  destruct (sg_maxTicks (c_sig c) <=? sg_ticks (c_sig c) + 1) eqn:E.
  - assert (EO : sg_output (sg_next (c_sig c)) = (mkSigs p p p p 0 (sg_maxTicks (c_sig c)), mkStep m p)).
    { unfold sg_output, sg_next. cbn [sg_dirSetup sg_stepRise sg_stepFall sg_lastOutput sg_maxTicks sg_ticks].
      unfold add32, w32. rewrite N.mod_small by lia. rewrite R1, F1. f_equal. f_equal. unfold m in *. lia. }
    rewrite EO. eexists. split; [reflexivity|]. repeat split.
  - destruct (IHn (c_with_sig c (sg_next (c_sig c)))) as (g & E1 & E2); auto.
    + assert (ET : sg_ticks (c_sig (c_with_sig c (sg_next (c_sig c)))) = sg_ticks (c_sig c) + 1).
      { cbn [c_sig c_with_sig sg_next sg_ticks]. unfold add32, w32. apply N.mod_small. lia. }
      rewrite ET. change (sg_maxTicks (c_sig (c_with_sig c (sg_next (c_sig c))))) with (sg_maxTicks (c_sig c)).
      unfold m in *. lia.
    + unfold m in *. lia.
    + exists g. split; [exact E1|exact E2].
Qed.

Lemma calc_stopped_ok (c : ctrl F) : c_state c = ms_stopped -> length (c_pos c) = 3%nat -> sg_maxTicks (c_sig c) < two32 ->
  sg_ticks (c_sig c) = 0 ->
  exists g s k, c_calc A M (N.to_nat (N.max 1 (sg_maxTicks (c_sig c)))) c = Ok (Some (c_with_sig c g, s)) /\
    g = fst (fst (sg_run (c_sig c) (repeat [] k))) /\ (1 <= k)%nat /\ sg_ticks g = 0 /\ sg_lastOutput g = sg_dirSetup g.
Proof.
  intros HS HL HM HT.
  destruct (calc_terminates A M (N.to_nat (N.max 1 (sg_maxTicks (c_sig c)))) c HL HM) as [E|(c' & s & E & _)]; try lia.
  - exfalso. pose proof (calc_stopped A M _ c _ HS E). auto.
  - pose proof (calc_stopped A M _ c _ HS E) as (k & G & R & EC).
    exists (c_sig c'), s, k. rewrite E. split. { f_equal. f_equal. f_equal. auto. }
    split; auto. split. { destruct k; [|lia]. cbn in R. discriminate. }
    clear - E. revert E. generalize (N.to_nat (N.max 1 (sg_maxTicks (c_sig c)))). intro n. revert c.
    induction n; intros c H; cbn [c_calc] in H; [discriminate|]. unfold rbind in H.
    destruct (c_tick A M c) as [c1|]; [|discriminate]. destruct (_ || _).
    + inversion H; subst. split; reflexivity.
    + eauto.
Qed.

Lemma with_sig_twice (c : ctrl F) g h : c_with_sig (c_with_sig c g) h = c_with_sig c h.
Proof. reflexivity. Qed.

Lemma run_calc_cons (c : ctrl F) k : c_run A M c (repeat OCalc (S k)) =
  (x <- c_step A M c OCalc ;; let '(c1, s1) := x in
   y <- c_run A M c1 (repeat OCalc k) ;; let '(c2, s2) := y in Ok (c2, s1 ++ s2)).
Proof. reflexivity. Qed.

Lemma idle_runs p k : forall (c : ctrl F), c_state c = ms_stopped ->
  sg_stepFall (c_sig c) = p -> sg_stepRise (c_sig c) = p -> sg_dirSetup (c_sig c) = p -> sg_lastOutput (c_sig c) = p ->
  sg_ticks (c_sig c) = 0 -> sg_maxTicks (c_sig c) < two32 ->
  exists g, c_run A M c (repeat OCalc k) = Ok (c_with_sig c g, repeat (mkStep (N.max 1 (sg_maxTicks (c_sig c))) p) k).
Proof.
  induction k; intros c HS F1 R1 D1 L1 T1 HM.
  - exists (c_sig c). cbn. destruct c; reflexivity.
  - rewrite run_calc_cons. cbn [c_step].
    destruct (calc_idle p (N.to_nat (N.max 1 (sg_maxTicks (c_sig c)))) c) as (g & E & G1 & G2 & G3 & G4 & G5 & G6); auto; try (unfold two32 in *; lia).
    rewrite E. cbn [rbind]. destruct (IHk (c_with_sig c g)) as (g2 & E2); auto.
    { cbn [c_sig c_with_sig]. congruence. }
    rewrite E2. cbn [rbind]. exists g2. rewrite with_sig_twice. cbn [c_sig c_with_sig]. rewrite G5. reflexivity.
Qed.

Lemma run_sig_good m width ops (c : ctrl F) recs : c_run A M (c_init A m width) ops = Ok (c, recs) ->
  length (c_pos c) = 3%nat /\ sg_maxTicks (c_sig c) = m /\ sg_ticks (c_sig c) = 0 /\
  forall a, a < 3 -> step_pin a (sg_stepFall (c_sig c)) = false.
Proof.
  intro H. destruct (run_css A M ops (c_init A m width) c recs eq_refl H) as (css & _ & G & _ & L & T & _).
  split; auto. split. { apply (run_sig A M ops (c_init A m width) c recs eq_refl H). }
  split; [auto|]. intros a Ha. rewrite <- G. change (c_sig (c_init A m width)) with (sg_setMaxTicks sg_zero m).
  assert (X : forall css g prev cur, good a g prev cur -> exists prev' cur', good a (fst (fst (sg_run g css))) prev' cur').
  { clear - Ha. induction css as [|cs r IH]; intros g prev cur HG; cbn [sg_run]; eauto.
    destruct (tick_good a g cs prev cur ltac:(lia) HG) as (G' & _ & _).
    destruct (sg_tick g cs) as [g1 o]. cbn [fst] in G'. destruct (IH _ _ _ G') as (? & ? & ?).
    destruct (sg_run g1 r) as [[g2 ?] ?]. cbn [fst] in *. eauto. }
  destruct (X css _ _ _ (good_zero a m)) as (? & ? & (_ & E & _)). exact E.
Qed.

Lemma stopped_stays_lemma m width ops (c : ctrl F) recs k : m < two32 ->
  c_run A M (c_init A m width) ops = Ok (c, recs) -> c_state c = ms_stopped ->
  exists g recs' p, c_run A M c (repeat OCalc k) = Ok (c_with_sig c g, recs') /\ length recs' = k /\
    (forall a, a < 3 -> step_pin a p = false) /\
    forall i, (2 <= i < k)%nat -> nth i recs' dstep = mkStep (N.max 1 m) p.
Proof.
  intros Hm H HS. destruct (run_sig_good _ _ _ _ _ H) as (HL & HM & HT & HP).
  assert (HM' : sg_maxTicks (c_sig c) < two32) by congruence.
  destruct k as [|k].
  { exists (c_sig c), [], (sg_stepFall (c_sig c)). cbn. split. { destruct c; reflexivity. } repeat split; auto; intros; lia. }
  rewrite run_calc_cons. cbn [c_step].
  destruct (calc_stopped_ok c HS HL HM' HT) as (g1 & s1 & k1 & E1 & G1 & K1 & T1 & L1).
  rewrite E1. cbn [rbind]. destruct (run_idle k1 (c_sig c)) as (F1 & X1 & R1 & D1 & _). rewrite <- G1 in *.
  destruct k as [|k].
  { exists g1, [s1], (sg_stepFall (c_sig c)). cbn. split; auto. repeat split; auto; intros; lia. }
  rewrite run_calc_cons. cbn [c_step].
  destruct (calc_stopped_ok (c_with_sig c g1) HS HL) as (g2 & s2 & k2 & E2 & G2 & K2 & T2 & L2);
    [cbn [c_sig c_with_sig]; congruence|exact T1|].
  change (c_sig (c_with_sig c g1)) with g1 in E2. cbn [c_with_sig c_sig] in *.
  unfold c_with_sig at 1. cbn [c_sig]. fold (c_with_sig c g1).
  change (mkC (c_state c) (c_fo c) (c_st c) (c_items c) (c_head c) (c_level c) (c_levelMax c) g1 (c_pos c) (c_events c)) with (c_with_sig c g1).
  rewrite E2. cbn [rbind]. destruct (run_idle k2 g1) as (F2 & X2 & R2 & D2 & _). rewrite <- G2 in *.
  destruct (idle_runs (sg_stepFall (c_sig c)) k (c_with_sig c g2)) as (g3 & E3); auto; cbn [c_with_sig c_sig].
  - congruence.
  - rewrite R2 by lia. auto.
  - rewrite D2 by (try lia; rewrite R1 by lia; congruence). auto.
  - rewrite L2, D2 by (try lia; rewrite R1 by lia; congruence). auto.
  - congruence.
  - change (c_with_sig (c_with_sig c g1) g2) with (c_with_sig c g2).
    change (mkC (c_state c) (c_fo c) (c_st c) (c_items c) (c_head c) (c_level c) (c_levelMax c) g2 (c_pos c) (c_events c)) with (c_with_sig c g2).
    rewrite E3. cbn [rbind]. eexists g3, _, (sg_stepFall (c_sig c)). split; [reflexivity|].
    cbn [app length]. rewrite repeat_length. split; auto. split; auto.
    intros i Hi. destruct i as [|[|i]]; try lia. cbn [nth app].
    assert (Q : forall (x d : step) n j, (j < n)%nat -> nth j (repeat x n) d = x).
    { clear. induction n; intros j Hj; [lia|]. destruct j; cbn; auto. apply IHn. lia. }
    rewrite Q by lia. f_equal. cbn [c_with_sig c_sig]. congruence.
Qed.
End Idle.

(** *** Counterexamples, in binary32/binary64 arithmetic with arbitrary
    trigonometric functions. *)
Section Witness.
Variable X : sf_funs.
Let A := sf_arith X.
Let M := cnc3axis A.

Definition stop_empty_ops : list (c_op sf sf) := [OStop; OCalc].

Lemma stop_empty_lemma :
  exists c recs, c_run A M (c_init A 375 (tickWidth A)) stop_empty_ops = Ok (c, recs) /\
    c_level c = two32 - 1 /\ c_state c = ms_stopped /\
    c_events c = [stopRequested; motionStopped; motionStopped; motionCompleted; allMotionsCompleted].
Proof.
  destruct (c_run A M (c_init A 375 (tickWidth A)) stop_empty_ops) as [[c recs]|] eqn:E;
    vm_compute in E; [|discriminate].
  exists c, recs. split; [reflexivity|]. inversion E. repeat split.
Qed.

Lemma stop_harmless_refuted_lemma :
  exists ops c recs, c_run A M (c_init A 375 (tickWidth A)) ops = Ok (c, recs) /\ c_state c = ms_stopped /\
    forall m, c_events (c_append A M c m) = c_events c ++ [motionBufferOverflow] /\ c_append A M c m = c_emit c [motionBufferOverflow].
Proof.
  destruct stop_empty_lemma as (c & recs & E & L & S & _). exists stop_empty_ops, c, recs.
  split; auto. split; auto. intro m. unfold c_append, c_isFull. rewrite L. split; reflexivity.
Qed.

Lemma dwell_ub_lemma : c_run A M (c_init A 375 (tickWidth A)) [OAppend (dwell A 1); OStart; OCalc] = UB.
Proof. vm_compute. reflexivity. Qed.

Lemma zero_length_ub_lemma : c_run A M (c_init A 375 (tickWidth A)) [OAppend (travX A 0); OStart; OCalc] = UB.
Proof. vm_compute. reflexivity. Qed.

Lemma zero_feed_lemma :
  exists c recs, c_run A M (c_init A 375 (tickWidth A)) [OAppend (linX A 10 0); OStart; OCalc] = Ok (c, recs) /\
    c_state c = ms_stopped /\ c_events c = [motionStarted; motionStopped] /\ c_level c = 1.
Proof.
  destruct (c_run A M (c_init A 375 (tickWidth A)) [OAppend (linX A 10 0); OStart; OCalc]) as [[c recs]|] eqn:E;
    vm_compute in E; [|discriminate].
  exists c, recs. split; [reflexivity|]. inversion E. repeat split.
Qed.

(** Stop requested while the motion is still speeding up. *)
Lemma replan_jump_lemma :
  exists ops c recs, c_run A M (c_init A 375 (tickWidth A)) ops = Ok (c, recs) /\ c_state c = ms_running /\
    nltb (aF A) (setpoint A c 0) (ndec (aF A) 1 2) = true /\
    nltb (aF A) (ndec (aF A) 3 2) (setpoint A (c_stop A M c) 0) = true.
Proof.
  destruct (c_run A M (c_init A 375 (tickWidth A)) (OAppend (linX A 10 10) :: OStart :: repeat OCalc 8)) as [[c recs]|] eqn:E;
    vm_compute in E; [|discriminate].
  exists (OAppend (linX A 10 10) :: OStart :: repeat OCalc 8), c, recs.
  split. { vm_compute. exact E. } inversion E. vm_compute. auto.
Qed.

Lemma run_app (c : ctrl sf) l1 : forall l2, c_run A M c (l1 ++ l2) =
  (x <- c_run A M c l1 ;; let '(c1, s1) := x in
   y <- c_run A M c1 l2 ;; let '(c2, s2) := y in Ok (c2, s1 ++ s2)).
Proof.
  revert c. induction l1 as [|o r IH]; intros c l2; cbn [app c_run rbind].
  - destruct (c_run A M c l2) as [[? ?]|]; reflexivity.
  - destruct (c_step A M c o) as [[c1 s1]|]; cbn [rbind]; [|reflexivity]. rewrite IH.
    destruct (c_run A M c1 r) as [[c2 s2]|]; cbn [rbind]; [|reflexivity].
    destruct (c_run A M c2 l2) as [[c3 s3]|]; cbn [rbind]; [|reflexivity]. now rewrite app_assoc.
Qed.

Lemma zero_feed_never_lemma k :
  exists c recs, c_run A M (c_init A 375 (tickWidth A)) ([OAppend (linX A 10 0); OStart; OCalc] ++ repeat OCalc k) = Ok (c, recs) /\
    c_state c = ms_stopped /\ c_events c = [motionStarted; motionStopped] /\ c_level c = 1.
Proof.
  destruct zero_feed_lemma as (c & recs & E & S & EV & L).
  destruct (stopped_stays_lemma A M 375 (tickWidth A) _ c recs k ltac:(reflexivity) E S) as (g & recs' & p & R & _).
  rewrite run_app, E. cbn [rbind]. rewrite R. cbn [rbind]. eexists _, _. split; [reflexivity|]. auto.
Qed.
End Witness.
